(** The unscented Kalman filter on linear models, and in rescaled coordinates. *)
From mathcomp Require Import all_ssreflect all_algebra.
From mathcomp Require Import fingroup perm.
From Verif Require Import Res RingTac Cholesky Spec_UKF Cholesky_proofs UKF Spec_Filter UKF_proofs.
Set Implicit Arguments.
Unset Strict Implicit.
Unset Printing Implicit Defensive.
Import Order.Theory GRing.Theory Num.Theory.
Local Open Scope ring_scope.

Section Linear.
Variable R : rcfType.
Variable svd : forall n, 'M[R]_n -> option ('rV[R]_n * 'M[R]_n).
Variables U K : Type.
Add Field rcf : (rcf_field R).
Variables n p : nat.
Notation L := (aug_len n p).
Notation ones k := (const_mx 1 : 'rV[R]_k).

Lemma posdef_inj m1 m2 (A : 'M[R]_m2) (M : 'M[R]_(m1, m2)) : posdef A ->
  (forall v : 'rV[R]_m1, v *m M = 0 -> v = 0) -> posdef (M *m A *m M^T).
Proof.
move=> [sA pA] inj; split; first by rewrite !trmx_mul trmxK sA mulmxA.
move=> v nz; rewrite qf_cong; apply: pA; apply: contra nz => /eqP /inj ->.
exact: eqxx.
Qed.

(** Samples that are affine functions of the sigma points. *)
Section Affine.
Variables (t : tuning R) (x : 'rV[R]_n) (C : 'M[R]_L).
Hypothesis ac : accepted t L.
Lemma delta_affine m (G : 'rV[R]_L -> 'rV[R]_m) A a : (forall r, G r = r *m A + a) ->
  delta (rows G (sigma t x C)) = col_mx (gamma_param t L *: (C^T *m A)) (- gamma_param t L *: (C^T *m A)).
Proof.
move=> e; rewrite delta_rows; congr col_mx; apply/row_matrixP => k; rewrite rowK !e.
  by rewrite mul1r mulmxDl opprD addrACA subrr addr0 addrAC subrr add0r -scalemxAl linearZ /= row_mul.
by rewrite mulN1r mulmxDl opprD addrACA subrr addr0 addrAC subrr add0r -scalemxAl linearZ /= row_mul.
Qed.
Lemma shift_affine m (G : 'rV[R]_L -> 'rV[R]_m) A a : (forall r, G r = r *m A + a) ->
  shift t (rows G (sigma t x C)) = 0.
Proof.
move=> e; rewrite /shift (delta_affine e).
have -> : ones (L + L) = row_mx (ones L) (ones L).
  by apply/rowP => j; case: (split_ordP j) => l ->; rewrite ?row_mxEl ?row_mxEr !mxE.
by rewrite mul_row_col scaleNr mulmxN subrr scaler0.
Qed.
Lemma dcov_affine m1 m2 (G : 'rV[R]_L -> 'rV[R]_m1) A a (H : 'rV[R]_L -> 'rV[R]_m2) B b :
  (forall r, G r = r *m A + a) -> (forall r, H r = r *m B + b) ->
  dcov t (delta (rows G (sigma t x C))) (delta (rows H (sigma t x C))) = A^T *m (C *m C^T) *m B.
Proof.
move=> eG eH; have sG := shift_affine eG; have sH := shift_affine eH; rewrite /shift in sG sH.
rewrite /dcov; cbv zeta; rewrite sG sH mulmx0 scaler0 addr0.
rewrite (delta_affine eG) (delta_affine eH) tr_col_mx mul_row_col.
set g := gamma_param t L; set D := C^T *m A; set E := C^T *m B.
have -> : (g *: D)^T *m (g *: E) + (- g *: D)^T *m (- g *: E) = (g ^+ 2 + g ^+ 2) *: (D^T *m E).
  by rewrite ![(_ *: D)^T]linearZ /= -!scalemxAl -!scalemxAr !scalerA mulrNN -expr2 scalerDl.
by rewrite scalerA two_w_gamma // scale1r /D /E trmx_mul trmxK !mulmxA.
Qed.
Lemma mean_affine m (G : 'rV[R]_L -> 'rV[R]_m) A a : (forall r, G r = r *m A + a) ->
  usubmx (rows G (sigma t x C)) + shift t (rows G (sigma t x C)) = row_mx x 0 *m A + a.
Proof. by move=> e; rewrite rows0 (shift_affine e) addr0 e. Qed.
End Affine.

Section Model.
Variable md : model R U K n p.
Variables (F : U -> U -> 'M[R]_n) (c : U -> U -> 'rV[R]_n) (H : U -> 'M[R]_(n, p)) (d : U -> 'rV[R]_p).
Hypothesis beh : behaves_as md (fun u u' x => x *m F u u' + c u u') (fun u x => x *m H u + d u).
Hypothesis n0 : (0 < n)%N.
Hypothesis p0 : (0 < p)%N.

Lemma linear_step (f : ukf R U n p) u y : accepted (tune f) L ->
  posdef (covariance (hidden f)) -> posdef (cov_w f) -> posdef (cov_v f) ->
  let x := kf_predict (F (controls f) u) (c (controls f) u) (cov_w f) (hidden f) in
  step svd md f nil u y =
    Ok (Ukf (kf_correct (H u) (d u) (cov_v f) x y) u (tune f) (cov_w f) (cov_v f), kf_output (H u) (d u) (cov_v f) x) /\
  posdef (covariance (kf_correct (H u) (d u) (cov_v f) x y)).
Proof.
move=> ac pP pQ pV x; have [CP [CQ [CV [eP eQ eV eS]]]] := build_sigma svd pP pQ pV.
have c0 : spread (tune f) L != 0 by rewrite gt_eqF // (accepted_spread ac).
have [qP _ _] := cholesky_spec (proj1 pP) eP.
have [qQ _ _] := cholesky_spec (proj1 pQ) eQ; have [qV _ _] := cholesky_spec (proj1 pV) eV.
set Fu := F _ _ in x *; set cu := c _ _ in x *.
pose A : 'M[R]_(L, n) := col_mx Fu (col_mx 1%:M 0).
pose B : 'M[R]_(L, p) := col_mx (Fu *m H u) (col_mx (H u) 1%:M).
have rs (r : 'rV[R]_L) : r = row_mx (lsubmx r) (row_mx (lsubmx (rsubmx r)) (rsubmx (rsubmx r))) by rewrite !hsubmxK.
have eG r : fx (fun x => x *m Fu + cu) r = r *m A + cu.
  rewrite [in RHS](rs r) /A !mul_row_col mulmx1 mulmx0 addr0 /fx.
  by rewrite addrAC.
have eH r : fy (fun x => x *m Fu + cu) (fun x => x *m H u + d u) r = r *m B + (cu *m H u + d u).
  rewrite [in RHS](rs r) /B !mul_row_col mulmx1 /fy /fx !mulmxDl !mulmxA.
  by rewrite -!addrA; congr (_ + _); rewrite addrCA; congr (_ + _); rewrite addrA addrC.
have xA : row_mx (mean (hidden f)) 0 *m A + cu = mean x by rewrite /A mul_row_col mul0mx addr0.
have xB : row_mx (mean (hidden f)) 0 *m B + (cu *m H u + d u) = mean x *m H u + d u.
  by rewrite /B mul_row_col mul0mx addr0 /= mulmxDl addrA mulmxA.
set C := block_mx CP 0 0 _ in eS.
have eC : C *m C^T = block_mx (covariance (hidden f)) 0 0 (block_mx (cov_w f) 0 0 (cov_v f)).
  rewrite /C !tr_block_mx !mulmx_block !trmx0 !mulmx0 !mul0mx !addr0 !add0r qP.
  by rewrite qQ qV.
have AA : A^T *m (C *m C^T) *m A = covariance x.
  rewrite eC /A !tr_col_mx !mul_row_block !mulmx0 !addr0 !add0r mul_row_col trmx0 trmx1 mul1mx mul0mx.
  by rewrite mul_row_col mulmx1 mulmx0 addr0.
have BB : B^T *m (C *m C^T) *m B = (H u)^T *m covariance x *m H u + cov_v f.
  rewrite eC /B !tr_col_mx !mul_row_block !mulmx0 !addr0 !add0r mul_row_col trmx1 mul1mx.
  by rewrite mul_row_col mulmx1 /= mulmxDr mulmxDl trmx_mul !mulmxA addrA.
have AB : A^T *m (C *m C^T) *m B = covariance x *m H u.
  rewrite eC /A /B !tr_col_mx !mul_row_block !mulmx0 !addr0 !add0r mul_row_col trmx0 trmx1 mul1mx mul0mx.
  by rewrite mul_row_col mulmx1 addr0 /= mulmxDl !mulmxA.
have BA : (covariance x *m H u)^T = B^T *m (C *m C^T) *m A.
  by rewrite -AB !trmx_mul !trmxK !mulmxA.
have pJ : posdef (block_mx (covariance x) (covariance x *m H u) (covariance x *m H u)^T ((H u)^T *m covariance x *m H u + cov_v f)).
  have -> : block_mx (covariance x) (covariance x *m H u) (covariance x *m H u)^T ((H u)^T *m covariance x *m H u + cov_v f)
    = col_mx A^T B^T *m (C *m C^T) *m (col_mx A^T B^T)^T.
    by rewrite [(col_mx A^T B^T)^T]tr_col_mx !trmxK [col_mx A^T B^T *m _]mul_col_mx mul_col_row AA AB BB BA.
  apply: posdef_inj; first by rewrite eC; apply: posdef_diag2 => //; apply: posdef_diag2.
  move=> v; rewrite -(hsubmxK v); move: (lsubmx v) (rsubmx v) => av bv.
  rewrite mul_row_col /A /B !tr_col_mx !mul_mx_row add_row_mx => /eqP.
  rewrite row_mx_eq0 add_row_mx row_mx_eq0 trmx0 !trmx1 !mulmx1 mulmx0 add0r.
  move=> /and3P [_ /eqP e1 /eqP e2]; move: e1; rewrite e2 mul0mx addr0 => ->.
  by rewrite row_mx0.
have es := estimation_char beh n0 p0 (sigma (tune f) (mean (hidden f)) C) u c0; cbv zeta in es.
rewrite !(mean_affine _ _ _ eG) !(mean_affine _ _ _ eH) !(dcov_affine _ _ ac eG eG) !(dcov_affine _ _ ac eG eH)
  !(dcov_affine _ _ ac eH eH) xA xB AA BB AB in es.
have [ec pp _ _] := @correction_char R svd K n p n0 x (kf_output (H u) (d u) (cov_v f) x) _ y pJ.
have sS : ((H u)^T *m covariance x *m H u + cov_v f)^T = (H u)^T *m covariance x *m H u + cov_v f.
  by move: (proj1 pJ); rewrite tr_block_mx => /eq_block_mx [_ _ _].
have uS : (H u)^T *m covariance x *m H u + cov_v f \in unitmx.
  apply: posdef_unit; split=> // v nz.
  have := proj2 pJ (row_mx 0 v); rewrite row_mx_neq0 nz orbT => /(_ isT).
  by rewrite qf_block qfv0 mul0mx mul0mx [(0 : 'M_1) 0 0]mxE mulr0 !add0r.
have ek : covariance x - covariance x *m H u *m invmx ((H u)^T *m covariance x *m H u + cov_v f) *m (covariance x *m H u)^T
  = covariance (kf_correct (H u) (d u) (cov_v f) x y).
  by rewrite /kf_correct [RHS]/= mulmxKV // [in RHS]trmx_mul trmx_inv sS mulmxA.
rewrite ek in ec pp; split=> //.
rewrite /step eS /= es /=.
by move: ec => /= ->.
Qed.
End Model.
End Linear.

(** Rescaled coordinates: x' = x D + a for the states, y' = y E + b for the outputs. *)
Section Scaled.
Variable R : rcfType.
Variable svd : forall n, 'M[R]_n -> option ('rV[R]_n * 'M[R]_n).
Variables (U1 U2 K1 K2 : Type) (n p : nat).
Notation L := (aug_len n p).
Notation ones k := (const_mx 1 : 'rV[R]_k).
Variables (dn : 'rV[R]_n) (dp : 'rV[R]_p) (a : 'rV[R]_n) (b : 'rV[R]_p).
Hypothesis dn0 : forall i, dn 0 i != 0.
Hypothesis dp0 : forall i, dp 0 i != 0.
Let D := diag_mx dn.
Let E := diag_mx dp.

Lemma diag_unit m (d : 'rV[R]_m) : (forall i, d 0 i != 0) -> diag_mx d \in unitmx.
Proof. by move=> h; rewrite unitmxE det_diag unitfE prodf_seq_neq0; apply/allP => i _ /=. Qed.
Lemma posdef_diag m (d : 'rV[R]_m) P : (forall i, d 0 i != 0) -> posdef P -> posdef (diag_mx d *m P *m diag_mx d).
Proof. by move=> h pP; rewrite -{2}(tr_diag_mx d); apply: posdef_cong_unit => //; apply: diag_unit. Qed.

Variable phi : U1 -> U2.
Notation rescale := (@rescale R U1 U2 n p dn a dp b phi).
Variables (md1 : model R U1 K1 n p) (md2 : model R U2 K2 n p).
Variables (g1 : U1 -> U1 -> 'rV[R]_n -> 'rV[R]_n) (h1 : U1 -> 'rV[R]_n -> 'rV[R]_p).
Variables (g2 : U2 -> U2 -> 'rV[R]_n -> 'rV[R]_n) (h2 : U2 -> 'rV[R]_n -> 'rV[R]_p).
Hypothesis beh1 : behaves_as md1 g1 h1.
Hypothesis beh2 : behaves_as md2 g2 h2.
Hypothesis gg : forall u u' x, g2 (phi u) (phi u') (x *m D + a) = g1 u u' x *m D + a.
Hypothesis hh : forall u x, h2 (phi u) (x *m D + a) = h1 u x *m E + b.
Hypothesis n0 : (0 < n)%N.
Hypothesis p0 : (0 < p)%N.

Lemma row_rep k m m' (Z : 'M[R]_(k, m)) (M : 'M[R]_(m, m')) c i : row i (Z *m M + repeat_row k c) = row i Z *m M + c.
Proof.
rewrite linearD /= row_mul; congr (_ + _).
by apply/rowP => j; rewrite !mxE.
Qed.
Lemma delta_scaled k m (X : 'M[R]_(1 + k, m)) (M : 'M[R]_m) c : delta (X *m M + repeat_row _ c) = delta X *m M.
Proof.
rewrite /delta linearD /= mulmxBl !repeat_rowE; set o := const_mx 1; set o' := const_mx 1.
have -> : usubmx (X *m M + o^T *m c) = usubmx X *m M + c.
  rewrite linearD /= -mul_usub_mx; congr (_ + _).
  by apply/rowP => j; rewrite !mxE big_ord1 !mxE mul1r.
rewrite -mul_dsub_mx mulmxDr opprD addrACA.
have -> : dsubmx (o^T *m c) = o'^T *m c.
  by apply/matrixP => i j; rewrite !mxE !big_ord1 !mxE.
by rewrite subrr addr0 mulmxA.
Qed.
Lemma dcov_scaled (t : tuning R) m1 m2 (X : 'M[R]_(L + L, m1)) (Y : 'M[R]_(L + L, m2))
  (M1 : 'M[R]_m1) (M2 : 'M[R]_m2) : dcov t (X *m M1) (Y *m M2) = M1^T *m dcov t X Y *m M2.
Proof.
rewrite /dcov; cbv zeta; rewrite mulmxDr mulmxDl -!scalemxAr -!scalemxAl trmx_mul !mulmxA.
congr (_ + _ *: _); congr (_ *: (_ *m _ *m _ *m _)).
by rewrite ![(_ *: _)^T]linearZ /= -!scalemxAr !trmx_mul !mulmxA.
Qed.
Lemma shift_scaled (t : tuning R) m (X : 'M[R]_(1 + (L + L), m)) (M : 'M[R]_m) c :
  usubmx (X *m M + repeat_row _ c) + shift t (X *m M + repeat_row _ c) = (usubmx X + shift t X) *m M + c.
Proof.
rewrite mulmxDl /shift delta_scaled -scalemxAl mulmxA linearD /= -mul_usub_mx addrAC; congr (_ + _ + _).
by apply/rowP => j; rewrite !mxE.
Qed.

(** A change of sign in a coordinate swaps two sigma points. *)
Section Swaps.
Variables (k : nat) (sw : pred 'I_k).
Definition swap (i : 'I_(k + k)) : 'I_(k + k) :=
  match fintype.split i with
  | inl j => if sw j then rshift k j else lshift k j
  | inr j => if sw j then lshift k j else rshift k j
  end.
Lemma swapl j : swap (lshift k j) = if sw j then rshift k j else lshift k j.
Proof. by rewrite /swap (unsplitK (inl j)). Qed.
Lemma swapr j : swap (rshift k j) = if sw j then lshift k j else rshift k j.
Proof. by rewrite /swap (unsplitK (inr j)). Qed.
Lemma swapK : involutive swap.
Proof.
move=> i; rewrite -[i]splitK; case: (fintype.split i) => j /=.
  by rewrite swapl; case h: (sw j); rewrite ?swapl ?swapr h.
by rewrite swapr; case h: (sw j); rewrite ?swapl ?swapr h.
Qed.
Definition swaps : {perm 'I_(k + k)} := perm (inv_inj swapK).
Lemma row_row_perm q m (s : {perm 'I_q}) (A : 'M[R]_(q, m)) i : row i (row_perm s A) = row (s i) A.
Proof. by apply/rowP => j; rewrite !mxE. Qed.
Lemma row_swaps m (A : 'M[R]_(k, m)) (c : 'rV[R]_k) : (forall j, c 0 j = if sw j then -1 else 1) ->
  col_mx (diag_mx c *m A) (- (diag_mx c *m A)) = row_perm swaps (col_mx A (- A)).
Proof.
move=> hc; apply/row_matrixP => i; rewrite row_row_perm permE -[i]splitK; case: (fintype.split i) => j /=.
  rewrite rowKu row_mul row_diag_mx hc swapl.
  by case: (sw j); rewrite ?rowKu ?rowKd ?linearN ?scaleNr scale1r ?mulNmx -rowE.
rewrite rowKd linearN /= row_mul row_diag_mx hc swapr.
by case: (sw j); rewrite ?rowKu ?rowKd ?linearN ?scaleNr scale1r ?mulNmx -rowE ?opprK.
Qed.
End Swaps.

(** Reordering the sigma points changes no average. *)
Definition reorder k m (s : {perm 'I_k}) (X : 'M[R]_(1 + k, m)) : 'M[R]_(1 + k, m) := col_mx (usubmx X) (row_perm s (dsubmx X)).
Lemma delta_reorder k m (s : {perm 'I_k}) (X : 'M[R]_(1 + k, m)) : delta (reorder s X) = perm_mx s *m delta X.
Proof.
rewrite /delta /reorder col_mxKu col_mxKd row_permE mulmxBr; congr (_ - _).
by rewrite -row_permE; apply/matrixP => i j; rewrite !mxE.
Qed.
Lemma ones_perm k (s : {perm 'I_k}) : (ones k) *m perm_mx s = ones k.
Proof. by rewrite -[s]invgK -col_permE; apply/matrixP => i j; rewrite !mxE. Qed.
Lemma shift_reorder (t : tuning R) m (s : {perm 'I_(L + L)}) (X : 'M[R]_(1 + (L + L), m)) :
  usubmx (reorder s X) + shift t (reorder s X) = usubmx X + shift t X.
Proof. by rewrite /shift delta_reorder mulmxA ones_perm {1}/reorder col_mxKu. Qed.
Lemma dcov_perm (t : tuning R) m1 m2 (s : {perm 'I_(L + L)}) (X : 'M[R]_(L + L, m1)) (Y : 'M[R]_(L + L, m2)) :
  dcov t (perm_mx s *m X) (perm_mx s *m Y) = dcov t X Y.
Proof.
rewrite /dcov; cbv zeta; rewrite !mulmxA !ones_perm trmx_mul tr_perm_mx -!mulmxA [perm_mx s^-1 *m _]mulmxA.
by rewrite -perm_mxM mulVg perm_mx1 mul1mx.
Qed.
Lemma reorder_sigma k m (s : {perm 'I_k}) (r : 'rV[R]_m) (W : 'M[R]_(k, m)) :
  reorder s (repeat_row _ r + col_mx 0 W) = repeat_row _ r + col_mx 0 (row_perm s W).
Proof.
rewrite /reorder linearD linearD /= col_mxKu col_mxKd; apply/row_matrixP => i; rewrite -[i]splitK.
case: (fintype.split i) => j /=; rewrite ?rowKu ?rowKd ?addr0.
  rewrite [RHS]linearD /= rowKu row0 addr0; by apply/rowP => l; rewrite !mxE.
rewrite [RHS]linearD /= rowKd linearD /= [LHS]linearD /=; congr (_ + _).
by apply/rowP => l; rewrite !mxE.
Qed.
Lemma rows_reorder m (f : 'rV[R]_L -> 'rV[R]_m) (s : {perm 'I_(L + L)}) (X : 'M[R]_(1 + (L + L), L)) :
  rows f (reorder s X) = reorder s (rows f X).
Proof.
apply/row_matrixP => i; rewrite rowK -[i]splitK; case: (fintype.split i) => j /=.
  rewrite /reorder !rowKu; apply/rowP => l; rewrite !mxE; congr (f _ _ _); by apply/rowP => q; rewrite !mxE.
rewrite /reorder !rowKd; apply/rowP => l; rewrite !mxE; congr (f _ _ _); by apply/rowP => q; rewrite !mxE.
Qed.

Lemma step_scaled (f : ukf R U1 n p) u y : accepted (tune f) L -> tame n p (tune f) ->
  posdef (covariance (hidden f)) -> posdef (cov_w f) -> posdef (cov_v f) ->
  exists f' y', step svd md1 f nil u y = Ok (f', y') /\
    step svd md2 (rescale f) nil (phi u) (y *m E + b) =
      Ok (rescale f', rescale_gaussian dp b y').
Proof.
move=> ac tm pP pQ pV.
have [CP [CQ [CV [[eP eQ eV] [_ _ e1 [_ pyy _]]]]]] := step_char svd beh1 n0 p0 u y ac tm pP pQ pV.
have pP' := posdef_diag dn0 pP; have pQ' := posdef_diag dn0 pQ; have pV' := posdef_diag dp0 pV.
have [CP' [CQ' [CV' [[eP' eQ' eV'] [_ _ e2 _]]]]] :=
  @step_char R svd U2 K2 n p md2 g2 h2 beh2 n0 p0 (rescale f) (phi u) (y *m E + b) ac tm pP' pQ' pV'.
move: eP' eQ' eV' e2 => /=; rewrite (cholesky_scale dn0 (proj1 pP) eP) (cholesky_scale dn0 (proj1 pQ) eQ)
  (cholesky_scale dp0 (proj1 pV) eV) => -[<-] [<-] [<-].
move: e1 pyy; set S1 := sigma _ _ _; move=> e1 pyy; set S2 := sigma _ _ _; move=> e2.
pose M : 'M[R]_L := block_mx D 0 0 (block_mx D 0 0 E).
pose d : 'rV[R]_L := row_mx dn (row_mx dn dp).
have d0 i : d 0 i != 0.
  rewrite /d -[i]splitK; case: (fintype.split i) => j /=; rewrite ?row_mxEl ?row_mxEr //.
  by rewrite -[j]splitK; case: (fintype.split j) => q /=; rewrite ?row_mxEl ?row_mxEr.
pose s := swaps (fun j => d 0 j < 0).
have eS : S2 = reorder s S1 *m M + repeat_row _ (row_mx a 0).
  have eC : block_mx (D *m CP *m diag_mx (signs dn)) 0 0 (block_mx (D *m CQ *m diag_mx (signs dn)) 0 0 (E *m CV *m diag_mx (signs dp)))
      = M *m block_mx CP 0 0 (block_mx CQ 0 0 CV) *m diag_mx (signs d) :> 'M[R]_L.
    rewrite /M /d /signs !map_row_mx !diag_mx_row.
    by rewrite !(mulmx_block, mulmx0, mul0mx, addr0, add0r).
  have tM : M^T = M by rewrite /M !tr_block_mx !trmx0 !tr_diag_mx.
  rewrite /S1 /S2 /sigma eC !trmx_mul tM tr_diag_mx {eC}; set C := block_mx CP _ _ _.
  have hs j : signs d 0 j = if d 0 j < 0 then -1 else 1.
    rewrite [LHS]mxE; move: (d0 j); rewrite neq_lt => /orP [h|h]; [by rewrite ltr0_sg // h | by rewrite gtr0_sg // ltNge ltW].
  rewrite reorder_sigma !scaleNr -(row_swaps _ hs) mulmxDl mul_col_mx mul0mx mul_col_mx mulNmx.
  rewrite -scalemxAr -!scalemxAl -mulmxA [RHS]addrAC; congr (_ + _).
  rewrite !repeat_rowE -mulmxA -mulmxDr; congr (_ *m _).
  by rewrite /M mul_row_block !mulmx0 !mul0mx !addr0 add_row_mx addr0.
have eM (r : 'rV[R]_L) : r *m M + row_mx a 0 =
  row_mx (lsubmx r *m D + a) (row_mx (lsubmx (rsubmx r) *m D) (rsubmx (rsubmx r) *m E)).
  rewrite -{1}(hsubmxK r) -{1}(hsubmxK (rsubmx r)) /M !mul_row_block !mulmx0 !addr0 !add0r.
  by rewrite add_row_mx addr0.
have ex r : fx (g2 (phi (controls f)) (phi u)) (r *m M + row_mx a 0) = fx (g1 (controls f) u) r *m D + a.
  by rewrite eM /fx row_mxKl row_mxKr row_mxKl gg mulmxDl addrAC.
have ey r : fy (g2 (phi (controls f)) (phi u)) (h2 (phi u)) (r *m M + row_mx a 0) =
    fy (g1 (controls f) u) (h1 u) r *m E + b.
  by rewrite /fy ex hh eM !row_mxKr mulmxDl addrAC.
have eX : rows (fx (g2 (phi (controls f)) (phi u))) S2 = reorder s (rows (fx (g1 (controls f) u)) S1) *m D + repeat_row _ a.
  by rewrite -rows_reorder; apply/row_matrixP => i; rewrite rowK eS !row_rep ex rowK.
have eY : rows (fy (g2 (phi (controls f)) (phi u)) (h2 (phi u))) S2 =
    reorder s (rows (fy (g1 (controls f) u) (h1 u)) S1) *m E + repeat_row _ b.
  by rewrite -rows_reorder; apply/row_matrixP => i; rewrite rowK eS !row_rep ey rowK.
rewrite eX eY !shift_scaled !delta_scaled !dcov_scaled !shift_reorder !delta_reorder !dcov_perm {eX eY ex ey eM eS} in e2.
rewrite !tr_diag_mx -/D -/E in e2.
move: e1 pyy e2; move: (rows _ S1) (rows _ S1) => X Y.
set my := usubmx X + _; set mx := usubmx Y + _; set Pxy := dcov _ _ _; set Pyy := dcov _ _ _; set Pxx := dcov _ _ _.
move=> e1 pyy e2; eexists; eexists; split; first exact: e1.
have uE : E \in unitmx by apply: diag_unit.
have uy := posdef_unit pyy.
have uEE : E *m Pyy *m E \in unitmx by rewrite !unitmx_mul uE uy.
have tE : E^T = E by apply: tr_diag_mx.
have tD : D^T = D by apply: tr_diag_mx.
have eg : D *m Pxy *m E *m invmx (E *m Pyy *m E) = D *m (Pxy *m invmx Pyy) *m invmx E.
  have -> : D *m Pxy *m E = D *m (Pxy *m invmx Pyy) *m invmx E *m (E *m Pyy *m E).
    by rewrite !mulmxA mulmxKV // mulmxKV.
  by rewrite mulmxK.
rewrite e2 /rescale /= eg; congr (Ok (Ukf (Gauss _ _) _ _ _ _, _)).
  rewrite [RHS]addrC [X in _ = _ + X]mulmxDl [RHS]addrA [a + _]addrC; congr (_ + _).
  have -> : y *m E + b - (my *m E + b) = (y - my) *m E.
    by rewrite mulmxBl opprD addrACA subrr addr0.
  rewrite [(_ *m invmx E)^T]trmx_mul trmx_inv tE [LHS]mulmxA mulmxK //.
  by rewrite [(D *m _)^T]trmx_mul tD mulmxA.
by rewrite [(_ *m E)^T]trmx_mul tE [(D *m Pxy)^T]trmx_mul tD !mulmxA mulmxKV // mulmxBr mulmxBl !mulmxA.
Qed.
End Scaled.
