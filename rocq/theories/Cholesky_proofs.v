(** The Cholesky factorisation succeeds exactly on positive definite matrices. *)
From mathcomp Require Import all_ssreflect all_algebra.
From Verif Require Import Res Cholesky Spec_UKF.
Set Implicit Arguments.
Unset Strict Implicit.
Unset Printing Implicit Defensive.
Import Order.Theory GRing.Theory Num.Theory.
Local Open Scope ring_scope.

Section PDTheory.
Variable R : rcfType.
Implicit Types n m : nat.

Lemma qfD n (A B : 'M[R]_n) v : qf (A + B) v = qf A v + qf B v.
Proof. by rewrite /qf mulmxDr mulmxDl mxE. Qed.
Lemma qfN n (A : 'M[R]_n) v : qf (- A) v = - qf A v.
Proof. by rewrite /qf mulmxN mulNmx mxE. Qed.
Lemma qfZ n (A : 'M[R]_n) k v : qf (k *: A) v = k * qf A v.
Proof. by rewrite /qf -scalemxAr -scalemxAl mxE. Qed.
Lemma qf0 n (v : 'rV[R]_n) : qf 0 v = 0.
Proof. by rewrite /qf mulmx0 mul0mx mxE. Qed.
Lemma qf_cong m n (B : 'M[R]_(m, n)) (A : 'M[R]_n) (v : 'rV[R]_m) : qf (B *m A *m B^T) v = qf A (v *m B).
Proof. by rewrite /qf trmx_mul !mulmxA. Qed.

Definition sqnorm n (v : 'rV[R]_n) : R := (v *m v^T) 0 0.
Lemma sqnormE n (v : 'rV[R]_n) : sqnorm v = \sum_i v 0 i ^+ 2.
Proof. by rewrite /sqnorm mxE; apply: eq_bigr => i _; rewrite mxE expr2. Qed.
Lemma sqnorm_ge0 n (v : 'rV[R]_n) : 0 <= sqnorm v.
Proof. by rewrite sqnormE sumr_ge0 // => i _; rewrite sqr_ge0. Qed.
Lemma sqnorm_gt0 n (v : 'rV[R]_n) : v != 0 -> 0 < sqnorm v.
Proof.
move=> nz; rewrite lt_neqAle sqnorm_ge0 andbT eq_sym sqnormE psumr_eq0; last by move=> i _; rewrite sqr_ge0.
apply: contra nz => /allP h; apply/eqP/rowP => i; rewrite mxE.
by have := h i (mem_index_enum _); rewrite /= sqrf_eq0 => /eqP.
Qed.
Lemma qf_gram m n (B : 'M[R]_(n, m)) v : qf (B *m B^T) v = sqnorm (v *m B).
Proof. by rewrite /qf /sqnorm trmx_mul !mulmxA. Qed.

Lemma posdef_psd n (A : 'M[R]_n) : posdef A -> psd A.
Proof.
case=> sA pA; split=> // v; have [->|/pA/ltW //] := eqVneq v 0.
by rewrite /qf !mul0mx mxE.
Qed.
Lemma psd_gram m n (B : 'M[R]_(n, m)) : psd (B *m B^T).
Proof. by split; [rewrite trmx_mul trmxK|move=> v; rewrite qf_gram sqnorm_ge0]. Qed.
Lemma psdD n (A B : 'M[R]_n) : psd A -> psd B -> psd (A + B).
Proof.
by case=> sA pA [sB pB]; split; [rewrite linearD /= sA sB|move=> v; rewrite qfD addr_ge0].
Qed.
Lemma psd_cong m n (B : 'M[R]_(m, n)) (A : 'M[R]_n) : psd A -> psd (B *m A *m B^T).
Proof.
by case=> sA pA; split; [rewrite !trmx_mul trmxK sA mulmxA|move=> v; rewrite qf_cong].
Qed.
Lemma posdef_unit n (A : 'M[R]_n) : posdef A -> A \in unitmx.
Proof.
case=> _ pA; rewrite -row_free_unit -kermx_eq0; apply/negPn/negP => /rowV0Pn [v vk nz].
by have := pA v nz; rewrite /qf; move/sub_kermxP: vk => ->; rewrite mul0mx mxE ltxx.
Qed.
Lemma posdef_cong_unit n (B A : 'M[R]_n) : B \in unitmx -> posdef A -> posdef (B *m A *m B^T).
Proof.
move=> uB [sA pA]; split; first by rewrite !trmx_mul trmxK sA mulmxA.
move=> v nz; rewrite qf_cong; apply: pA; apply: contra nz => /eqP e.
by rewrite -(mulmxK uB v) e mul0mx.
Qed.
Lemma posdefD_psd n (A B : 'M[R]_n) : posdef A -> psd B -> posdef (A + B).
Proof.
case=> sA pA [sB pB]; split; first by rewrite linearD /= sA sB.
by move=> v nz; rewrite qfD; apply: ltr_paddr; [apply: pB|apply: pA].
Qed.
Lemma posdef_scalar n (k : R) : 0 < k -> posdef (k%:M : 'M[R]_n).
Proof.
move=> k0; split; first by rewrite tr_scalar_mx.
move=> v nz; rewrite /qf mul_mx_scalar -scalemxAl mxE -/(sqnorm v).
by rewrite mulr_gt0 // sqnorm_gt0.
Qed.

(** Quadratic form of a block matrix. *)
Lemma qf_block m n (A : 'M[R]_m) (C : 'M[R]_(m, n)) (D : 'M[R]_n) a b :
  qf (block_mx A C C^T D) (row_mx a b) = qf A a + 2%:R * (a *m C *m b^T) 0 0 + qf D b.
Proof.
rewrite /qf mul_row_block tr_row_mx mul_row_col !mulmxDl.
have -> : b *m C^T *m a^T = (a *m C *m b^T)^T by rewrite !trmx_mul trmxK mulmxA.
move: (a *m A *m a^T) (a *m C *m b^T) (b *m D *m b^T) => X Y Z; rewrite !mxE mulr_natl mulr2n.
by rewrite !addrA.
Qed.
Lemma qf_diag2 m n (A : 'M[R]_m) (D : 'M[R]_n) a b : qf (block_mx A 0 0 D) (row_mx a b) = qf A a + qf D b.
Proof.
have -> : block_mx A 0 0 D = block_mx A 0 (0 : 'M_(m, n))^T D by rewrite trmx0.
by rewrite qf_block mulmx0 mul0mx [(0 : 'M_1) 0 0]mxE mulr0 addr0.
Qed.
Lemma qfv0 n (A : 'M[R]_n) : qf A 0 = 0.
Proof. by rewrite /qf !mul0mx mxE. Qed.
Lemma row_mx_neq0 m n (a : 'rV[R]_m) (b : 'rV[R]_n) : (row_mx a b != 0) = (a != 0) || (b != 0).
Proof. by rewrite row_mx_eq0 negb_and. Qed.
Lemma posdef_diag2 m n (A : 'M[R]_m) (D : 'M[R]_n) : posdef A -> posdef D -> posdef (block_mx A 0 0 D).
Proof.
move=> pA pD; have [_ gA] := posdef_psd pA; have [_ gD] := posdef_psd pD; case: pA pD => sA pA [sD pD].
split; first by rewrite tr_block_mx sA sD !trmx0.
move=> v; rewrite -[v]hsubmxK row_mx_neq0 qf_diag2 => /orP [] nz.
  by apply: ltr_paddr; [apply: gD|apply: pA].
by apply: ltr_paddl; [apply: gA|apply: pD].
Qed.
Lemma posdef_diag2_inv m n (A : 'M[R]_m) (D : 'M[R]_n) : posdef (block_mx A 0 0 D) -> posdef A /\ posdef D.
Proof.
case=> s p; move: (s); rewrite tr_block_mx => /eq_block_mx [sA _ _ sD].
split; split=> // v nz.
  by have := p (row_mx v 0); rewrite qf_diag2 qfv0 addr0 row_mx_neq0 nz; apply.
by have := p (row_mx 0 v); rewrite qf_diag2 qfv0 add0r row_mx_neq0 nz orbT; apply.
Qed.

(** The Schur complement of a positive definite block matrix. *)
Lemma posdef_schur m n (A : 'M[R]_m) (C : 'M[R]_(m, n)) (D : 'M[R]_n) :
  posdef (block_mx A C C^T D) -> posdef (A - C *m invmx D *m C^T).
Proof.
case=> s p; move: (s); rewrite tr_block_mx trmxK => /eq_block_mx [sA _ _ sD].
have pD : posdef D.
  split=> // v nz; have := p (row_mx 0 v); rewrite qf_block !mul0mx qfv0 [(0 : 'M_1) 0 0]mxE mulr0 addr0 add0r.
  by rewrite row_mx_neq0 nz orbT; apply.
have uD := posdef_unit pD.
have sI : (invmx D)^T = invmx D by rewrite trmx_inv sD.
split; first by rewrite linearB /= !trmx_mul trmxK sI sA !mulmxA.
move=> v nz; set w := - (v *m C *m invmx D); set t := (v *m C *m invmx D *m C^T *m v^T) 0 0.
have := p (row_mx v w); rewrite qf_block.
have -> : (v *m C *m w^T) 0 0 = - t by rewrite /w linearN /= !trmx_mul sI mulmxN mxE !mulmxA.
have -> : qf D w = t by rewrite /w /qf linearN /= !trmx_mul sI mulNmx mulNmx mulmxN opprK mulmxKV // !mulmxA.
rewrite qfD qfN [qf (C *m _ *m _) _]/qf !mulmxA -/t mulrN mulr_natl mulr2n opprD !addrA addrNK; apply.
by rewrite row_mx_neq0 nz.
Qed.

(** * Cholesky *)

Lemma sym_block (n : nat) (A : 'M[R]_(1 + n)) : A^T = A ->
  A = block_mx (A 0 0)%:M (dlsubmx A)^T (dlsubmx A) (drsubmx A) /\ (drsubmx A)^T = drsubmx A.
Proof.
move=> sA; split; last by rewrite trmx_drsub sA.
rewrite -{1}(submxK A); congr block_mx; last by rewrite trmx_dlsub sA.
by apply/matrixP => i j; rewrite !ord1 !mxE eqxx mulr1n; congr (A _ _); apply/val_inj.
Qed.

Lemma block_gram n (s : R) (l : 'cV[R]_n) (L : 'M[R]_n) :
  block_mx s%:M 0 l L *m (block_mx s%:M 0 l L)^T =
  block_mx (s * s)%:M (s *: l^T) (s *: l) (l *m l^T + L *m L^T).
Proof.
by rewrite tr_block_mx mulmx_block !trmx0 !mulmx0 !mul0mx !addr0 tr_scalar_mx -scalar_mxM mul_scalar_mx mul_mx_scalar.
Qed.
Lemma block_trig n (s : R) (l : 'cV[R]_n) (L : 'M[R]_n) : is_trig_mx L -> is_trig_mx (block_mx s%:M 0 l L).
Proof. by move=> h; rewrite is_trig_block_mx // eqxx scalar_mx_is_trig. Qed.
Lemma block_pos n (s : R) (l : 'cV[R]_n) (L : 'M[R]_n) i : 0 < s -> (forall i, 0 < L i i) -> 0 < block_mx s%:M 0 l L i i.
Proof.
move=> s0 h; case: (split_ordP i) => k ->; last by rewrite block_mxEdr.
by rewrite block_mxEul ord1 mxE eqxx mulr1n.
Qed.
Lemma cholesky_spec n (A L : 'M[R]_n) : A^T = A -> cholesky A = Some L ->
  [/\ L *m L^T = A, is_trig_mx L & forall i, 0 < L i i].
Proof.
elim: n A L => [|n IH] A L sA /=.
  case=> <-; split; [by apply/matrixP => -[]|by apply/is_trig_mxP => -[]|by case].
have [e sD] := @sym_block n A sA.
case: ltP => // a0; set s := Num.sqrt _; set l := _ *: _.
have s0 : 0 < s by rewrite sqrtr_gt0.
have s2 : s * s = A 0 0 by rewrite -expr2 sqr_sqrtr // ltW.
case E: cholesky => [L'|] // [<-].
have [|h1 h2 h3] := IH _ _ _ E; first by rewrite linearB /= trmx_mul trmxK sD.
split.
- apply: etrans (block_gram _ _ _) _; rewrite [RHS]e; congr block_mx.
  + by rewrite s2.
  + by rewrite /l linearZ /= scalerA divff ?scale1r // gt_eqF.
  + by rewrite /l scalerA divff ?scale1r // gt_eqF.
  + by rewrite h1 addrC subrK.
- exact: block_trig.
- by move=> i; apply: block_pos.
Qed.

Lemma pivot_step n (A : 'M[R]_(1 + n)) : posdef A ->
  0 < A 0 0 /\ posdef (drsubmx A - (A 0 0)^-1 *: (dlsubmx A *m (dlsubmx A)^T)).
Proof.
move=> [sA pA]; have [e sD] := sym_block sA.
have e' : forall u, qf A u = qf (block_mx (A 0 0)%:M (dlsubmx A)^T ((dlsubmx A)^T)^T (drsubmx A)) u.
  by move=> u; rewrite trmxK -e.
have a0 : 0 < A 0 0.
  have := pA (row_mx 1%:M 0); rewrite e' qf_block qfv0 trmx0 mulmx0 [(0 : 'M_1) 0 0]mxE mulr0 !addr0.
  rewrite /qf mul1mx trmx1 mulmx1 mxE eqxx mulr1n; apply.
  by rewrite row_mx_neq0 matrix_nonzero1.
split=> //; split; first by rewrite linearB linearZ /= trmx_mul trmxK sD.
move=> v nz; set t := v *m dlsubmx A; set w : 'rV[R]_1 := - ((A 0 0)^-1 *: t).
have := pA (row_mx w v); rewrite e' qf_block row_mx_neq0 nz orbT => /(_ isT).
suff -> : qf (A 0 0)%:M w + 2%:R * (w *m (dlsubmx A)^T *m v^T) 0 0 + qf (drsubmx A) v =
          qf (drsubmx A - (A 0 0)^-1 *: (dlsubmx A *m (dlsubmx A)^T)) v by [].
rewrite qfD addrC; congr (_ + _).
have -> : w *m (dlsubmx A)^T *m v^T = w *m t^T by rewrite /t trmx_mul mulmxA.
rewrite qfN qfZ qf_gram -/t /qf mul_mx_scalar -scalemxAl /sqnorm; set q := t *m t^T.
have -> : w *m w^T = ((A 0 0)^-1 * (A 0 0)^-1) *: q.
  by rewrite /w linearN /= mulNmx mulmxN opprK linearZ /= -scalemxAl -scalemxAr scalerA.
have -> : w *m t^T = - ((A 0 0)^-1 *: q) by rewrite /w mulNmx -scalemxAl.
rewrite !mxE mulrN mulr_natl mulr2n opprD !addrA !mulrA mulfV ?gt_eqF // mul1r subrr sub0r.
by [].
Qed.
Lemma cholesky_posdef n (A : 'M[R]_n) : posdef A -> exists L, cholesky A = Some L.
Proof.
elim: n A => [|n IH] A pA /=; first by exists A.
have [a0 pS] := @pivot_step n A pA; rewrite a0.
set S := (X in cholesky X).
have -> : S = drsubmx (A : 'M_(1 + n)) - (A 0 0)^-1 *: (dlsubmx (A : 'M_(1 + n)) *m (dlsubmx (A : 'M_(1 + n)))^T).
  rewrite /S linearZ /= -scalemxAl -scalemxAr scalerA -invfM -expr2 sqr_sqrtr // ltW //.
by have [L ->] := IH _ pS; eexists.
Qed.

Lemma cholesky_unit n (A L : 'M[R]_n) : A^T = A -> cholesky A = Some L -> L \in unitmx.
Proof.
move=> sA /(cholesky_spec sA) [_ tL pL]; rewrite unitmxE det_trig // unitfE.
by apply/prodf_neq0 => i _; rewrite gt_eqF.
Qed.
Lemma cholesky_iff n (A : 'M[R]_n) : A^T = A -> (exists L, cholesky A = Some L) <-> posdef A.
Proof.
move=> sA; split=> [[L E]|]; last exact: cholesky_posdef.
have [<- _ _] := cholesky_spec sA E; have uL := cholesky_unit sA E.
split; first by rewrite trmx_mul trmxK.
move=> v nz; rewrite qf_gram sqnorm_gt0 //; apply: contra nz => /eqP e.
by rewrite -(mulmxK uL v) e mul0mx.
Qed.

(** It is the only factorisation with a positive diagonal. *)
Lemma cholesky_block n (s : R) (l : 'cV[R]_n) (L : 'M[R]_n) (A : 'M[R]_(1 + n)) :
  0 < s -> cholesky (L *m L^T) = Some L ->
  A = block_mx (s * s)%:M (s *: l^T) (s *: l) (l *m l^T + L *m L^T) ->
  cholesky (A : 'M_n.+1) = Some (block_mx s%:M 0 l L).
Proof.
move=> s0 E eA /=.
have a00 : A 0 0 = s * s.
  by rewrite eA -{1}(lshift0 n 0) -{1}(lshift0 n 0) block_mxEul mxE eqxx mulr1n.
have sq : Num.sqrt (A 0 0) = s by rewrite a00 -expr2 sqrtr_sqr ger0_norm // ltW.
rewrite sq a00 mulr_gt0 //.
have -> : dlsubmx A = s *: l by rewrite eA block_mxKdl.
have -> : drsubmx A = l *m l^T + L *m L^T by rewrite eA block_mxKdr.
by rewrite scalerA mulVf ?gt_eqF // scale1r addrC addrA addNr add0r E.
Qed.
Lemma trig_block n (L : 'M[R]_(1 + n)) : is_trig_mx L -> L = block_mx (L 0 0)%:M 0 (dlsubmx L) (drsubmx L).
Proof.
move=> tL; rewrite -{1}(submxK L); congr block_mx.
  by apply/matrixP => i j; rewrite !ord1 !mxE eqxx mulr1n; congr (L _ _); apply/val_inj.
apply/matrixP => i j; rewrite !mxE; move/is_trig_mxP: tL; apply.
by rewrite ord1.
Qed.
Lemma cholesky_unique n (L : 'M[R]_n) : is_trig_mx L -> (forall i, 0 < L i i) -> cholesky (L *m L^T) = Some L.
Proof.
elim: n L => [|n IH] L tL pL; first by rewrite /=; congr Some; apply/matrixP => -[].
have e := @trig_block n L tL.
have tL' : is_trig_mx (drsubmx (L : 'M_(1 + n))).
  apply/is_trig_mxP => i j h; rewrite !mxE; move/is_trig_mxP: tL; apply.
  by rewrite /= ltn_add2l.
have pL' : forall i, 0 < drsubmx (L : 'M_(1 + n)) i i by move=> i; rewrite !mxE.
have := @cholesky_block n (L 0 0) (dlsubmx (L : 'M_(1 + n))) (drsubmx (L : 'M_(1 + n))) (L *m L^T) (pL 0) (IH _ tL' pL').
rewrite -block_gram; rewrite -e; exact.
Qed.

(** Scaling the coordinates by factors other than 0 scales the factor, up to signs. *)
Definition signs n (d : 'rV[R]_n) : 'rV[R]_n := map_mx Num.sg d.
Lemma cholesky_scale n (d : 'rV[R]_n) (A L : 'M[R]_n) : (forall i, d 0 i != 0) -> A^T = A ->
  cholesky A = Some L -> cholesky (diag_mx d *m A *m diag_mx d) = Some (diag_mx d *m L *m diag_mx (signs d)).
Proof.
move=> dp sA E; have [e tL pL] := cholesky_spec sA E.
have ss : diag_mx (signs d) *m diag_mx (signs d) = 1%:M.
  rewrite mulmx_diag -diag_const_mx; congr diag_mx; apply/rowP => i; rewrite !mxE -expr2 sqr_sg; by rewrite dp.
have -> : diag_mx d *m A *m diag_mx d = (diag_mx d *m L *m diag_mx (signs d)) *m (diag_mx d *m L *m diag_mx (signs d))^T.
  rewrite !trmx_mul !tr_diag_mx -{1}e; set S := diag_mx (signs d) in ss *; set D := diag_mx d.
  by rewrite -[D *m L *m S *m _]mulmxA [S *m (S *m _)]mulmxA ss mul1mx !mulmxA.
have ent i j : (diag_mx d *m L *m diag_mx (signs d)) i j = d 0 i * L i j * Num.sg (d 0 j).
  by rewrite mul_mx_diag mxE mul_diag_mx !mxE.
apply: cholesky_unique.
  apply/is_trig_mxP => i j h; rewrite ent; move/is_trig_mxP: tL => -> //; by rewrite mulr0 mul0r.
by move=> i; rewrite ent mulrAC [d 0 i * _]mulrC -normrEsg mulr_gt0 // normr_gt0.
Qed.
Lemma cholesky_1 n (k : R) : 0 < k -> cholesky ((k * k)%:M : 'M[R]_n) = Some k%:M.
Proof.
move=> k0; rewrite scalar_mxM -{2}(tr_scalar_mx n k); apply: cholesky_unique.
  exact: scalar_mx_is_trig.
by move=> i; rewrite mxE eqxx mulr1n.
Qed.
End PDTheory.
