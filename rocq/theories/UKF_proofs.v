(** Proofs about the unscented Kalman filter. *)
From mathcomp Require Import all_ssreflect all_algebra.
From Verif Require Import Res RingTac Cholesky Spec_UKF Cholesky_proofs UKF Spec_Filter.
Set Implicit Arguments.
Unset Strict Implicit.
Unset Printing Implicit Defensive.
Import Order.Theory GRing.Theory Num.Theory.
Local Open Scope ring_scope.

Arguments correction_update : simpl never.

Section Weights.
Variable R : rcfType.
Add Field rcf : (rcf_field R).
Implicit Types t : tuning R.

Notation ones k := (const_mx 1 : 'rV[R]_k).
Lemma repeat_rowE k n (x : 'rV[R]_n) : repeat_row k x = (ones k)^T *m x.
Proof. by apply/matrixP => i j; rewrite !mxE big_ord1 !mxE mul1r. Qed.
Lemma repeat_row_col k n (x : 'rV[R]_n) : repeat_row (1 + k) x = col_mx x (repeat_row k x).
Proof.
apply/matrixP => i j; case: (split_ordP i) => l ->; last by rewrite col_mxEd !mxE.
by rewrite col_mxEu ord1 !mxE.
Qed.
Lemma ones_ones k : ones k *m (ones k)^T = k%:R%:M.
Proof.
rewrite [LHS]mx11_scalar; congr _%:M; rewrite mxE (eq_bigr (fun=> 1)).
  by rewrite sumr_const card_ord.
by move=> i _; rewrite !mxE mulr1.
Qed.
Lemma const_ones k (a : R) : const_mx a = a *: ones k.
Proof. by apply/matrixP => i j; rewrite !mxE mulr1. Qed.

(** Samples relative to the first one. *)
Definition delta k n (X : 'M[R]_(1 + k, n)) : 'M[R]_(k, n) := dsubmx X - repeat_row k (usubmx X).

Section Formula.
Variables (t : tuning R) (L : nat).
Hypothesis c0 : spread t L != 0.
Let w := 2%:R^-1 / spread t L.

Lemma w2L : w * (L + L)%:R = L%:R / spread t L.
Proof.
have h : (L + L)%:R = 2%:R * L%:R :> R by rewrite natrD mulr_natl mulr2n.
by rewrite h /w mulrACA mulVf ?pnatr_eq0 // mul1r mulrC.
Qed.
Lemma lambdaE : lambda_param t L / spread t L = 1 - w * (L + L)%:R.
Proof. by rewrite /lambda_param mulrBl mulfV // w2L. Qed.

Lemma mean_weights_sum : \sum_i mean_weights t L 0 i = 1.
Proof.
rewrite /mean_weights big_split_ord /= big_ord1 row_mxEl mxE eqxx mulr1n lambdaE.
rewrite (eq_bigr (fun=> w)) => [|i _]; last by rewrite row_mxEr mxE.
by rewrite sumr_const card_ord -[X in _ + X]mulr_natr subrK.
Qed.
Lemma cov_weights_sum : \sum_i cov_weights t L 0 i = 2%:R - alpha_param t ^+ 2 + beta_param t.
Proof.
rewrite /cov_weights big_split_ord /= big_ord1 row_mxEl mxE eqxx mulr1n lambdaE.
rewrite (eq_bigr (fun=> w)) => [|i _]; last by rewrite row_mxEr mxE.
rewrite sumr_const card_ord -[X in _ + X]mulr_natr; move: (w * _) => z.
by to_r R; ring.
Qed.

(** The mean is the first sample plus the weighted sum of the differences. *)
Definition shift n (X : 'M[R]_(1 + (L + L), n)) : 'rV[R]_n := w *: (ones (L + L) *m delta X).
Lemma averageE n (X : 'M[R]_(1 + (L + L), n)) :
  average (mean_weights t L) X = Ok (usubmx X + shift X).
Proof.
rewrite /average mean_weights_sum oner_eq0 invr1 scale1r; congr Ok.
rewrite -{1}(vsubmxK X) /mean_weights mul_row_col mul_scalar_mx const_ones -scalemxAl lambdaE.
rewrite /shift /delta repeat_rowE mulmxBr mulmxA ones_ones mul_scalar_mx scalerBr scalerA scalerBl scale1r.
by rewrite addrA addrAC -/w.
Qed.
Lemma deviation n (X : 'M[R]_(1 + (L + L), n)) :
  X - repeat_row _ (usubmx X + shift X) = col_mx (- shift X) (delta X - repeat_row _ (shift X)).
Proof.
rewrite -{1}(vsubmxK X) repeat_row_col opp_col_mx add_col_mx opprD addNKr /delta.
by rewrite repeat_rowE mulmxDr -!repeat_rowE opprD addrA.
Qed.
Lemma cov_formula n m (X : 'M[R]_(1 + (L + L), n)) (Y : 'M[R]_(1 + (L + L), m)) :
  unscented_covariance (cov_weights t L) (X - repeat_row _ (usubmx X + shift X)) (Y - repeat_row _ (usubmx Y + shift Y)) =
  w *: ((delta X)^T *m delta Y) + (beta_param t - alpha_param t ^+ 2) *: ((shift X)^T *m shift Y).
Proof.
rewrite /unscented_covariance !deviation.
have: w *: ((delta X)^T *m ((ones (L + L))^T *m shift Y)) = (shift X)^T *m shift Y.
  by rewrite mulmxA -trmx_mul scalemxAl -linearZ.
have: w *: ((shift X)^T *m ones (L + L) *m delta Y) = (shift X)^T *m shift Y.
  by rewrite -mulmxA scalemxAr.
move: (shift X) (shift Y) => u v e2 e1.
rewrite /cov_weights diag_mx_row mul_block_col !mul0mx addr0 add0r.
rewrite tr_col_mx mul_row_col diag_const_mx !mul_scalar_mx -/w.
have -> : diag_mx (lambda_param t L / spread t L + (1 - alpha_param t * alpha_param t + beta_param t))%:M =
  (lambda_param t L / spread t L + (1 - alpha_param t * alpha_param t + beta_param t))%:M :> 'M[R]_1.
  by apply/matrixP => i j; rewrite !ord1 !mxE !eqxx !mulr1n.
rewrite mul_scalar_mx -!scalemxAr [(- u)^T]linearN mulNmx mulmxN opprK.
rewrite !repeat_rowE [(_ - _)^T]linearB /= trmx_mul trmxK.
rewrite mulmxBr !mulmxBl !scalerBr e1 e2 -!mulmxA [ones _ *m (_ *m _)]mulmxA ones_ones mul_scalar_mx.
rewrite lambdaE; clear e1 e2.
rewrite -scalemxAr scalerA; move: (_ *m _) (u^T *m v) => d s.
apply/matrixP => i j; rewrite !mxE.
move: (w * _) (s i j) (d i j) => a b c; to_r R; ring.
Qed.
End Formula.

(** The quadratic form of such a covariance. *)
Lemma qf_form k n (w b : R) (D : 'M[R]_(k, n)) (v : 'rV[R]_n) :
  qf (w *: (D^T *m D) + b *: ((w *: (ones k *m D))^T *m (w *: (ones k *m D)))) v =
  w * (\sum_i (D *m v^T) i 0 ^+ 2) + b * (w * \sum_i (D *m v^T) i 0) ^+ 2.
Proof.
rewrite qfD !qfZ -{2}(trmxK D) qf_gram sqnormE; congr (_ * _ + _).
  by apply: eq_bigr => i _; rewrite -{1}(trmxK v) -trmx_mul [_^T _ _]mxE.
congr (_ * _); set s := w *: _; rewrite -{2}(trmxK s) qf_gram /sqnorm.
have -> : v *m s^T = (w * \sum_i (D *m v^T) i 0)%:M.
  rewrite /s [LHS]mx11_scalar; congr _%:M; rewrite linearZ /= -scalemxAr mxE; congr (_ * _).
  rewrite trmx_mul mulmxA mxE; apply: eq_bigr => i _.
  by rewrite !mxE mulr1; apply: eq_bigr => j _; rewrite !mxE mulrC.
by rewrite tr_scalar_mx -scalar_mxM mxE eqxx mulr1n expr2.
Qed.

(** Sums of squares dominate squares of sums. *)
Lemma cauchy n (q : R) (T1 T2 : 'I_n -> R) : (forall k, T1 k ^+ 2 <= q * T2 k) ->
  (\sum_k T1 k) ^+ 2 <= n%:R * q * \sum_k T2 k.
Proof.
move=> h; case: n => [|n] in T1 T2 h *; first by rewrite !big_ord0 expr2 !mulr0.
set S := \sum_k T1 k; set m := S / n.+1%:R.
have nm : n.+1%:R * m = S by rewrite /m mulrCA mulfV ?mulr1 // pnatr_eq0.
have p0 : 0 <= \sum_k (T1 k - m) ^+ 2 by apply: sumr_ge0 => i _; rewrite sqr_ge0.
have e : \sum_k (T1 k - m) ^+ 2 = \sum_k T1 k ^+ 2 - S * m.
  rewrite (eq_bigr (fun k => T1 k ^+ 2 + (- (2%:R * m) * T1 k + m ^+ 2))); last first.
    by move=> i _; move: (T1 i) => x; to_r R; ring.
  rewrite big_split big_split /= -mulr_sumr sumr_const card_ord -/S -[m ^+ 2 *+ _]mulr_natl.
  rewrite expr2 mulrA nm; move: (bigop _ _ _) => z; to_r R; ring.
have h1 : S ^+ 2 = n.+1%:R * (S * m) by rewrite -nm; to_r R; ring.
rewrite h1 -mulrA ler_pmul2l ?ltr0Sn //; apply: le_trans (_ : \sum_k T1 k ^+ 2 <= _).
  by rewrite -subr_ge0 -e.
by rewrite mulr_sumr; apply: ler_sum.
Qed.
Lemma form_ge0 n (q w b : R) (T1 T2 : 'I_n -> R) : (forall k, T1 k ^+ 2 <= q * T2 k) -> 0 < w -> 0 < q ->
  - b * w * (n%:R * q) <= 1 -> 0 <= w * (\sum_k T2 k) + b * (w * \sum_k T1 k) ^+ 2.
Proof.
move=> h w0 q0 c.
have t2 : 0 <= \sum_k T2 k.
  by apply: sumr_ge0 => k _; rewrite -(pmulr_rge0 _ q0); apply: le_trans (h k); rewrite sqr_ge0.
have [b0|b0] := lerP 0 b.
  by rewrite addr_ge0 // mulr_ge0 // ?sqr_ge0 // ltW.
have := cauchy h; move: (\sum_k T1 k) (\sum_k T2 k) t2 => s1 s2 t2 c1.
have -> : w * s2 + b * (w * s1) ^+ 2 = w * (s2 - (- b * w) * s1 ^+ 2) by to_r R; ring.
apply: mulr_ge0; [exact: ltW|rewrite subr_ge0; apply: le_trans (_ : (- b * w) * (n%:R * q * s2) <= _)].
  by apply: ler_wpmul2l => //; rewrite mulr_ge0 ?oppr_ge0 ?ltW.
by rewrite mulrA -[X in _ <= X]mul1r; apply: ler_wpmul2r.
Qed.
End Weights.

(** Covariances that need no repair. *)
Section NoRepair.
Variable R : rcfType.
Variable svd : forall n, 'M[R]_n -> option ('rV[R]_n * 'M[R]_n).
Lemma allclose_refl m n (X : 'M[R]_(m, n)) : allclose X X.
Proof.
apply/forallP => i; apply/forallP => j; rewrite subrr normr0.
by rewrite addr_ge0 // ?mulr_ge0 // ?invr_ge0 ?exprn_ge0 // ler0n.
Qed.
Lemma ensure_psd_posdef n (A : 'M[R]_n) : posdef A -> ensure_psd svd A = Ok A.
Proof.
move=> pA; have [L E] := cholesky_posdef pA; case: pA => sA _.
by rewrite /ensure_psd sA allclose_refl E.
Qed.
Lemma cholesky_diag2 m n (A CA : 'M[R]_m) (D CD : 'M[R]_n) : A^T = A -> D^T = D ->
  cholesky A = Some CA -> cholesky D = Some CD ->
  cholesky (block_mx A 0 0 D) = Some (block_mx CA 0 0 CD).
Proof.
move=> sA sD /(cholesky_spec sA) [eA tA pA] /(cholesky_spec sD) [eD tD pD].
have -> : block_mx A 0 0 D = block_mx CA 0 0 CD *m (block_mx CA 0 0 CD)^T.
  rewrite tr_block_mx mulmx_block !trmx0 !mulmx0 !mul0mx !addr0 !add0r.
  by rewrite eA eD.
apply: cholesky_unique; last first.
  by move=> i; case: (split_ordP i) => k ->; rewrite ?block_mxEul ?block_mxEdr.
apply/is_trig_mxP => i j; case: (split_ordP i) => k ->; case: (split_ordP j) => l -> h.
- by rewrite block_mxEul; move/is_trig_mxP: tA; apply.
- by rewrite block_mxEur mxE.
- by rewrite block_mxEdl mxE.
- by rewrite block_mxEdr; move/is_trig_mxP: tD; apply; move: h; rewrite /= ltn_add2l.
Qed.
End NoRepair.

Section Filter.
Variable R : rcfType.
Variable svd : forall n, 'M[R]_n -> option ('rV[R]_n * 'M[R]_n).
Variables U K : Type.
Add Field rcf : (rcf_field R).
Notation ones k := (const_mx 1 : 'rV[R]_k).

Lemma accepted_alpha (t : tuning R) L : accepted t L -> 0 < alpha_param t.
Proof. by case=> a _ _ _; apply: lt_le_trans a; rewrite invr_gt0 ltr0n. Qed.
Lemma accepted_spread (t : tuning R) L : accepted t L -> 0 < spread t L.
Proof. by move=> ac; have a := accepted_alpha ac; case: ac => _ _ _ k; rewrite /spread !mulr_gt0. Qed.
Lemma gamma_spread (t : tuning R) L : accepted t L -> gamma_param t L ^+ 2 = spread t L.
Proof. by case=> _ _ _ k; rewrite /gamma_param exprMn sqr_sqrtr ?ltW // expr2. Qed.
Lemma gamma_gt0 (t : tuning R) L : accepted t L -> 0 < gamma_param t L.
Proof. by move=> ac; have a := accepted_alpha ac; case: ac => _ _ _ k; rewrite /gamma_param mulr_gt0 // sqrtr_gt0. Qed.
Lemma two_w_gamma (t : tuning R) L : accepted t L -> 2%:R^-1 / spread t L * (gamma_param t L ^+ 2 + gamma_param t L ^+ 2) = 1.
Proof.
move=> ac; have c0 := accepted_spread ac; rewrite gamma_spread // mulrDr -mulrA mulVf ?gt_eqF // mulr1.
by rewrite -[LHS]mulr2n -[LHS]mulr_natl mulfV // pnatr_eq0.
Qed.

Section Dims.
Variables n p : nat.
Notation L := (aug_len n p).
Definition sigma (t : tuning R) (x : 'rV[R]_n) (C : 'M[R]_L) : 'M[R]_(1 + (L + L), L) :=
  let g := gamma_param t L in
  repeat_row (1 + (L + L)) (row_mx x 0) + col_mx 0 (col_mx (g *: C^T) (- g *: C^T)).

Lemma build_sigma (f : ukf R U n p) : posdef (covariance (hidden f)) -> posdef (cov_w f) -> posdef (cov_v f) ->
  exists CP CQ CV, [/\ cholesky (covariance (hidden f)) = Some CP, cholesky (cov_w f) = Some CQ,
    cholesky (cov_v f) = Some CV &
    build_sigma_points svd f = Ok (sigma (tune f) (mean (hidden f)) (block_mx CP 0 0 (block_mx CQ 0 0 CV)))].
Proof.
move=> pP pQ pV; have [CP eP] := cholesky_posdef pP; have [CQ eQ] := cholesky_posdef pQ.
have [CV eV] := cholesky_posdef pV; exists CP, CQ, CV; split=> //.
have pR := posdef_diag2 pQ pV; have pA := posdef_diag2 pP pR.
rewrite /build_sigma_points ensure_psd_posdef //=.
have eR := cholesky_diag2 (proj1 pQ) (proj1 pV) eQ eV.
by rewrite (cholesky_diag2 (proj1 pP) (proj1 pR) eP eR).
Qed.

(** The samples obtained from the sigma points. *)
Definition fx (g : 'rV[R]_n -> 'rV[R]_n) (r : 'rV[R]_L) : 'rV[R]_n := g (lsubmx r) + lsubmx (rsubmx r).
Definition fy g (h : 'rV[R]_n -> 'rV[R]_p) (r : 'rV[R]_L) : 'rV[R]_p := h (fx g r) + rsubmx (rsubmx r).
Definition rows k m (G : 'rV[R]_L -> 'rV[R]_m) (S : 'M[R]_(k, L)) : 'M[R]_(k, m) := \matrix_i G (row i S).

Lemma rows_x k g (S : 'M[R]_(k, L)) :
  (\matrix_i g (row i (lsubmx S))) + lsubmx (rsubmx S) = rows (fx g) S.
Proof.
apply/row_matrixP => i; rewrite linearD /= !rowK /fx; congr (_ + _).
  by congr g; apply/rowP => j; rewrite !mxE.
by apply/rowP => j; rewrite !mxE.
Qed.
Lemma rows_y k g h (S : 'M[R]_(k, L)) :
  (\matrix_i h (row i (rows (fx g) S))) + rsubmx (rsubmx S) = rows (fy g h) S.
Proof.
apply/row_matrixP => i; rewrite linearD /= !rowK /fy; congr (_ + _).
by apply/rowP => j; rewrite !mxE.
Qed.

(** Differences of the samples with the first one. *)
Lemma sigma0 t x C : usubmx (sigma t x C) = row_mx x 0.
Proof. by rewrite /sigma repeat_row_col add_col_mx col_mxKu addr0. Qed.
Lemma sigma_plus t x C k : row (rshift 1 (lshift L k)) (sigma t x C) = row_mx x 0 + gamma_param t L *: row k C^T.
Proof.
by apply/rowP => j; rewrite mxE /sigma mxE col_mxEd col_mxEu !mxE.
Qed.
Lemma sigma_minus t x C k : row (rshift 1 (rshift L k)) (sigma t x C) = row_mx x 0 - gamma_param t L *: row k C^T.
Proof.
by apply/rowP => j; rewrite mxE /sigma mxE col_mxEd col_mxEd !mxE mulNr.
Qed.
Lemma rows0 m (G : 'rV[R]_L -> 'rV[R]_m) t x C : usubmx (rows G (sigma t x C)) = G (row_mx x 0).
Proof.
apply/rowP => j; rewrite mxE /rows [LHS]mxE -(sigma0 t x C); congr (G _ _ _).
by apply/rowP => l; rewrite !mxE; congr (_ _ _); rewrite ord1.
Qed.
Definition diffs m (G : 'rV[R]_L -> 'rV[R]_m) t x (C : 'M[R]_L) (s : R) : 'M[R]_(L, m) :=
  \matrix_k (G (row_mx x 0 + (s * gamma_param t L) *: row k C^T) - G (row_mx x 0)).
Lemma delta_rows m (G : 'rV[R]_L -> 'rV[R]_m) t x C :
  delta (rows G (sigma t x C)) = col_mx (diffs G t x C 1) (diffs G t x C (-1)).
Proof.
rewrite /delta rows0; apply/row_matrixP => i; case: (split_ordP i) => k ->.
  rewrite rowKu rowK mul1r -sigma_plus.
  by apply/rowP => j; rewrite !mxE.
rewrite rowKd rowK mulN1r scaleNr -sigma_minus.
by apply/rowP => j; rewrite !mxE.
Qed.

(** Covariances of samples from differences. *)
Definition dcov (t : tuning R) m1 m2 (D : 'M[R]_(L + L, m1)) (E : 'M[R]_(L + L, m2)) : 'M[R]_(m1, m2) :=
  let w := 2%:R^-1 / spread t L in
  w *: (D^T *m E) + (beta_param t - alpha_param t ^+ 2) *: ((w *: (ones (L + L) *m D))^T *m (w *: (ones (L + L) *m E))).
Lemma dcov_row (t : tuning R) m1 m2 (D : 'M[R]_(L + L, m1)) (E : 'M[R]_(L + L, m2)) :
  dcov t (row_mx D E) (row_mx D E) = block_mx (dcov t D D) (dcov t D E) (dcov t E D) (dcov t E E).
Proof.
rewrite /dcov; cbv zeta; rewrite [ones _ *m row_mx D E]mul_mx_row scale_row_mx !tr_row_mx !mul_col_row !scale_block_mx.
by rewrite add_block_mx.
Qed.
Lemma dcov_tr (t : tuning R) m1 m2 (D : 'M[R]_(L + L, m1)) (E : 'M[R]_(L + L, m2)) : (dcov t D E)^T = dcov t E D.
Proof. by rewrite /dcov; cbv zeta; rewrite linearD; congr (_ + _); rewrite [LHS]linearZ /= trmx_mul trmxK. Qed.

(** The quadratic form of the covariance of samples, term by term. *)
Lemma qf_diffs m (G : 'rV[R]_L -> 'rV[R]_m) t x C v :
  let e s k := ((G (row_mx x 0 + (s * gamma_param t L) *: row k C^T) - G (row_mx x 0)) *m v^T) 0 0 in
  let w := 2%:R^-1 / spread t L in
  let D := delta (rows G (sigma t x C)) in
  qf (dcov t D D) v =
  w * (\sum_k (e 1 k ^+ 2 + e (-1) k ^+ 2)) + (beta_param t - alpha_param t ^+ 2) * (w * (\sum_k (e 1 k + e (-1) k))) ^+ 2.
Proof.
move=> e w D; rewrite /dcov; cbv zeta; rewrite qf_form.
have E s k : (diffs G t x C s *m v^T) k 0 = e s k.
  rewrite /e mxE; rewrite mxE; apply: eq_bigr => j _; congr (_ * _).
  by rewrite /diffs mxE.
have S (T : R -> R) : \sum_i T ((D *m v^T) i 0) = \sum_k (T (e 1 k) + T (e (-1) k)).
  rewrite /D delta_rows mul_col_mx big_split_ord /= big_split /=.
  by congr (_ + _); apply: eq_bigr => k _; rewrite ?col_mxEu ?col_mxEd E.
by rewrite (S (fun z => z ^+ 2)) (S id).
Qed.

Lemma sq2 (y1 y2 : R) : (y1 + y2) ^+ 2 <= 2%:R * (y1 ^+ 2 + y2 ^+ 2).
Proof.
rewrite -subr_ge0.
have -> : 2%:R * (y1 ^+ 2 + y2 ^+ 2) - (y1 + y2) ^+ 2 = (y1 - y2) ^+ 2 by to_r R; ring.
exact: sqr_ge0.
Qed.
Lemma sq4 (y1 y2 y3 y4 : R) :
  (y1 + y2 + (y3 + y4)) ^+ 2 <= 4%:R * (y1 ^+ 2 + y2 ^+ 2 + (y3 ^+ 2 + y4 ^+ 2)).
Proof.
rewrite -subr_ge0.
have -> : 4%:R * (y1 ^+ 2 + y2 ^+ 2 + (y3 ^+ 2 + y4 ^+ 2)) - (y1 + y2 + (y3 + y4)) ^+ 2 =
  (y1 - y2) ^+ 2 + (y1 - y3) ^+ 2 + (y1 - y4) ^+ 2 + (y2 - y3) ^+ 2 + (y2 - y4) ^+ 2 + (y3 - y4) ^+ 2 by to_r R; ring.
by rewrite !addr_ge0 ?sqr_ge0.
Qed.

(** The rows of the augmented factor. *)
Section Rows.
Variables (CP CQ : 'M[R]_n) (CV : 'M[R]_p).
Let C : 'M[R]_L := block_mx CP 0 0 (block_mx CQ 0 0 CV).
Lemma row_lshift m1 m2 (A : 'M[R]_m1) (D : 'M[R]_m2) k :
  row (lshift m2 k) (block_mx A 0 0 D)^T = row_mx (row k A^T) 0.
Proof.
apply/rowP => j; rewrite [LHS]mxE [LHS]mxE; case: (split_ordP j) => l ->.
  by rewrite block_mxEul row_mxEl !mxE.
by rewrite block_mxEdl row_mxEr !mxE.
Qed.
Lemma row_rshift m1 m2 (A : 'M[R]_m1) (D : 'M[R]_m2) k :
  row (rshift m1 k) (block_mx A 0 0 D)^T = row_mx 0 (row k D^T).
Proof.
apply/rowP => j; rewrite [LHS]mxE [LHS]mxE; case: (split_ordP j) => l ->.
  by rewrite block_mxEur row_mxEl !mxE.
by rewrite block_mxEdr row_mxEr !mxE.
Qed.
Lemma sum_rows_sq m (A : 'M[R]_m) (v : 'rV[R]_m) (s : R) :
  \sum_k (s * (row k A^T *m v^T) 0 0) ^+ 2 = s ^+ 2 * qf (A *m A^T) v.
Proof.
rewrite qf_gram sqnormE mulr_sumr; apply: eq_bigr => k _; rewrite exprMn; congr (_ * _ ^+ 2).
by rewrite !mxE; apply: eq_bigr => j _; rewrite !mxE mulrC.
Qed.

Variables (g : 'rV[R]_n -> 'rV[R]_n) (h : 'rV[R]_n -> 'rV[R]_p) (t : tuning R) (x : 'rV[R]_n).
Hypothesis ac : accepted t L.
Let G r := row_mx (fx g r) (fy g h r).
Let w := 2%:R^-1 / spread t L.
Let b := beta_param t - alpha_param t ^+ 2.
Lemma w_gt0 : 0 < w.
Proof. by rewrite /w divr_gt0 ?invr_gt0 ?ltr0n // (accepted_spread ac). Qed.

Let e (v : 'rV[R]_(n + p)) s k := ((G (row_mx x 0 + (s * gamma_param t L) *: row k C^T) - G (row_mx x 0)) *m v^T) 0 0.
Lemma fx0 : fx g (row_mx x 0) = g x.
Proof. by rewrite /fx row_mxKl row_mxKr linear0 addr0. Qed.
Lemma e_V av bv s k : e (row_mx av bv) s (rshift n (rshift n k)) = s * gamma_param t L * (row k CV^T *m bv^T) 0 0.
Proof.
rewrite /e /C; have -> : row (rshift n (rshift n k)) (block_mx CP 0 0 (block_mx CQ 0 0 CV))^T =
  row_mx 0 (row_mx 0 (row k CV^T)) :> 'rV[R]_L by rewrite row_rshift row_rshift.
set z := row k CV^T; set q := s * _.
have -> : G (row_mx x 0 + q *: row_mx 0 (row_mx 0 z)) - G (row_mx x 0) = row_mx 0 (q *: z).
  rewrite !scale_row_mx !scaler0 add_row_mx addr0 add0r /G /fy /fx !row_mxKl !row_mxKr !row_mxKl !linear0 !addr0.
  by rewrite opp_row_mx add_row_mx subrr addrAC subrr add0r.
by rewrite tr_row_mx mul_row_col mul0mx add0r -scalemxAl mxE.
Qed.
Lemma e_Q av s k : e (row_mx av 0) s (rshift n (lshift p k)) = s * gamma_param t L * (row k CQ^T *m av^T) 0 0.
Proof.
rewrite /e /C; have -> : row (rshift n (lshift p k)) (block_mx CP 0 0 (block_mx CQ 0 0 CV))^T =
  row_mx 0 (row_mx (row k CQ^T) 0) :> 'rV[R]_L by rewrite row_rshift row_lshift.
set z := row k CQ^T; set q := s * _.
rewrite !scale_row_mx !scaler0 add_row_mx addr0 add0r /G /fx !row_mxKl !row_mxKr !row_mxKl !linear0 !addr0.
rewrite opp_row_mx add_row_mx tr_row_mx mul_row_col trmx0 mulmx0 addr0 addrAC subrr add0r.
by rewrite -scalemxAl mxE.
Qed.

Hypothesis cond : (alpha_param t ^+ 2 - beta_param t) * (n + n)%:R <= spread t L.
Lemma cond_w q : q <= 4%:R -> 0 < q -> - b * w * (n%:R * q) <= 1.
Proof.
move=> q4 q0; have c0 := accepted_spread ac; have w0 := w_gt0.
have [b0|b0] := lerP 0 b.
  apply: (@le_trans _ _ 0); last exact: ler01.
  rewrite !mulNr oppr_le0; apply: mulr_ge0; apply: mulr_ge0 => //; try exact: ler0n; exact: ltW.
apply: le_trans (_ : - b * w * (n%:R * 4%:R) <= _).
  by apply: ler_wpmul2l; [apply: mulr_ge0; rewrite ?oppr_ge0 ltW|rewrite ler_wpmul2l ?ler0n].
have -> : - b * w * (n%:R * 4%:R) = (alpha_param t ^+ 2 - beta_param t) * (n + n)%:R / spread t L.
  have -> : (n + n)%:R = n%:R * 2%:R :> R by rewrite natrD mulr_natr mulr2n.
  have -> : (4%:R : R) = 2%:R * 2%:R by rewrite -natrM.
  have h2 : (2%:R : R) != 0 by rewrite pnatr_eq0.
  rewrite /b /w; move: (n%:R) (2%:R : R) h2 (spread t L) c0 => N z /eqP h2 c /gt_eqF/eqP c0.
  by to_r R; field.
by rewrite ler_pdivr_mulr // mul1r.
Qed.


Lemma joint_form_pos (Q : 'M[R]_n) (V : 'M[R]_p) v : CQ *m CQ^T = Q -> CV *m CV^T = V -> posdef Q -> posdef V ->
  v != 0 -> let D := delta (rows G (sigma t x C)) in 0 < qf (dcov t D D) v.
Proof.
move=> eQ eV [_ pQ] [_ pV]; rewrite -(hsubmxK v); move: (lsubmx v) (rsubmx v) => av bv nz /=.
rewrite qf_diffs; cbv zeta.
change (0 < w * (\sum_k (e (row_mx av bv) 1 k ^+ 2 + e (row_mx av bv) (-1) k ^+ 2)) +
  b * (w * (\sum_k (e (row_mx av bv) 1 k + e (row_mx av bv) (-1) k))) ^+ 2).
have S (T : 'I_L -> R) : \sum_k T k = \sum_(k < n) T (lshift (n + p) k) +
    (\sum_(k < n) T (rshift n (lshift p k)) + \sum_(k < p) T (rshift n (rshift n k))).
  by rewrite (@big_split_ord _ _ _ n (n + p)) /= big_split_ord.
rewrite !S {S}; set sV2 := \sum_(k < p) _; set sV1 := \sum_(k < p) _.
have g2 := two_w_gamma ac; rewrite -/w in g2; have w0 := w_gt0.
have -> : sV1 = 0.
  rewrite /sV1; apply: big1 => k _; rewrite !e_V; move: (_ 0 0) => z.
  by rewrite mul1r mulN1r mulNr subrr.
have -> : sV2 = (gamma_param t L ^+ 2 + gamma_param t L ^+ 2) * qf V bv.
  rewrite /sV2 big_split /= -eV mulrDl; congr (_ + _).
    by rewrite -sum_rows_sq; apply: eq_bigr => k _; rewrite e_V mul1r.
  by rewrite -sum_rows_sq; apply: eq_bigr => k _; rewrite e_V mulN1r mulNr sqrrN.
have [z|bnz] := eqVneq bv 0.
  rewrite z in nz *; rewrite qfv0 mulr0 !addr0.
  rewrite row_mx_eq0 eqxx andbT in nz.
  set sP2 := \sum_(k < n) _; set sQ2 := \sum_(k < n) _; set sP1 := \sum_(k < n) _; set sQ1 := \sum_(k < n) _.
  have -> : sQ1 = 0.
    rewrite /sQ1; apply: big1 => k _; rewrite !e_Q; move: (_ 0 0) => y.
    by rewrite mul1r mulN1r mulNr subrr.
  have -> : sQ2 = (gamma_param t L ^+ 2 + gamma_param t L ^+ 2) * qf Q av.
    rewrite /sQ2 big_split /= -eQ mulrDl; congr (_ + _).
      by rewrite -sum_rows_sq; apply: eq_bigr => k _; rewrite e_Q mul1r.
    by rewrite -sum_rows_sq; apply: eq_bigr => k _; rewrite e_Q mulN1r mulNr sqrrN.
  rewrite addr0 mulrDr mulrA g2 mul1r addrAC; apply: ltr_paddl; last exact: pQ.
  apply: (form_ge0 (q := 2%:R)) => //; first last.
  - by apply: cond_w; rewrite ?ltr0n ?ler_nat.
  - by rewrite ltr0n.
  by move=> k; apply: sq2.
rewrite !addr0 addrA -!big_split /= mulrDr mulrA g2 mul1r addrAC; apply: ltr_paddl; last exact: pV.
apply: (form_ge0 (q := 4%:R)) => //; first last.
- by apply: cond_w; rewrite ?ltr0n.
- by rewrite ltr0n.
by move=> k; apply: sq4.
Qed.
End Rows.

Lemma row_mx_col2 m1 m2 k1 k2 (A : 'M[R]_(k1, m1)) (B : 'M[R]_(k2, m1)) (D : 'M[R]_(k1, m2)) (E : 'M[R]_(k2, m2)) :
  row_mx (col_mx A B) (col_mx D E) = col_mx (row_mx A D) (row_mx B E).
Proof. by rewrite -block_mxEh -block_mxEv. Qed.

(** One step, computed. *)
Lemma assembleE (t : tuning R) m (X : 'M[R]_(1 + (L + L), m)) : spread t L != 0 -> (0 < m)%N ->
  assemble (mean_weights t L) (cov_weights t L) X = Ok (Gauss (usubmx X + shift t X) (dcov t (delta X) (delta X))).
Proof.
move=> c0 m0; rewrite /assemble averageE //= cov_formula //.
by case: m X m0.
Qed.

Section Step.
Variables (md : model R U K n p) (g : U -> U -> 'rV[R]_n -> 'rV[R]_n) (h : U -> 'rV[R]_n -> 'rV[R]_p).
Hypothesis beh : behaves_as md g h.
Hypothesis n0 : (0 < n)%N.
Hypothesis p0 : (0 < p)%N.

Lemma estimation_char (f : ukf R U n p) S u : spread (tune f) L != 0 ->
  let X := rows (fx (g (controls f) u)) S in
  let Y := rows (fy (g (controls f) u) (h u)) S in
  estimation_update md f nil S u =
  Ok (Gauss (usubmx X + shift (tune f) X) (dcov (tune f) (delta X) (delta X)),
      Gauss (usubmx Y + shift (tune f) Y) (dcov (tune f) (delta Y) (delta Y)),
      dcov (tune f) (delta X) (delta Y)).
Proof.
move=> c0 X Y; case: beh => bg bh; rewrite /estimation_update bg /= rows_x -/X assembleE //=.
rewrite bh /= rows_y -/Y assembleE //=.
by rewrite cov_formula.
Qed.

Lemma correction_char (x_minus : gaussian R n) (y_hat : gaussian R p) (Pxy : 'M[R]_(n, p)) y :
  posdef (block_mx (covariance x_minus) Pxy Pxy^T (covariance y_hat)) ->
  let l := Pxy *m invmx (covariance y_hat) in
  let P' := covariance x_minus - Pxy *m invmx (covariance y_hat) *m Pxy^T in
  [/\ correction_update svd (nil : list K) x_minus y_hat Pxy y =
        Ok (Gauss (mean x_minus + (y - mean y_hat) *m l^T) P'),
      posdef P', posdef (covariance y_hat) & posdef (covariance x_minus)].
Proof.
move=> pJ l P'; have pP' := posdef_schur pJ; have sJ := proj1 pJ; case: pJ => _ pJ.
move: sJ; rewrite tr_block_mx trmxK => /eq_block_mx [sx _ _ sy].
have py : posdef (covariance y_hat).
  split=> // v nz; have := pJ (row_mx 0 v); rewrite row_mx_neq0 nz orbT => /(_ isT).
  by rewrite qf_block qfv0 mul0mx mul0mx [(0 : 'M_1) 0 0]mxE mulr0 !add0r.
have px : posdef (covariance x_minus).
  split=> // v nz; have := pJ (row_mx v 0); rewrite row_mx_neq0 nz => /(_ isT).
  by rewrite qf_block qfv0 trmx0 mulmx0 [(0 : 'M_1) 0 0]mxE mulr0 !addr0.
split=> //; have uy := posdef_unit py.
rewrite /correction_update /calculate_gain_matrix /np_inv uy /= -/l.
have e : l *m (covariance y_hat *m l^T) = Pxy *m invmx (covariance y_hat) *m Pxy^T.
  by rewrite /l mulmxA mulmxKV // trmx_mul trmx_inv sy mulmxA.
rewrite e ensure_psd_posdef //= /mk_gaussian.
by case: (n) n0 x_minus Pxy {pP' pJ sx px} @l @P' e.
Qed.

(** The central covariance weight is not too negative. *)
Definition tame (t : tuning R) : Prop := (alpha_param t ^+ 2 - beta_param t) * (n + n)%:R <= spread t L.

Lemma joint_posdef t x CP (CQ : 'M[R]_n) (CV : 'M[R]_p) g' h' : accepted t L -> tame t ->
  posdef (CQ *m CQ^T) -> posdef (CV *m CV^T) ->
  let S := sigma t x (block_mx CP 0 0 (block_mx CQ 0 0 CV)) in
  let X := rows (fx g') S in let Y := rows (fy g' h') S in
  posdef (block_mx (dcov t (delta X) (delta X)) (dcov t (delta X) (delta Y))
    (dcov t (delta X) (delta Y))^T (dcov t (delta Y) (delta Y))).
Proof.
move=> ac tm pQ pV S X Y; rewrite dcov_tr -dcov_row.
have -> : row_mx (delta X) (delta Y) = delta (rows (fun r => row_mx (fx g' r) (fy g' h' r)) S).
  rewrite /S delta_rows /X /Y !delta_rows row_mx_col2; congr col_mx.
    by apply/row_matrixP => k; rewrite row_row_mx !rowK opp_row_mx add_row_mx.
  by apply/row_matrixP => k; rewrite row_row_mx !rowK opp_row_mx add_row_mx.
split; first by rewrite dcov_tr.
by move=> v nz; apply: (joint_form_pos CP g' h' x ac tm erefl erefl pQ pV nz).
Qed.

Lemma step_char (f : ukf R U n p) u y : accepted (tune f) L -> tame (tune f) ->
  posdef (covariance (hidden f)) -> posdef (cov_w f) -> posdef (cov_v f) ->
  exists CP CQ CV, [/\ cholesky (covariance (hidden f)) = Some CP, cholesky (cov_w f) = Some CQ &
    cholesky (cov_v f) = Some CV] /\
  let t := tune f in
  let S := sigma t (mean (hidden f)) (block_mx CP 0 0 (block_mx CQ 0 0 CV)) in
  let X := rows (fx (g (controls f) u)) S in
  let Y := rows (fy (g (controls f) u) (h u)) S in
  let mx := usubmx X + shift t X in let my := usubmx Y + shift t Y in
  let Pxx := dcov t (delta X) (delta X) in let Pxy := dcov t (delta X) (delta Y) in
  let Pyy := dcov t (delta Y) (delta Y) in
  [/\ build_sigma_points svd f = Ok S,
      estimation_update md f nil S u = Ok (Gauss mx Pxx, Gauss my Pyy, Pxy),
      step svd md f nil u y =
        Ok (Ukf (Gauss (mx + (y - my) *m (Pxy *m invmx Pyy)^T) (Pxx - Pxy *m invmx Pyy *m Pxy^T))
                u t (cov_w f) (cov_v f), Gauss my Pyy) &
      [/\ posdef (Pxx - Pxy *m invmx Pyy *m Pxy^T), posdef Pyy & posdef Pxx]].
Proof.
move=> ac tm pP pQ pV; have [CP [CQ [CV [eP eQ eV eS]]]] := build_sigma pP pQ pV.
exists CP, CQ, CV; split=> // t S X Y mx my Pxx Pxy Pyy.
have c0 : spread t L != 0 by rewrite gt_eqF // (accepted_spread ac).
have es := estimation_char S u c0; rewrite -/X -/Y -/mx -/my -/Pxx -/Pxy -/Pyy in es.
have [qq _ _] := cholesky_spec (proj1 pQ) eQ; have [qv _ _] := cholesky_spec (proj1 pV) eV.
have pJ : posdef (block_mx Pxx Pxy Pxy^T Pyy) by apply: joint_posdef; rewrite ?qq ?qv.
have [ec pp py px] := @correction_char (Gauss mx Pxx) (Gauss my Pyy) Pxy y pJ.
split=> //; rewrite /step eS /= -/S -/t es /= ec //=.
Qed.
End Step.
End Dims.
End Filter.
