(** Properties of the unscented Kalman filter (C39-C45, C47, C85). *)
From mathcomp Require Import all_ssreflect all_algebra.
From Verif Require Import Res RingTac Cholesky Spec_UKF Cholesky_proofs UKF Spec_Filter UKF_proofs UKF_linear.
Set Implicit Arguments.
Unset Strict Implicit.
Unset Printing Implicit Defensive.
Import Order.Theory GRing.Theory Num.Theory.
Local Open Scope ring_scope.

Lemma aug_lenE n p : aug_len n p = (2 * n + p)%N.
Proof. by rewrite /aug_len mul2n -addnn addnA. Qed.

(** * C39: unscented weights *)
Section C39.
Variable R : rcfType.
Variables (t : tuning R) (L : nat).
Hypothesis ac : accepted t L.

(** There are 1 + 2 L weights of each kind (their types say so). *)
Theorem C39_mean_weights :
  \sum_i mean_weights t L 0 i = 1 /\
  mean_weights t L 0 0 = 1 - L%:R / (alpha_param t ^+ 2 * (L%:R + kappa_param t)).
Proof.
have c0 : spread t L != 0 by rewrite gt_eqF // (accepted_spread ac).
split; first exact: mean_weights_sum.
have -> : (0 : 'I_(1 + (L + L))) = lshift (L + L) 0 by apply/val_inj.
rewrite /mean_weights row_mxEl mxE eqxx mulr1n /lambda_param mulrBl mulfV //.
Qed.
Theorem C39_cov_weights :
  \sum_i cov_weights t L 0 i = 2%:R - alpha_param t ^+ 2 + beta_param t /\
  cov_weights t L 0 0 = mean_weights t L 0 0 + (1 - alpha_param t ^+ 2 + beta_param t).
Proof.
have c0 : spread t L != 0 by rewrite gt_eqF // (accepted_spread ac).
split; first exact: cov_weights_sum.
have -> : (0 : 'I_(1 + (L + L))) = lshift (L + L) 0 by apply/val_inj.
by rewrite /mean_weights /cov_weights !row_mxEl !mxE eqxx !mulr1n expr2.
Qed.
Theorem C39_other_weights : exists w, 0 < w /\
  w = (2%:R * alpha_param t ^+ 2 * (L%:R + kappa_param t))^-1 /\
  forall i : 'I_(1 + (L + L)), i != 0 -> mean_weights t L 0 i = w /\ cov_weights t L 0 i = w.
Proof.
have c0 := accepted_spread ac; exists (2%:R^-1 / spread t L); split.
  by rewrite divr_gt0 // invr_gt0 ltr0n.
split; first by rewrite /spread -invfM expr2 !mulrA.
move=> i; case: (split_ordP i) => k -> h; last by rewrite /mean_weights /cov_weights !row_mxEr !mxE.
by move: h; rewrite ord1 => /eqP []; apply/val_inj.
Qed.
End C39.

(** The constructor only yields accepted tunings, and 'automatic' gives L + kappa = 3. *)
Theorem C39_automatic (R : rcfType) U n p h (x : gaussian R h) (u : U) Q V alpha beta f :
  @ukf_init R U n p h x u Q V alpha None beta = Ok f ->
  accepted (tune f) (2 * n + p) /\ (2 * n + p)%:R + kappa_param (tune f) = 3%:R.
Proof.
rewrite /ukf_init; case: (n =P h) => // e; rewrite /check.
case: ifP => //= a1; case: ifP => //= a2; case: ifP => //= b0; case: ifP => //= q1; case: ifP => //= q2.
case: of_shape => //= q; case: of_shape => //= v [<-] /=.
have -> : (2 * n + p)%:R + (3%:R - (aug_len n p)%:R) = 3%:R :> R by rewrite aug_lenE addrC subrK.
split=> //; split=> //=; rewrite aug_lenE addrC subrK; exact: ltr0n.
Qed.
Example C39_witness (R : rcfType) : accepted (Tuning 1 0 2%:R : tuning R) 3 /\
  mean_weights (Tuning 1 0 2%:R : tuning R) 3 0 0 = 0.
Proof.
have ac : accepted (Tuning 1 0 2%:R : tuning R) 3.
  by split=> //=; rewrite ?addr0 ?ltr0n ?ler0n // invf_le1 ?ler1n ?ltr0n.
split=> //; have [_ ->] := C39_mean_weights ac; rewrite /= addr0 expr1n mul1r mulfV ?subrr //.
by rewrite pnatr_eq0.
Qed.

(** * C40: construction *)
Definition noise_ok (R : rcfType) (k : nat) (o : option (array2 R)) : Prop :=
  match o with None => True | Some a => nrows a = k /\ ncols a = k end.
Definition noise_is (R : rcfType) (k : nat) (o : option (array2 R)) (M : 'M[R]_k) : Prop :=
  match o with
  | None => M = 10%:R ^- 8 *: 1%:M
  | Some a => a = Array2 M
  end.
Lemma of_shapeP (R : rcfType) n m (a : array2 R) :
  of_shape n m a = match (nrows a == n) && (ncols a == m) with true => of_shape n m a | false => None end /\
  ((nrows a == n) && (ncols a == m) -> exists M : 'M[R]_(n, m), of_shape n m a = Some M /\ a = Array2 M).
Proof.
case: a => r c M; rewrite /of_shape /=; case: (r =P n) => [e|]; case: (c =P m) => [e'|]; split=> //.
by move=> _; case: n / e; case: m / e'; exists M; rewrite castmx_id.
Qed.
Lemma of_shape_ok (R : rcfType) n m (a : array2 R) M : of_shape n m a = Some M -> a = Array2 M.
Proof.
case: a => r c N; rewrite /of_shape /=; case: (r =P n) => [e|//]; case: (c =P m) => [e'|//].
by case: n / e M; case: m / e' => M; rewrite castmx_id => -[->].
Qed.
Lemma array2_inj (R : rcfType) n m (M N : 'M[R]_(n, m)) : Array2 M = Array2 N -> N = M.
Proof.
have e (Z : 'M[R]_(n, m)) : of_shape n m (Array2 Z) = Some Z.
  rewrite /of_shape /=; case: (n =P n) => // e; case: (m =P m) => // e'.
  by rewrite castmx_id.
by move=> h; have := e M; rewrite h e => -[].
Qed.
Section C40.
Variable R : rcfType.
Variables (U : Type) (n p h : nat) (x : gaussian R h) (u : U) (Q V : option (array2 R)) (alpha : R) (kappa : option R) (beta : R).
Definition settings_ok : Prop :=
  h = n /\ 1000%:R^-1 <= alpha /\ alpha <= 1 /\ 0 <= beta /\
  (forall k, kappa = Some k -> 0 < (2 * n + p)%:R + k) /\ noise_ok n Q /\ noise_ok p V.

Theorem C40_accepts_exactly :
  settings_ok <-> exists f, @ukf_init R U n p h x u Q V alpha kappa beta = Ok f.
Proof.
split.
  move=> [hn [a1 [a2 [b0 [k0 [q v]]]]]]; rewrite /ukf_init.
  case: (n =P h) => [e|ne]; last by case: ne.
  rewrite /check a1 a2 b0 /=.
  have [kap ->] : exists kap, match kappa with
     | None => Ok (3%:R - (aug_len n p)%:R)
     | Some k => let! _ := if 0 < (aug_len n p)%:R + k then Ok tt else Err AssertionError in Ok k
     end = Ok kap.
    by case: kappa k0 => [k /(_ k erefl)|_]; [rewrite -aug_lenE => -> /=|]; eexists.
  have shape k (o : option (array2 R)) : noise_ok k o -> let A := odflt (Array2 (10%:R ^- 8 *: (1%:M : 'M_k))) o in
      nrows A == ncols A /\ exists M, of_shape k k A = Some M.
    by case: o => [a /= [e1 e2]|_ /=]; rewrite ?e1 ?e2 eqxx; split=> //;
      [have [_ /(_ _)] := of_shapeP k k a; rewrite e1 e2 eqxx => /(_ isT) [M [-> _]]; exists M
      |have [_ /(_ _)] := of_shapeP k k (Array2 (10%:R ^- 8 *: (1%:M : 'M[R]_k))); rewrite eqxx => /(_ isT) [M [-> _]]; exists M].
  have [q1 [M1 q2]] := shape n Q q; have [v1 [M2 v2]] := shape p V v.
  by rewrite /= q1 v1 /= q2 /= v2 /=; eexists.
move=> [f]; rewrite /settings_ok /ukf_init; case: (n =P h) => [e|//]; rewrite /check.
case: ifP => //= a1; case: ifP => //= a2; case: ifP => //= b0.
case: (kappa) => [k|] /=; [case: ifP => //= k0|].
all: case: ifP => //= q1; case: ifP => //= q2.
all: case Eq: of_shape => [M|] //=; case Ev: of_shape => [N|] //= _.
all: do 4 (split=> //).
all: split; first by move=> k' // [<-]; rewrite -aug_lenE.
all: have nk m (o : option (array2 R)) X : of_shape m m (odflt (Array2 (10%:R ^- 8 *: (1%:M : 'M_m))) o) = Some X -> noise_ok m o;
  first by case: o => //= a /of_shape_ok ->.
all: by split; [apply: nk Eq|apply: nk Ev].
Qed.
(** Anything else is an AssertionError. *)
Theorem C40_rejects : ~ settings_ok -> @ukf_init R U n p h x u Q V alpha kappa beta = Err AssertionError.
Proof.
move/C40_accepts_exactly; rewrite /ukf_init; case: (n =P h) => // e; rewrite /check.
case: ifP => //= a1; case: ifP => //= a2; case: ifP => //= b0.
case: (kappa) => [k|] /=; [case: ifP => //= k0|].
all: case: ifP => //= q1; case: ifP => //= q2.
all: case Eq: of_shape => [M|] //=; case Ev: of_shape => [N|] //= [].
all: by eexists.
Qed.
End C40.
(** What the constructed filter holds. *)
Theorem C40_result (R : rcfType) U n p (x : gaussian R n) (u : U) Q V alpha kappa beta f :
  @ukf_init R U n p n x u Q V alpha kappa beta = Ok f ->
  [/\ hidden f = x, controls f = u, noise_is Q (cov_w f) & noise_is V (cov_v f)] /\
  [/\ alpha_param (tune f) = alpha, beta_param (tune f) = beta &
      forall k, kappa = Some k -> kappa_param (tune f) = k].
Proof.
rewrite /ukf_init; case: (n =P n) => // e; rewrite /check.
case: ifP => //= a1; case: ifP => //= a2; case: ifP => //= b0.
have nk m (o : option (array2 R)) X : of_shape m m (odflt (Array2 (10%:R ^- 8 *: (1%:M : 'M_m))) o) = Some X -> noise_is o X.
  case: o => //= [a /of_shape_ok //|/of_shape_ok]; rewrite /noise_is => E.
  by apply: array2_inj.
case: (kappa) => [k|] /=; [case: ifP => //= k0|].
all: case: ifP => //= q1; case: ifP => //= q2.
all: case Eq: of_shape => [M|] //=; case Ev: of_shape => [N|] //= [<-] /=; split; split=> //.
all: try exact: nk Eq. all: try exact: nk Ev.
all: try by rewrite !castmx_id; case: (x).
by move=> k' [].
Qed.
Example C40_witness (R : rcfType) : @settings_ok R 1 1 1 None None 1 (Some 0) 2%:R /\
  ~ @settings_ok R 1 1 1 None None 1 (Some (- 3%:R)) 2%:R.
Proof.
split.
  split=> //; split; first by rewrite invf_le1 ?ler1n ?ltr0n.
  split=> //; split; first exact: ler0n.
  by split=> // k [<-]; rewrite addr0 ltr0n.
by move=> [_ [_ [_ [_ [/(_ _ erefl) h _]]]]]; move: h; rewrite subrr ltxx.
Qed.

(** * C41: sigma points *)
Section Filter.
Variable R : rcfType.
Variable svd : forall n, 'M[R]_n -> option ('rV[R]_n * 'M[R]_n).
Variables U K : Type.
Variables n p : nat.
Notation L := (aug_len n p).

Lemma weighted_gram k m (w : 'rV[R]_k) (D : 'M[R]_(k, m)) :
  D^T *m (diag_mx w *m D) = \sum_i w 0 i *: ((row i D)^T *m row i D).
Proof.
apply/matrixP => a b; rewrite mul_diag_mx mxE summxE; apply: eq_bigr => i _.
by rewrite !mxE big_ord1 !mxE mulrCA.
Qed.

(** [S] has one row per sigma point: row 0, then the L points on one side, then
    their mirror images. *)
Theorem C41_sigma_points (f : ukf R U n p) : accepted (tune f) (2 * n + p) ->
  posdef (covariance (hidden f)) -> posdef (cov_w f) -> posdef (cov_v f) ->
  exists S, build_sigma_points svd f = Ok S /\
  let m := row_mx (mean (hidden f)) 0 in
  [/\ \sum_i mean_weights (tune f) L 0 i *: row i S = m,
      \sum_i cov_weights (tune f) L 0 i *: ((row i S - m)^T *m (row i S - m)) =
        block_mx (covariance (hidden f)) 0 0 (block_mx (cov_w f) 0 0 (cov_v f)),
      row 0 S = m &
      forall k : 'I_L, row (rshift 1 (lshift L k)) S - m = - (row (rshift 1 (rshift L k)) S - m)].
Proof.
rewrite -aug_lenE => ac pP pQ pV; have [CP [CQ [CV [eP eQ eV eS]]]] := build_sigma svd pP pQ pV.
set C := block_mx CP 0 0 _ in eS; set t := tune f in eS ac *; set S := sigma _ _ _ in eS.
exists S; split=> // m; have c0 : spread t L != 0 by rewrite gt_eqF // (accepted_spread ac).
have rI : rows id S = S by apply/row_matrixP => i; rewrite rowK.
have aff (r : 'rV[R]_L) : id r = r *m 1%:M + 0 by rewrite mulmx1 addr0.
have em : usubmx S + shift t S = m.
  by have := @mean_affine R n p t (mean (hidden f)) C L id 1%:M 0 aff; rewrite -/S rI mulmx1 addr0.
have er i : row i S - m = row i (S - repeat_row _ m).
  by apply/rowP => j; rewrite !mxE.
split.
- rewrite -mulmx_sum_row; have := averageE c0 S; rewrite em /average mean_weights_sum // oner_eq0 => -[<-].
  by rewrite invr1 scale1r.
- rewrite (eq_bigr _ (fun i _ => congr1 (fun v => _ *: (v^T *m v)) (er i))) -weighted_gram -em.
  have := cov_formula c0 S S; rewrite /unscented_covariance => ->.
  rewrite -[LHS]/(dcov t (delta S) (delta S)).
  have := @dcov_affine R n p t (mean (hidden f)) C ac L L id 1%:M 0 id 1%:M 0 aff aff; rewrite -/S rI trmx1 mul1mx mulmx1 => ->.
  have [qP _ _] := cholesky_spec (proj1 pP) eP.
  have [qQ _ _] := cholesky_spec (proj1 pQ) eQ; have [qV _ _] := cholesky_spec (proj1 pV) eV.
  rewrite /C !tr_block_mx !mulmx_block !trmx0 !mulmx0 !mul0mx !addr0 !add0r qP.
  by rewrite qQ qV.
- have <- : usubmx S = m by apply: sigma0.
  by move: (S) => T; apply/rowP => j; rewrite !mxE; congr (T _ _); apply/val_inj.
- by move=> k; rewrite sigma_plus sigma_minus -/m addrAC subrr add0r addrAC subrr add0r opprK.
Qed.
End Filter.
(** A filter in two dimensions with correlated states, that meets the hypotheses. *)
Lemma correlated_posdef (R : rcfType) : posdef (block_mx (2%:R%:M : 'M[R]_1) 1%:M 1%:M 1%:M : 'M[R]_(1 + 1)).
Proof.
pose B : 'M[R]_(1 + 1) := block_mx (1%:M : 'M_1) 1%:M 0 1%:M.
have -> : block_mx (2%:R%:M : 'M[R]_1) 1%:M 1%:M 1%:M = B *m 1%:M *m B^T.
  rewrite mulmx1 /B tr_block_mx !trmx1 trmx0 mulmx_block !mulmx1 !mulmx0 !add0r.
  by congr block_mx; rewrite -raddfD.
apply: posdef_cong_unit; last by apply: posdef_scalar; apply: ltr01.
by rewrite unitmxE /B det_ublock !det1 mulr1 unitr1.
Qed.
Example C41_witness (R : rcfType) :
  let f := Ukf (Gauss 0 (block_mx (2%:R%:M : 'M_1) 1%:M 1%:M 1%:M)) tt (Tuning 1 0 2%:R) 1%:M 1%:M : ukf R unit (1 + 1) 1 in
  [/\ accepted (tune f) (2 * 2 + 1), posdef (covariance (hidden f)), posdef (cov_w f) & posdef (cov_v f)].
Proof.
split.
- by split=> //=; rewrite ?addr0 ?ler0n ?invf_le1 ?ler1n ?ltr0n.
- exact: correlated_posdef.
- by apply: posdef_scalar; apply: ltr01.
by apply: posdef_scalar; apply: ltr01.
Qed.

Print Assumptions C39_mean_weights.
Print Assumptions C39_cov_weights.
Print Assumptions C39_other_weights.
Print Assumptions C39_automatic.
Print Assumptions C40_accepts_exactly.
Print Assumptions C40_rejects.
Print Assumptions C40_result.
Print Assumptions C41_sigma_points.
