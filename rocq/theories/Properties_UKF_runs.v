(** Properties of runs of the unscented Kalman filter (C42-C45, C47, C85). *)
From mathcomp Require Import all_ssreflect all_algebra.
From Verif Require Import Res RingTac Cholesky Spec_UKF Cholesky_proofs UKF Spec_Filter UKF_proofs UKF_linear Properties_UKF.
Set Implicit Arguments.
Unset Strict Implicit.
Unset Printing Implicit Defensive.
Import Order.Theory GRing.Theory Num.Theory.
Local Open Scope ring_scope.

(** * C42: positive definite for ever *)
(** The condition on the tuning: with L = 2 n + p it says that the central
    covariance weight is not too negative. *)
Definition not_too_negative (R : rcfType) (n p : nat) (t : tuning R) : Prop :=
  (alpha_param t ^+ 2 - beta_param t) * (2 * n)%:R <= alpha_param t ^+ 2 * ((2 * n + p)%:R + kappa_param t).
Lemma tameP (R : rcfType) n p (t : tuning R) : not_too_negative n p t <-> tame n p t.
Proof. by rewrite /not_too_negative /tame /spread aug_lenE mul2n -addnn expr2. Qed.

Section C42.
Variable R : rcfType.
Variables U K : Type.
Variables n p : nat.
Variables (md : model R U K n p) (g : U -> U -> 'rV[R]_n -> 'rV[R]_n) (h : U -> 'rV[R]_n -> 'rV[R]_p).
Hypothesis beh : behaves_as md g h.
Hypothesis n0 : (0 < n)%N.
Hypothesis p0 : (0 < p)%N.

(** Positive definite covariances, and a tuning that keeps them so. *)
Definition healthy (f : ukf R U n p) : Prop :=
  [/\ accepted (tune f) (2 * n + p), not_too_negative n p (tune f),
      posdef (covariance (hidden f)), posdef (cov_w f) & posdef (cov_v f)].

Lemma healthy_step svd f u y : healthy f ->
  exists f' yh, [/\ step svd md f nil u y = Ok (f', yh), step (fun _ _ => None) md f nil u y = Ok (f', yh),
    healthy f' & posdef (covariance yh)].
Proof.
move=> [ac /tameP tm pP pQ pV]; move: (ac); rewrite -aug_lenE => ac'.
have [CP [CQ [CV [[e1 e2 e3] [_ _ es [pp py _]]]]]] := step_char svd beh n0 p0 u y ac' tm pP pQ pV.
have [CP' [CQ' [CV' [[e1' e2' e3'] [_ _ es' _]]]]] := step_char (fun _ _ => None) beh n0 p0 u y ac' tm pP pQ pV.
move: e1' e2' e3' es'; rewrite e1 e2 e3 => -[<-] [<-] [<-] es'.
eexists; eexists; split; [exact: es|exact: es'| |exact: py].
by split=> //; apply/tameP.
Qed.

(** For every history the run succeeds, and all covariances are positive definite;
    it is the same run if the singular value decomposition used by the repair never
    works: the repair is never called. *)
Theorem C42_positive_definite_forever svd f hist : healthy f ->
  exists f' ys, [/\ run svd md f hist = Ok (f', ys),
    run (fun _ _ => None) md f hist = Ok (f', ys),
    healthy f', size ys = size hist & List.Forall (fun y => posdef (covariance y)) ys].
Proof.
elim: hist f => [|[u y] hist IH] f hf /=; first by exists f, [::]; split.
have [f1 [yh [-> -> hf1 py]]] := healthy_step svd u y hf.
have [f2 [ys [e1 e2 hf2 sz py2]]] := IH f1 hf1; rewrite /= e1 e2 /=.
by exists f2, (yh :: ys); split=> //=; [rewrite sz|constructor].
Qed.
End C42.

(** Tunings that satisfy the condition: the defaults, beta >= alpha^2, kappa >= -p,
    and all those with a non-negative central covariance weight. *)
Section Conditions.
Variable R : rcfType.
Variables n p : nat.
Add Field rcf : (rcf_field R).
Theorem C42_large_beta (t : tuning R) : accepted t (2 * n + p) -> alpha_param t ^+ 2 <= beta_param t -> not_too_negative n p t.
Proof.
move=> ac h; apply: (@le_trans _ _ 0).
  by rewrite mulr_le0_ge0 ?ler0n // subr_le0.
by case: ac => _ _ _ k; rewrite mulr_ge0 ?sqr_ge0 // ltW.
Qed.
Theorem C42_kappa (t : tuning R) : accepted t (2 * n + p) -> - p%:R <= kappa_param t -> not_too_negative n p t.
Proof.
move=> [_ _ b _] h; apply: (@le_trans _ _ (alpha_param t ^+ 2 * (2 * n)%:R)).
  by rewrite ler_wpmul2r ?ler0n // ler_subl_addr ler_addl.
by rewrite ler_wpmul2l ?sqr_ge0 // natrD -addrA ler_addl -ler_subl_addl sub0r.
Qed.
Theorem C42_central_weight (t : tuning R) : accepted t (2 * n + p) ->
  0 <= cov_weights t (2 * n + p) 0 0 -> not_too_negative n p t.
Proof.
move=> ac; have [_ ->] := C39_cov_weights ac; have [_ ->] := C39_mean_weights ac.
have := accepted_spread ac; rewrite /not_too_negative /spread -expr2.
have pos : (2 * n)%:R <= (2 * n + p)%:R :> R by rewrite ler_nat leq_addr.
have n0 : 0 <= (2 * n)%:R :> R by exact: ler0n.
move: ((2 * n)%:R) ((2 * n + p)%:R) (alpha_param t ^+ 2) (beta_param t) (kappa_param t) pos n0 => N M a b k.
move: (a * (M + k)) => c NM N0 c0 w.
have h : a - b <= 2%:R - M / c.
  rewrite -subr_ge0; apply: le_trans w _; rewrite le_eqVlt; apply/orP; left; apply/eqP.
  by move: (M / c) => z; to_r R; ring.
apply: le_trans (ler_wpmul2r N0 h) _.
rewrite -subr_ge0 -(pmulr_lge0 _ c0).
have -> : (c - (2%:R - M / c) * N) * c = (c - N) ^+ 2 + N * (M - N).
  by move/gt_eqF/eqP: c0 => c0; to_r R; field.
by rewrite addr_ge0 ?sqr_ge0 // mulr_ge0 // subr_ge0.
Qed.
Theorem C42_default_tuning : (0 < n)%N -> let t := Tuning 1 0 2%:R : tuning R in
  accepted t (2 * n + p) /\ not_too_negative n p t.
Proof.
move=> n0 t; have ac : accepted t (2 * n + p).
  split=> //=; rewrite ?addr0 ?ler0n ?invf_le1 ?ler1n ?ltr0n //.
  by rewrite addn_gt0 muln_gt0 n0.
by split=> //; apply: C42_large_beta => //=; rewrite expr1n ler1n.
Qed.
End Conditions.

(** A model with one state, squared by each update, and observed as it is. *)
Section Square.
Variable R : rcfType.
Add Field rcf : (rcf_field R).
Definition sq n (x : 'rV[R]_n) : 'rV[R]_n := map_mx (fun a => a ^+ 2) x.
Definition square_model : model R unit unit 1 1 :=
  Model (fun _ _ _ k X => Ok (map_mx (fun a => a ^+ 2) X)) (fun _ _ k X => Ok X).
Lemma square_behaves : behaves_as square_model (fun _ _ => @sq 1) (fun _ => id).
Proof.
split=> [u u'|u] k X /=; congr Ok; apply/row_matrixP => i; rewrite rowK //.
by apply/rowP => j; rewrite !mxE.
Qed.
Example C42_witness : healthy (Ukf (Gauss 0 1%:M) tt (Tuning 1 0 2%:R) 1%:M 1%:M : ukf R unit 1 1).
Proof.
have [ac nn] := @C42_default_tuning R 1 1 isT.
by split=> //; apply: posdef_scalar; apply: ltr01.
Qed.

(** * C43: a tuning that the constructor accepts and that is not safe *)
Definition bad_tuning : tuning R := Tuning 1 (- (5%:R / 2%:R)) 0.
Definition bad_start : gaussian R 1 := Gauss 0 1%:M.
Lemma half_gt0 : 0 < 2%:R^-1 :> R. Proof. by rewrite invr_gt0 ltr0n. Qed.
Lemma bad_len : (aug_len 1 1)%:R - 5%:R / 2%:R = 2%:R^-1 :> R.
Proof.
have h2 : (2%:R : R) <> 0 by apply/eqP; rewrite pnatr_eq0.
have -> : (aug_len 1 1)%:R = 3%:R :> R by [].
by to_r R; field.
Qed.
Lemma bad_spread : spread bad_tuning (aug_len 1 1) = 2%:R^-1.
Proof. by rewrite /spread /= !mul1r bad_len. Qed.
Lemma bad_accepted : accepted bad_tuning (2 * 1 + 1).
Proof.
split=> //=; first by rewrite invf_le1 ?ler1n ?ltr0n.
by rewrite -aug_lenE bad_len half_gt0.
Qed.
Theorem C43_refuted svd : exists f : ukf R unit 1 1,
  [/\ @ukf_init R unit 1 1 1 bad_start tt None None (alpha_param bad_tuning) (Some (kappa_param bad_tuning)) (beta_param bad_tuning) = Ok f,
      posdef (covariance (hidden f)), posdef (cov_w f), posdef (cov_v f) &
      exists S x_minus y_hat cov_xy, [/\ build_sigma_points svd f = Ok S,
        estimation_update square_model f nil S tt = Ok (x_minus, y_hat, cov_xy) &
        covariance x_minus 0 0 < 0 /\ ~ psd (covariance x_minus)]].
Proof.
have [f ef] : exists f : ukf R unit 1 1, @ukf_init R unit 1 1 1 bad_start tt None None (alpha_param bad_tuning) (Some (kappa_param bad_tuning)) (beta_param bad_tuning) = Ok f.
  apply/(@C40_accepts_exactly R unit 1 1 1 bad_start tt None None); split=> //.
  have [a1 a2 b k] := bad_accepted; do 3 split=> //.
  by split=> // k' [<-].
exists f; have [[e1 _ e3 e4] [a1 b1 /(_ _ erefl) k1]] := C40_result ef.
have q0 : 0 < 10%:R ^- 8 :> R by rewrite invr_gt0 exprn_gt0 // ltr0n.
have pP : posdef (covariance (hidden f)) by rewrite e1; apply: posdef_scalar; apply: ltr01.
have pQ : posdef (cov_w f) by rewrite /= in e3; rewrite e3 scalemx1; apply: posdef_scalar.
have pV : posdef (cov_v f) by rewrite /= in e4; rewrite e4 scalemx1; apply: posdef_scalar.
have et : tune f = bad_tuning by case: (tune f) a1 b1 k1 => /= ? ? ? -> -> ->.
have ac : accepted bad_tuning (aug_len 1 1) by rewrite aug_lenE; exact: bad_accepted.
split=> //; have [CP [CQ [CV [eP eQ eV eS]]]] := build_sigma svd pP pQ pV.
have c0 : spread (tune f) (aug_len 1 1) != 0 by rewrite et gt_eqF // (accepted_spread ac).
have es := estimation_char square_behaves isT isT (sigma (tune f) (mean (hidden f)) (block_mx CP 0 0 (block_mx CQ 0 0 CV))) tt c0.
do 4 eexists; split; [exact: eS|exact: es|].
rewrite et e1 /=; set D := delta _.
have qfE (A : 'M[R]_1) : A 0 0 = qf A (const_mx 1).
  rewrite /qf {2}[A]mx11_scalar mul_mx_scalar -scalemxAl mxE.
  by rewrite mxE big_ord1 !mxE !mulr1.
have neg : dcov bad_tuning D D 0 0 < 0.
  rewrite qfE /D qf_diffs; cbv zeta; rewrite bad_spread.
  set gam := gamma_param _ _.
  have gg : gam ^+ 2 = 2%:R^-1 by rewrite /gam gamma_spread // bad_spread.
  set C := block_mx CP _ _ _.
  pose e s k := ((@fx R 1 1 (@sq 1) (row_mx 0 0 + (s * gam) *: row k C^T) - @fx R 1 1 (@sq 1) (row_mx 0 0)) *m (const_mx 1 : 'rV[R]_1)^T) 0 0.
  have f0 : @fx R 1 1 (@sq 1) (row_mx 0 0 : 'rV[R]_(1 + (1 + 1))) = 0.
    by rewrite fx0; apply/rowP => j; rewrite !mxE expr0n.
  have v1 (r : 'rV[R]_1) : (r *m (const_mx 1 : 'rV[R]_1)^T) 0 0 = r 0 0 by rewrite mxE big_ord1 !mxE mulr1.
  have CP1 : CP = 1%:M.
    have := @cholesky_1 R 1 1 ltr01; rewrite mulr1 => c1.
    by move: eP; rewrite e1 -[covariance _]/(1%:M) c1 => -[].
  have eP' s : e s (lshift (1 + 1) 0) = s ^+ 2 / 2%:R.
    rewrite /e f0 subr0 v1 /C (@row_lshift R 1 (1 + 1) CP) CP1.
    rewrite scale_row_mx add_row_mx scaler0 addr0 add0r /fx row_mxKl row_mxKr linear0 addr0.
    by rewrite !mxE /= mulr1 exprMn gg.
  have [qQ _ _] := cholesky_spec (proj1 pQ) eQ.
  have eQ' s : e s (rshift 1 (lshift 1 0)) = s * gam * CQ 0 0.
    rewrite /e f0 subr0 v1 /C (@row_rshift R 1 (1 + 1) CP) (@row_lshift R 1 1 CQ).
    rewrite !scale_row_mx add_row_mx !scaler0 add0r /fx row_mxKl row_mxKr add0r row_mxKl.
    by rewrite !mxE expr0n add0r.
  have eV' s : e s (rshift 1 (rshift 1 0)) = 0.
    rewrite /e f0 subr0 v1 /C (@row_rshift R 1 (1 + 1) CP) (@row_rshift R 1 1 CQ).
    rewrite !scale_row_mx add_row_mx !scaler0 add0r /fx row_mxKl row_mxKr add0r row_mxKl.
    by rewrite !mxE expr0n add0r.
  have S (T : 'I_(1 + (1 + 1)) -> R) : \sum_k T k = T (lshift (1 + 1) 0) + (T (rshift 1 (lshift 1 0)) + T (rshift 1 (rshift 1 0))).
    by rewrite (@big_split_ord _ _ _ 1 (1 + 1)) /= big_ord1 (@big_split_ord _ _ _ 1 1) /= !big_ord1.
  rewrite -[X in _ * X + _]/(\sum_k (e 1 k ^+ 2 + e (-1) k ^+ 2)) -[X in _ * (_ * X)^+ 2]/(\sum_k (e 1 k + e (-1) k)).
  rewrite !S !eP' !eQ' !eV' /=.
  have cq : CQ 0 0 ^+ 2 = 10%:R ^- 8.
    have := congr1 (fun A : 'M[R]_1 => A 0 0) qQ; rewrite e3 /= mxE big_ord1 mxE -expr2 => ->.
    by rewrite !mxE mulr1.
  have h2 : (2%:R : R) <> 0 by apply/eqP; rewrite pnatr_eq0.
  rewrite divff ?gt_eqF ?half_gt0 //.
  have -> : 1 * ((1 ^+ 2 / 2%:R) ^+ 2 + ((-1) ^+ 2 / 2%:R) ^+ 2 +
   ((1 * gam * CQ 0 0) ^+ 2 + (-1 * gam * CQ 0 0) ^+ 2 + (0 ^+ 2 + 0 ^+ 2))) +
    (0 - 1 ^+ 2) * (1 * (1 ^+ 2 / 2%:R + (-1) ^+ 2 / 2%:R +
    (1 * gam * CQ 0 0 + -1 * gam * CQ 0 0 + (0 + 0)))) ^+ 2 = 2%:R * (gam ^+ 2 * CQ 0 0 ^+ 2) - 2%:R^-1 :> R.
    by move: (gam) (CQ 0 0) => a b; to_r R; field.
  rewrite gg cq mulrA divff ?mul1r ?subr_lt0 ?pnatr_eq0 //.
  rewrite ltf_pinv ?posrE ?exprn_gt0 ?ltr0n // -natrX ltr_nat //.
split=> // ps; have := ps.2 (const_mx 1); rewrite -qfE leNgt neg //.
Qed.
End Square.

(** * C44: on linear systems the filter is the Kalman filter *)
Section Linear.
Variable R : rcfType.
Variables U K : Type.
Variables n p : nat.
Variable md : model R U K n p.
Variables (F : U -> U -> 'M[R]_n) (c : U -> U -> 'rV[R]_n) (H : U -> 'M[R]_(n, p)) (d : U -> 'rV[R]_p).

(** For every tuning that the constructor accepts, and every history: the run
    succeeds, the estimate and the predicted outputs are those of the textbook
    filter, and the last controls are remembered. *)
Theorem C44_kalman_filter svd (f : ukf R U n p) hist :
  behaves_as md (fun u u' x => x *m F u u' + c u u') (fun u x => x *m H u + d u) ->
  (0 < n)%N -> (0 < p)%N -> accepted (tune f) (2 * n + p) ->
  posdef (covariance (hidden f)) -> posdef (cov_w f) -> posdef (cov_v f) ->
  let r := kf_run F c H d (cov_w f) (cov_v f) (controls f) (hidden f) hist in
  run svd md f hist =
    Ok (Ukf r.1 (last (controls f) [seq uy.1 | uy <- hist]) (tune f) (cov_w f) (cov_v f), r.2) /\
  posdef (covariance r.1).
Proof.
move=> beh n0 p0 ac; elim: hist f ac => [|[u y] hist IH] f ac pP pQ pV /=; first by case: f ac pP pQ pV.
have ac' : accepted (tune f) (aug_len n p) by rewrite aug_lenE.
have [-> pp] /= := linear_step svd beh n0 p0 u y ac' pP pQ pV.
by set f' := Ukf _ _ _ _ _; have [-> p'] /= := IH f' ac pp pQ pV.
Qed.

(** In particular the results do not depend on the tuning. *)
Theorem C44_tuning_irrelevant svd x u0 Q V t1 t2 hist f1 ys1 f2 ys2 :
  behaves_as md (fun u u' x => x *m F u u' + c u u') (fun u x => x *m H u + d u) ->
  (0 < n)%N -> (0 < p)%N -> accepted t1 (2 * n + p) -> accepted t2 (2 * n + p) ->
  posdef (covariance x) -> posdef Q -> posdef V ->
  run svd md (Ukf x u0 t1 Q V) hist = Ok (f1, ys1) -> run svd md (Ukf x u0 t2 Q V) hist = Ok (f2, ys2) ->
  hidden f1 = hidden f2 /\ ys1 = ys2.
Proof.
move=> beh n0 p0 a1 a2 pP pQ pV.
have [-> _] /= := @C44_kalman_filter svd (Ukf x u0 t1 Q V) hist beh n0 p0 a1 pP pQ pV.
have [-> _] /= := @C44_kalman_filter svd (Ukf x u0 t2 Q V) hist beh n0 p0 a2 pP pQ pV.
by case=> <- <- [<- <-].
Qed.
End Linear.

(** A linear model in two dimensions with one output, that meets the hypotheses. *)
Definition rotation_model (R : rcfType) : model R R unit 2 1 :=
  Model (fun _ u u' k X => Ok (X *m block_mx (1%:M : 'M_1) u%:M 0 1%:M + repeat_row k (const_mx u')))
        (fun _ u k X => Ok (X *m col_mx (1%:M : 'M_1) 1%:M)).
Example C44_witness (R : rcfType) :
  behaves_as (rotation_model R) (fun u u' x => x *m block_mx (1%:M : 'M_1) u%:M 0 1%:M + const_mx u')
    (fun u x => x *m col_mx (1%:M : 'M_1) 1%:M + 0) /\
  accepted (Tuning 1 0 2%:R : tuning R) (2 * 2 + 1) /\ posdef (1%:M : 'M[R]_2) /\ posdef (1%:M : 'M[R]_1).
Proof.
split; last first.
  split; first exact: (proj1 (@C42_default_tuning R 2 1 isT)).
  by split; apply: posdef_scalar; apply: ltr01.
split=> [u u'|u] k X /=; congr Ok; apply/row_matrixP => i; rewrite rowK.
  by rewrite row_rep.
by rewrite row_mul addr0.
Qed.

(** * C45: corrections *)
Section C45.
Variable R : rcfType.
Variables U K : Type.
Variables n p : nat.

(** Whatever the predictions: if a correction succeeds for one measurement it
    succeeds for all, with the same covariance, the mean is the predicted mean plus a
    linear function of the innovation; so a measurement that equals the predicted
    output leaves the mean as it was. *)
Theorem C45_affine svd (x_minus : gaussian R n) (y_hat : gaussian R p) Pxy y0 x0 :
  correction_update svd (nil : list K) x_minus y_hat Pxy y0 = Ok x0 ->
  exists G : 'M[R]_(p, n), forall y,
    correction_update svd (nil : list K) x_minus y_hat Pxy y =
      Ok (Gauss (mean x_minus + (y - mean y_hat) *m G) (covariance x0)).
Proof.
rewrite /correction_update /=; case: (calculate_gain_matrix _ _) => [l|] //=.
case: (ensure_psd _ _) => [S|] //= e; exists l^T => y.
by move: e; rewrite /mk_gaussian; case: (n) x_minus Pxy l S x0 => [//|m] ? ? ? ? ? [<-].
Qed.
Theorem C45_no_surprise svd (x_minus : gaussian R n) (y_hat : gaussian R p) Pxy x0 :
  correction_update svd (nil : list K) x_minus y_hat Pxy (mean y_hat) = Ok x0 -> mean x0 = mean x_minus.
Proof. by move=> e; have [G /(_ (mean y_hat))] := C45_affine e; rewrite e subrr mul0mx addr0 => -[->]. Qed.

(** The covariance is the predicted one minus a positive semi-definite matrix,
    provided that the repair of covariances is not needed: the correction succeeds
    with a singular value decomposition that never works. *)
Theorem C45_less_uncertain svd (x_minus : gaussian R n) (y_hat : gaussian R p) Pxy y x :
  posdef (covariance y_hat) ->
  correction_update (fun _ _ => None) (nil : list K) x_minus y_hat Pxy y = Ok x ->
  correction_update svd (nil : list K) x_minus y_hat Pxy y = Ok x /\
  psd (covariance x_minus - covariance x).
Proof.
move=> py; rewrite /correction_update /calculate_gain_matrix /np_inv posdef_unit //=.
rewrite /ensure_psd /enforce_psd; case: ifP => // _; case: (cholesky _) => [C|] //= e.
split=> //; move: e; rewrite /mk_gaussian.
case: (n) x_minus Pxy x C => [//|m] ? Pxy ? _ [<-] /=; rewrite opprB addrC subrK mulmxA.
by apply: psd_cong; apply: posdef_psd.
Qed.

(** Along every run of a healthy filter: each step is a prediction, followed by a
    correction that takes away a positive semi-definite matrix. *)
Variables (md : model R U K n p) (g : U -> U -> 'rV[R]_n -> 'rV[R]_n) (h : U -> 'rV[R]_n -> 'rV[R]_p).
Theorem C45_step svd f u : behaves_as md g h -> (0 < n)%N -> (0 < p)%N -> healthy f ->
  exists S x_minus y_hat Pxy (G : 'M[R]_(p, n)) P,
  [/\ build_sigma_points svd f = Ok S, estimation_update md f nil S u = Ok (x_minus, y_hat, Pxy),
      psd (covariance x_minus - P) &
      forall y, step svd md f nil u y =
        Ok (Ukf (Gauss (mean x_minus + (y - mean y_hat) *m G) P) u (tune f) (cov_w f) (cov_v f), y_hat)].
Proof.
move=> beh n0 p0 [ac /tameP tm pP pQ pV]; rewrite -aug_lenE in ac.
have [CP [CQ [CV [_ [e1 e2 e3 [_ py _]]]]]] := step_char svd beh n0 p0 u 0 ac tm pP pQ pV.
move: e3; rewrite /step e1 /=; rewrite e2 /=.
set xm := Gauss _ _; set ym := Gauss _ _; set Pxy := dcov _ _ _.
case e : (correction_update _ _ _ _ _ _) => [x|] //= -[e4].
have [G hG] := C45_affine e.
do 3 eexists; exists Pxy, G, (covariance x); split; [reflexivity|exact: e2| |].
  rewrite e4 /= opprB addrC subrK.
  set Pyy := dcov _ _ _; rewrite -/Pyy in py.
  have -> : Pxy *m invmx Pyy *m Pxy^T = (Pxy *m invmx Pyy) *m Pyy *m (Pxy *m invmx Pyy)^T.
    by rewrite trmx_mul trmx_inv (proj1 py) mulmxKV ?posdef_unit // mulmxA.
  by apply: psd_cong; apply: posdef_psd.
by move=> y; rewrite hG.
Qed.
End C45.
Example C45_witness (R : rcfType) svd : exists x,
  correction_update svd (nil : list unit) (Gauss 0 2%:R%:M : gaussian R 1) (Gauss 0 1%:M : gaussian R 1) 1%:M 1%:M = Ok x /\
  mean x = 1%:M /\ covariance x = 1%:M.
Proof.
have p1 : posdef (1%:M : 'M[R]_1) by apply: posdef_scalar; apply: ltr01.
eexists; rewrite /correction_update /calculate_gain_matrix /np_inv unitmx1 /= invmx1 !mul1mx trmx1.
have -> : 2%:R%:M - 1%:M = 1%:M :> 'M[R]_1 by rewrite -raddfB /= -{2}[1]/(1%:R) -natrB.
rewrite ensure_psd_posdef //=; split; first reflexivity.
by rewrite /= subr0 mulmx1 add0r.
Qed.

(** * C47: the choice of units *)
Section C47.
Variable R : rcfType.
Variables (U1 U2 K1 K2 : Type) (n p : nat).
Variables (dn a : 'rV[R]_n) (dp b : 'rV[R]_p) (phi : U1 -> U2).
Variables (md1 : model R U1 K1 n p) (md2 : model R U2 K2 n p).
Variables (g1 : U1 -> U1 -> 'rV[R]_n -> 'rV[R]_n) (h1 : U1 -> 'rV[R]_n -> 'rV[R]_p).
Variables (g2 : U2 -> U2 -> 'rV[R]_n -> 'rV[R]_n) (h2 : U2 -> 'rV[R]_n -> 'rV[R]_p).

(** Two models of the same system, the second in the coordinates x dn + a for
    states, y dp + b for outputs and phi u for controls, where no factor is zero (a
    negative factor flips an axis): if one runs the filter in both, the second run is the first one seen in those coordinates. *)
Theorem C47_run svd f hist :
  behaves_as md1 g1 h1 -> behaves_as md2 g2 h2 ->
  (forall u u' x, g2 (phi u) (phi u') (x *m diag_mx dn + a) = g1 u u' x *m diag_mx dn + a) ->
  (forall u x, h2 (phi u) (x *m diag_mx dn + a) = h1 u x *m diag_mx dp + b) ->
  (forall i, dn 0 i != 0) -> (forall i, dp 0 i != 0) -> (0 < n)%N -> (0 < p)%N -> healthy f ->
  exists f' ys, run svd md1 f hist = Ok (f', ys) /\
    run svd md2 (rescale dn a dp b phi f) [seq (phi uy.1, uy.2 *m diag_mx dp + b) | uy <- hist] =
      Ok (rescale dn a dp b phi f', [seq rescale_gaussian dp b y | y <- ys]).
Proof.
move=> beh1 beh2 gg hh dn0 dp0 n0 p0; elim: hist f => [|[u y] hist IH] f hf /=; first by exists f, [::].
have [f1 [yh [e1 _ hf1 _]]] := healthy_step beh1 n0 p0 svd u y hf.
case: hf => ac /tameP tm pP pQ pV; rewrite -aug_lenE in ac.
have [f1' [yh' [e1' e2]]] := step_scaled svd dn0 dp0 beh1 beh2 gg hh n0 p0 u y ac tm pP pQ pV.
move: e1'; rewrite e1 => -[e e']; subst f1' yh'; rewrite e2 /=.
by have [f2 [ys [-> ->]]] := IH f1 hf1; exists f2, (yh :: ys).
Qed.
End C47.
(** Halving, flipping and shifting the state of the squaring model. *)
Section Half.
Variable R : rcfType.
Add Field rcf' : (rcf_field R).
Definition square_model' : model R unit unit 1 1 :=
  Model (fun _ _ _ k X => Ok (map_mx (fun a => 1 - 2%:R * (a - 1) ^+ 2) X))
        (fun _ _ k X => Ok (map_mx (fun a => (1 - a) * 2%:R) X)).
Example C47_witness : let half := const_mx (- 2%:R^-1) : 'rV[R]_1 in
  let g2 (u u' : unit) (x : 'rV[R]_1) : 'rV[R]_1 := map_mx (fun a => 1 - 2%:R * (a - 1) ^+ 2) x in
  let h2 (u : unit) (x : 'rV[R]_1) : 'rV[R]_1 := map_mx (fun a => (1 - a) * 2%:R) x in
  behaves_as square_model' g2 h2 /\ (forall i, half 0 i != 0) /\
  (forall u u' x, g2 u u' (x *m diag_mx half + const_mx 1) = sq x *m diag_mx half + const_mx 1) /\
  (forall u x, h2 u (x *m diag_mx half + const_mx 1) = x *m diag_mx (const_mx 1) + 0).
Proof.
have h2 : (2%:R : R) <> 0 by apply/eqP; rewrite pnatr_eq0.
split; first by split=> [u u'|u] k X /=; congr Ok; apply/row_matrixP => i; rewrite rowK; apply/rowP => j; rewrite !mxE.
split; first by move=> i; rewrite mxE oppr_eq0 invr_eq0; apply/eqP.
split=> [u u' x|u x]; apply/rowP => j; rewrite !mxE !big_ord1 !mxE (ord1 j) ?mulr1n; move: (x 0 0) => z.
  by to_r R; field.
by to_r R; field.
Qed.
End Half.

(** * C85: keyword arguments *)
Section C85.
Variable R : rcfType.
Variables U K : Type.
Variables n p : nat.
(** A step with a keyword argument never succeeds; if the model accepts the
    arguments it raises a type error. *)
Theorem C85_keyword_arguments svd (md : model R U K n p) f k kw u y : raises (step svd md f (k :: kw) u y).
Proof.
rewrite /step; case: (build_sigma_points _ _) => [S|e] /=; last by exists e.
case: (estimation_update _ _ _ _ _) => [[[x yh] c]|e] /=; last by exists e.
by exists TypeError.
Qed.
Theorem C85_type_error svd (md : model R U K n p) f k kw u y S r :
  build_sigma_points svd f = Ok S -> estimation_update md f (k :: kw) S u = Ok r ->
  step svd md f (k :: kw) u y = Err TypeError.
Proof. by move=> e1 e2; rewrite /step e1 /= e2; case: r e2 => [[x yh] c]. Qed.
End C85.
Example C85_witness (R : rcfType) svd :
  let f := Ukf (Gauss 0 1%:M) tt (Tuning 1 0 2%:R) 1%:M 1%:M : ukf R unit 1 1 in
  step svd (@square_model R) f [:: tt] tt 0 = Err TypeError /\ is_ok (step svd (@square_model R) f [::] tt 0).
Proof.
move=> f; have hf := @C42_witness R.
have [f' [yh [e _ _ _]]] := healthy_step (@square_behaves R) isT isT svd tt 0 hf.
split; last by exists (f', yh).
have [S [xm [ym [Pxy [_ [_ [e1 e2 _ _]]]]]]] := C45_step svd tt (@square_behaves R) isT isT hf.
by apply: C85_type_error e1 _; exact: e2.
Qed.

Print Assumptions C42_positive_definite_forever.
Print Assumptions C42_central_weight.
Print Assumptions C42_default_tuning.
Print Assumptions C43_refuted.
Print Assumptions C44_kalman_filter.
Print Assumptions C45_affine.
Print Assumptions C45_less_uncertain.
Print Assumptions C45_step.
Print Assumptions C47_run.
Print Assumptions C85_keyword_arguments.
