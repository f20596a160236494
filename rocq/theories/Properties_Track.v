(** C108: where the truth lies relative to the estimates of the filter, on systems whose
    states and outputs depend on the state by affine maps (Spec_Track.v has the vocabulary). *)
From mathcomp Require Import all_ssreflect all_algebra.
From Verif Require Import RingTac.
From Verif Require Import Res Cholesky UKF Spec_UKF Spec_Filter Spec_Track Cholesky_proofs UKF_proofs UKF_linear Properties_UKF Properties_UKF_runs Properties_Repair Track.
Set Implicit Arguments.
Unset Strict Implicit.
Unset Printing Implicit Defensive.
Import Order.Theory GRing.Theory Num.Theory.
Local Open Scope ring_scope.

Section Track.
Variable R : rcfType.
Variables U K : Type.
Variables n p : nat.
Variable svd : forall n, 'M[R]_n -> option ('rV[R]_n * 'M[R]_n).
Variable md : model R U K n p.
Variables (F : U -> U -> 'M[R]_n) (c : U -> U -> 'rV[R]_n) (H : U -> 'M[R]_(n, p)) (d : U -> 'rV[R]_p).
Notation g := (fun u u' x => x *m F u u' + c u u').
Notation h := (fun u x => x *m H u + d u).

(** Whatever the disturbances and the errors of the measurements: the run succeeds, and the
    true state is no further away from the estimate, in standard deviations, than it was at
    the start plus what disturbances and errors contributed. *)
Theorem C108_bound (f : ukf R U n p) truth l :
  behaves_as md g h -> (0 < n)%N -> (0 < p)%N -> accepted (tune f) (2 * n + p) ->
  posdef (covariance (hidden f)) -> posdef (cov_w f) -> posdef (cov_v f) ->
  exists f' ys, run svd md f (recorded g h (controls f) truth l) = Ok (f', ys) /\
    posdef (covariance (hidden f')) /\
    distance (covariance (hidden f')) (final_state g (controls f) truth l - mean (hidden f')) <=
    distance (covariance (hidden f)) (truth - mean (hidden f)) + noise (cov_w f) (cov_v f) l.
Proof.
move=> beh n0 p0; elim: l f truth => [|[u [w v]] l IH] f truth ac pP pQ pV /=.
  by exists f, [::]; rewrite addr0.
have ac' : accepted (tune f) (aug_len n p) by rewrite aug_lenE.
set y := _ + v; have [-> pp] /= := linear_step svd beh n0 p0 u y ac' pP pQ pV.
set f1 := Ukf _ _ _ _ _; have [f' [ys [er [p' de]]]] := IH f1 (truth *m F (controls f) u + c (controls f) u + w) ac pp pQ pV.
change (controls f1) with u in er, de; change (cov_w f1) with (cov_w f) in de; change (cov_v f1) with (cov_v f) in de; rewrite er /=; exists f', (kf_output (H u) (d u) (cov_v f) (kf_predict (F (controls f) u) (c (controls f) u) (cov_w f) (hidden f)) :: ys).
split=> //; split=> //; apply: (le_trans de); rewrite addrA ler_add2r.
apply: le_trans (correct_dev (H := H u) (d := d u) pV (v := v) _ pp erefl) _; first exact: predict_posdef.
by rewrite addrA ler_add2r; apply: predict_dev.
Qed.

(** The same for the outputs the filter predicts before it sees them. *)
Theorem C108_outputs (f : ukf R U n p) truth l u w v :
  behaves_as md g h -> (0 < n)%N -> (0 < p)%N -> accepted (tune f) (2 * n + p) ->
  posdef (covariance (hidden f)) -> posdef (cov_w f) -> posdef (cov_v f) ->
  let y := last 0 [seq r.2 | r <- recorded g h (controls f) truth (rcons l (u, (w, v)))] in
  exists f' ys y_hat, run svd md f (recorded g h (controls f) truth (rcons l (u, (w, v)))) = Ok (f', rcons ys y_hat) /\
    posdef (covariance y_hat) /\
    distance (covariance y_hat) (y - mean y_hat) <=
    distance (covariance (hidden f)) (truth - mean (hidden f)) + noise (cov_w f) (cov_v f) (rcons l (u, (w, v))).
Proof.
move=> beh n0 p0; elim: l f truth => [|[u1 [w1 v1]] l IH] f truth ac pP pQ pV /=.
  have ac' : accepted (tune f) (aug_len n p) by rewrite aug_lenE.
  set y := _ + v; have [-> pp] /= := linear_step svd beh n0 p0 u y ac' pP pQ pV.
  set x := kf_predict _ _ _ _; exists (Ukf (kf_correct (H u) (d u) (cov_v f) x y) u (tune f) (cov_w f) (cov_v f)), [::], (kf_output (H u) (d u) (cov_v f) x).
  have px : posdef (covariance x) by exact: predict_posdef.
  split=> //; split; first exact: output_posdef.
  apply: le_trans (output_dev _ _ pV _ _ px) _.
  by rewrite addr0 addrA ler_add2r; apply: predict_dev.
have ac' : accepted (tune f) (aug_len n p) by rewrite aug_lenE.
set y := _ + v1; have [-> pp] /= := linear_step svd beh n0 p0 u1 y ac' pP pQ pV.
set f1 := Ukf _ _ _ _ _; have [f' [ys [yh [er [p' de]]]]] := IH f1 (truth *m F (controls f) u1 + c (controls f) u1 + w1) ac pp pQ pV.
change (controls f1) with u1 in er, de; change (cov_w f1) with (cov_w f) in de; change (cov_v f1) with (cov_v f) in de; rewrite er /=.
exists f', (kf_output (H u1) (d u1) (cov_v f) (kf_predict (F (controls f) u1) (c (controls f) u1) (cov_w f) (hidden f)) :: ys), yh.
split=> //; split=> //.
have -> : last y [seq r.2 | r <- recorded g h u1 (truth *m F (controls f) u1 + c (controls f) u1 + w1) (rcons l (u, (w, v)))] =
  last 0 [seq r.2 | r <- recorded g h u1 (truth *m F (controls f) u1 + c (controls f) u1 + w1) (rcons l (u, (w, v)))].
  by case: (l) => [|[? [? ?]] ?].
apply: (le_trans de); rewrite addrA ler_add2r.
apply: le_trans (correct_dev (H := H u1) (d := d u1) pV (v := v1) _ pp erefl) _; first exact: predict_posdef.
by rewrite addrA ler_add2r; apply: predict_dev.
Qed.

(** What the distance means: no combination of the coordinates, in particular no coordinate,
    is wrong by more than so many of its own standard deviations, and that is the best bound. *)
Theorem C108_directions m (P : 'M[R]_m) (e : 'rV[R]_m) : posdef P ->
  (forall a : 'rV[R]_m, (e *m a^T) 0 0 ^+ 2 <= distance P e * (a *m P *m a^T) 0 0) /\
  (forall i, e 0 i ^+ 2 <= distance P e * P i i) /\
  (forall b, 0 <= b -> (forall a : 'rV[R]_m, (e *m a^T) 0 0 ^+ 2 <= b * (a *m P *m a^T) 0 0) -> distance P e <= b).
Proof.
move=> pP; have re := reach_dev e pP; split; first exact: re.
split=> [i|b b0 rb]; last exact: dev_reach.
have := re (delta_mx 0 i); rewrite qf_delta; congr (_ ^+ 2 <= _).
by rewrite trmx_delta -colE mxE.
Qed.

(** Exact data and an exact start: the estimate is the truth, forever. *)
Theorem C108_exact (f : ukf R U n p) us :
  behaves_as md g h -> (0 < n)%N -> (0 < p)%N -> accepted (tune f) (2 * n + p) ->
  posdef (covariance (hidden f)) -> posdef (cov_w f) -> posdef (cov_v f) ->
  let l := [seq (u, (0 : 'rV[R]_n, 0 : 'rV[R]_p)) | u <- us] in
  exists f' ys, run svd md f (recorded g h (controls f) (mean (hidden f)) l) = Ok (f', ys) /\
    mean (hidden f') = final_state g (controls f) (mean (hidden f)) l.
Proof.
move=> beh n0 p0 ac pP pQ pV l.
have [f' [ys [er [p' de]]]] := C108_bound (mean (hidden f)) l beh n0 p0 ac pP pQ pV.
exists f', ys; split=> //.
have z m (P : 'M[R]_m) : distance P 0 = 0 by rewrite /distance !mul0mx mxE.
have nz : noise (cov_w f) (cov_v f) l = 0 by rewrite /l; elim: (us) => //= a s ->; rewrite !z !addr0.
move: de; rewrite subrr z nz addr0; set e := _ - _ => de.
apply/rowP => i; apply/eqP; rewrite eq_sym -subr_eq0 -sqrf_eq0.
have [_ [/(_ i) h _]] := C108_directions e p'.
have -> : final_state g (controls f) (mean (hidden f)) l 0 i - mean (hidden f') 0 i = e 0 i by rewrite /e !mxE.
rewrite eq_le sqr_ge0 andbT; apply: (le_trans h).
have pii : 0 <= covariance (hidden f') i i by rewrite -qf_delta; apply: (proj2 (posdef_psd p')).
by rewrite -(mul0r (covariance (hidden f') i i)); apply: ler_wpmul2r.
Qed.
End Track.

(** A case: two states, one output, the first coordinate wrong by one standard deviation. *)
Example C108_case (R : rcfType) svd (u v : R) (f := Ukf (Gauss 0 1%:M) 1 (Tuning 1 0 2%:R) 1%:M 1%:M : ukf R R 2 1) (truth : 'rV[R]_2 := delta_mx 0 0) :
  exists f' ys,
    run svd (rotation_model R) f (recorded (fun u u' x => x *m block_mx (1%:M : 'M_1) u%:M 0 1%:M + const_mx u') (fun _ x => x *m col_mx (1%:M : 'M_1) 1%:M + 0)
      1 truth [:: (u, (0, 0)); (v, (0, 0))]) = Ok (f', ys) /\
    distance (covariance (hidden f'))
      (final_state (fun u u' x => x *m block_mx (1%:M : 'M_1) u%:M 0 1%:M + const_mx u') 1 truth [:: (u, (0, 0 : 'rV[R]_1)); (v, (0, 0))] - mean (hidden f')) <= 1.
Proof.
have [beh [ac [p2 p1]]] := @C44_witness R.
have [f' [ys [er [_ de]]]] := C108_bound svd truth [:: (u, (0, 0)); (v, (0, 0))] beh isT isT ac p2 p2 p1 (f := f).
exists f', ys; split; first exact: er.
apply: (le_trans de).
have z m (P : 'M[R]_m) : distance P 0 = 0 by rewrite /distance !mul0mx mxE.
rewrite /= !z !addr0 subr0 /distance invmx1 mulmx1 /truth trmx_delta mul_delta_mx mxE.
exact: lexx.
Qed.

(** * A system that is not affine *)
Section Refuted.
Variable R : rcfType.
Add Field rcf : (rcf_field R).
Definition exact_start : ukf R unit 1 1 := Ukf (Gauss 0 1%:M) tt (Tuning 1 0 2%:R) 1%:M 1%:M.

Lemma sum3 (T : 'I_(1 + (1 + 1)) -> R) : \sum_k T k = T (lshift (1 + 1) 0) + T (rshift 1 (lshift 1 0)) + T (rshift 1 (rshift 1 0)).
Proof. by rewrite (@big_split_ord _ _ _ 1 (1 + 1)) /= big_ord1 (@big_split_ord _ _ _ 1 1) /= !big_ord1 addrA. Qed.

Let t : tuning R := Tuning 1 0 2%:R.
Notation gam := (gamma_param t (aug_len 1 1)).
Lemma gam2 : gam ^+ 2 = 3%:R.
Proof.
have ac : accepted t (2 * 1 + 1) := proj1 (@C42_default_tuning R 1 1 isT).
by rewrite gamma_spread ?aug_lenE // /spread /= !mul1r addr0.
Qed.

(** The differences of the sigma points from the central one. *)
Lemma diff_value (G : 'rV[R]_(aug_len 1 1) -> 'rV[R]_1) s k : G 0 = 0 -> diffs G t 0 1%:M s k 0 = G ((s * gam) *: delta_mx 0 k) 0 0.
Proof. by move=> G0; rewrite mxE row_mx0 G0 subr0 add0r trmx1 rowE mulmx1. Qed.

Lemma moments (G H : 'rV[R]_(aug_len 1 1) -> 'rV[R]_1) : G 0 = 0 -> H 0 = 0 ->
  let v (F : 'rV[R]_(aug_len 1 1) -> 'rV[R]_1) s k := F ((s * gam) *: delta_mx 0 k) 0 0 in
  let tot (F : R -> 'I_(1 + (1 + 1)) -> R) := F 1 (lshift (1 + 1) 0) + F 1 (rshift 1 (lshift 1 0)) + F 1 (rshift 1 (rshift 1 0)) +
    (F (-1) (lshift (1 + 1) 0) + F (-1) (rshift 1 (lshift 1 0)) + F (-1) (rshift 1 (rshift 1 0))) in
  let X := rows G (sigma t 0 1%:M) in let Y := rows H (sigma t 0 1%:M) in
  (usubmx X + shift t X) 0 0 = 6%:R^-1 * tot (v G) /\
  dcov t (delta X) (delta Y) 0 0 = 6%:R^-1 * tot (fun s k => v G s k * v H s k) + 6%:R^-1 * tot (v G) * (6%:R^-1 * tot (v H)).
Proof.
move=> G0 H0 v tot X Y.
have w6 : 2%:R^-1 / spread t (aug_len 1 1) = 6%:R^-1 :> R.
  by rewrite /spread /= !mul1r addr0 -invfM -natrM.
have ow (F : 'rV[R]_(aug_len 1 1) -> 'rV[R]_1) : F 0 = 0 -> ((const_mx 1 : 'rV[R]_(aug_len 1 1 + aug_len 1 1)) *m delta (rows F (sigma t 0 1%:M))) 0 0 = tot (v F).
  move=> F0; rewrite delta_rows mxE big_split_ord /= /tot -!sum3; congr (_ + _); apply: eq_bigr => k _;
    by rewrite mxE mul1r ?col_mxEu ?col_mxEd diff_value.
have ad (A B : 'M[R]_1) : (A + B) 0 0 = A 0 0 + B 0 0 by rewrite mxE.
have sc k (A : 'M[R]_1) : (k *: A) 0 0 = k * A 0 0 by rewrite mxE.
split.
  by rewrite ad /shift w6 sc ow // /X rows0 row_mx0 G0 [(0 : 'rV_1) 0 0]mxE add0r.
have pr (A : 'cV[R]_(aug_len 1 1 + aug_len 1 1)) B : (A^T *m B) 0 0 = \sum_k A k 0 * B k 0.
  by move=> *; rewrite mxE; apply: eq_bigr => k _; rewrite mxE.
rewrite /dcov w6 ad; congr (_ + _).
  rewrite sc pr /X /Y !delta_rows big_split_ord /= /tot -(sum3 (fun k => v G 1 k * v H 1 k)) -(sum3 (fun k => v G (-1) k * v H (-1) k)); congr (_ * (_ + _)); apply: eq_bigr => k _;
    by rewrite ?col_mxEu ?col_mxEd !diff_value.
rewrite sc /= expr1n (_ : 2%:R - 1 = 1 :> R); last by to_r R; ring.
by rewrite mul1r mxE big_ord1 mxE !sc !ow.
Qed.

(** One state, squared by every step, observed as it is.  Truth and estimate start at 0 and
    nothing is disturbed; after one step the truth is 0, the estimate 1/6. *)
Theorem C108_square_refuted svd : let truth := final_state (fun _ _ => @sq R 1) tt 0 [:: (tt, (0, 0 : 'rV[R]_1))] in
  exists f' y, run svd (square_model R) exact_start (recorded (fun _ _ => @sq R 1) (fun _ => id) tt 0 [:: (tt, (0, 0))]) = Ok (f', [:: y]) /\
    mean (hidden exact_start) = 0 /\ truth = 0 /\ mean (hidden f') = const_mx (6%:R^-1) /\ truth != mean (hidden f').
Proof.
have sq0 : sq (0 : 'rV[R]_1) = 0 by apply/rowP => j; rewrite !mxE expr0n.
have p1 : posdef (1%:M : 'M[R]_1) by apply: posdef_scalar; apply: ltr01.
have t0 : final_state (fun _ _ => @sq R 1) tt 0 [:: (tt, (0, 0 : 'rV[R]_1))] = 0 by rewrite /= sq0 addr0.
rewrite t0 /= sq0 !addr0.
have [CP [CQ [CV [eP eQ eV eS]]]] := @build_sigma R svd unit 1 1 exact_start p1 p1 p1.
have c1 : cholesky (1%:M : 'M[R]_1) = Some 1%:M by have := @cholesky_1 R 1 1 ltr01; rewrite mulr1.
have [e1] := etrans (esym c1) eP; have [e2] := etrans (esym c1) eQ; have [e3] := etrans (esym c1) eV; subst CP CQ CV => {eP eQ eV}.
have b1 : block_mx (1%:M : 'M[R]_1) 0 0 (block_mx (1%:M : 'M[R]_1) 0 0 (1%:M : 'M[R]_1)) = (1%:M : 'M[R]_(aug_len 1 1)).
  by rewrite -!scalar_mx_block.
have ac : accepted t (2 * 1 + 1) := proj1 (@C42_default_tuning R 1 1 isT).
have c0 : spread (tune exact_start) (aug_len 1 1) != 0 by rewrite gt_eqF // accepted_spread // aug_lenE.
have es := estimation_char (square_behaves R) isT isT (sigma t 0 1%:M) tt c0; cbv zeta in es.
pose G := @fx R 1 1 (@sq R 1); pose H := @fy R 1 1 (@sq R 1) id.
have fx0' : G 0 = 0 by rewrite /G /fx !linear0 sq0 addr0.
have fy0' : H 0 = 0 by rewrite /H /fy -/G fx0' !linear0 addr0.
have [mG cG] := moments fx0' fx0'; have [mH cH] := moments fy0' fy0'; have [_ cX] := moments fx0' fy0'; cbv zeta in mG, cG, mH, cH, cX.
have Gv r : G r 0 0 = r 0 (lshift 2 0) ^+ 2 + r 0 (rshift 1 (lshift 1 0)) by rewrite /G /fx !mxE.
have Hv r : H r 0 0 = r 0 (lshift 2 0) ^+ 2 + r 0 (rshift 1 (lshift 1 0)) + r 0 (rshift 1 (rshift 1 0)).
  by rewrite /H /fy [LHS]mxE -/G Gv !mxE.
have dv s (j k : 'I_3) : (s *: delta_mx 0 k : 'rV[R]_3) 0 j = s * (j == k :> nat)%:R by rewrite !mxE.
rewrite !(Gv, Hv, dv) /= in mG cG mH cH cX.
have g2 := gam2; move: g2 mG cG mH cH cX; set ga := gam; move: ga => ga g2.
have h6 : (6%:R : R) != 0 by rewrite pnatr_eq0.
have f1 : 6%:R^-1 * (2%:R * 3%:R) = 1 :> R by rewrite -natrM mulVf.
have f5 : 6%:R^-1 * (2%:R * 3%:R ^+ 2 + 2%:R * 3%:R) + 1 = 5%:R :> R.
  by rewrite -natrX -!natrM -natrD (_ : (2 * 3 ^ 2 + 2 * 3)%N = (6 * 4)%N) // natrM mulKf // -(natrD _ 4 1).
have f6 : 6%:R^-1 * (2%:R * 3%:R ^+ 2 + 2%:R * 3%:R + 2%:R * 3%:R) + 1 = 6%:R :> R.
  by rewrite -natrX -!natrM -!natrD (_ : (2 * 3 ^ 2 + 2 * 3 + 2 * 3)%N = (6 * 5)%N) // natrM mulKf // -(natrD _ 5 1).
set w := 6%:R^-1 in f1 f5 f6 *; move=> mG cG mH cH cX.
have {}mG : (usubmx (rows G (sigma t 0 1%:M)) + shift t (rows G (sigma t 0 1%:M))) 0 0 = 1.
  by rewrite mG; transitivity (w * (2%:R * ga ^+ 2)); [clear; to_r R; ring|rewrite g2 f1].
have {}mH : (usubmx (rows H (sigma t 0 1%:M)) + shift t (rows H (sigma t 0 1%:M))) 0 0 = 1.
  by rewrite mH; transitivity (w * (2%:R * ga ^+ 2)); [clear; to_r R; ring|rewrite g2 f1].
have {}cG : dcov t (delta (rows G (sigma t 0 1%:M))) (delta (rows G (sigma t 0 1%:M))) 0 0 = 5%:R.
  rewrite cG; transitivity (w * (2%:R * (ga ^+ 2) ^+ 2 + 2%:R * ga ^+ 2) + (w * (2%:R * ga ^+ 2)) ^+ 2); first by clear; to_r R; ring.
  by rewrite g2 f1 expr1n f5.
have {}cX : dcov t (delta (rows G (sigma t 0 1%:M))) (delta (rows H (sigma t 0 1%:M))) 0 0 = 5%:R.
  rewrite cX; transitivity (w * (2%:R * (ga ^+ 2) ^+ 2 + 2%:R * ga ^+ 2) + (w * (2%:R * ga ^+ 2)) ^+ 2); first by clear; to_r R; ring.
  by rewrite g2 f1 expr1n f5.
have {}cH : dcov t (delta (rows H (sigma t 0 1%:M))) (delta (rows H (sigma t 0 1%:M))) 0 0 = 6%:R.
  rewrite cH; transitivity (w * (2%:R * (ga ^+ 2) ^+ 2 + 2%:R * ga ^+ 2 + 2%:R * ga ^+ 2) + (w * (2%:R * ga ^+ 2)) ^+ 2); first by clear; to_r R; ring.
  by rewrite g2 f1 expr1n f6.
rewrite -/G -/H in es.
have m11 (A : 'M[R]_1) k : A 0 0 = k -> A = k%:M by move=> <-; exact: mx11_scalar.
rewrite (m11 _ _ mG) (m11 _ _ mH) (m11 _ _ cG) (m11 _ _ cH) (m11 _ _ cX) in es.
have pJ : posdef (block_mx (5%:R%:M : 'M[R]_1) 5%:R%:M (5%:R%:M)^T (6%:R%:M : 'M[R]_1)).
  split; first by rewrite tr_block_mx !tr_scalar_mx.
  move=> v; rewrite -(hsubmxK v); move: (lsubmx v) (rsubmx v) => av bv nz.
  have -> : qf (block_mx (5%:R%:M : 'M[R]_1) 5%:R%:M (5%:R%:M)^T (6%:R%:M : 'M[R]_1)) (row_mx av bv) = 5%:R * (av 0 0 + bv 0 0) ^+ 2 + bv 0 0 ^+ 2.
    rewrite qf_block /qf !mul_mx_scalar -!scalemxAl.
    have sc k (x y : 'rV[R]_1) : (k *: (x *m y^T) : 'M_1) 0 0 = k * (x 0 0 * y 0 0) by rewrite [LHS]mxE mxE big_ord1 mxE.
    rewrite !sc.
    by clear; move: (av 0 0) (bv 0 0) => x y; to_r R; ring.
  have n1 : 0 <= 5%:R * (av 0 0 + bv 0 0) ^+ 2 by apply: mulr_ge0; [exact: ler0n|exact: sqr_ge0].
  have n2 : 0 <= bv 0 0 ^+ 2 by exact: sqr_ge0.
  rewrite lt_def; apply/andP; split; last exact: addr_ge0.
  rewrite paddr_eq0 //.
  rewrite mulf_eq0 pnatr_eq0 /= !sqrf_eq0; apply: contra nz => /andP [/eqP e1 /eqP e2].
  rewrite e2 addr0 in e1; rewrite [av]mx11_scalar [bv]mx11_scalar e1 e2 !raddf0 row_mx0.
  by [].
have [ec _ _ _] := @correction_char R svd unit 1 1 isT (Gauss 1%:M 5%:R%:M) (Gauss 1%:M 6%:R%:M) 5%:R%:M 0 pJ.
rewrite /step eS b1 /= es /= ec /=; eexists; eexists; split; first by [].
split=> //; split=> //=.
have -> : 1%:M + (0 - 1%:M) *m (5%:R%:M *m invmx 6%:R%:M)^T = const_mx 6%:R^-1 :> 'M[R]_1.
  apply/matrixP => i j; rewrite !ord1 sub0r mulNmx mul1mx invmx_scalar -scalar_mxM tr_scalar_mx !mxE /= !mulr1n.
  by rewrite -{1}(divff h6) -mulrBl (_ : 6%:R - 5%:R = 1) ?mul1r // -natrB.
split=> //; apply/eqP => /(congr1 (fun A : 'M[R]_1 => A 0 0)) /eqP.
by rewrite !mxE eq_sym invr_eq0 (negbTE h6).
Qed.
End Refuted.
Print Assumptions C108_bound.
Print Assumptions C108_outputs.
Print Assumptions C108_directions.
Print Assumptions C108_exact.
Print Assumptions C108_square_refuted.
