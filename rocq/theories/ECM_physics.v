(** Properties of one cell (Spec_ECM.v) over arbitrary histories. *)
From Coq Require Import Reals List Arith Lia Lra Bool.
Import ListNotations.
From Verif Require Import Res NdR Interp ECM Spec_ECM.
Open Scope R_scope.

(** * Coulomb counting *)

Lemma run_soc mode c : forall us p s k st, nth_error (run mode c p s us) k = Some st ->
  xsoc st = xsoc s + total (fun p u => efficiency c (ui p) * step_charge mode p u) p (firstn (S k) us) / Qs c /\
  xq st = option_map (fun q => q + total (step_charge mode) p (firstn (S k) us)) (xq s).
Proof.
  induction us as [|u us IH]; intros p s k st H; [now destruct k|].
  cbn [run] in H. set (s1 := next mode c p u s) in *.
  assert (E1 : xsoc s1 = xsoc s + efficiency c (ui p) * step_charge mode p u / Qs c /\
    xq s1 = option_map (fun q => q + step_charge mode p u) (xq s)) by (destruct mode; split; reflexivity).
  destruct E1 as [E1 E2]. destruct k as [|k]; cbn in H.
  - injection H as <-. rewrite E1, E2. cbn. split; [unfold Rdiv; ring|].
    destruct (xq s); cbn; [f_equal; ring|reflexivity].
  - destruct (IH u s1 k st H) as [F1 F2]. rewrite F1, F2, E1, E2.
    cbn [firstn total]. split; [unfold Rdiv; ring|].
    destruct (xq s); cbn [option_map]; [f_equal|reflexivity]. destruct us; cbn; ring.
Qed.

(** * RC currents in constant mode *)
Lemma exp_neg_01 x : 0 <= x -> 0 < exp (- x) <= 1.
Proof.
  intros H. split; [apply exp_pos|]. destruct H as [H|<-].
  - rewrite <- exp_0. left. apply exp_increasing. lra.
  - rewrite Ropp_0, exp_0. lra.
Qed.

Lemma convex_bounds e x y lo hi : 0 <= e <= 1 -> lo <= x <= hi -> lo <= y <= hi -> lo <= e * x + (1 - e) * y <= hi.
Proof. intros. nra. Qed.

Lemma rc_relax_bounds tau d I i lo hi : 0 < tau -> 0 <= d -> lo <= i <= hi -> lo <= I <= hi ->
  lo <= rc_relax tau d I i <= hi.
Proof.
  intros Ht Hd Hi HI. unfold rc_relax. assert (0 <= d / tau).
  { apply Rmult_le_pos; [auto|]. left. now apply Rinv_0_lt_compat. }
  replace (- d / tau) with (- (d / tau)) by (unfold Rdiv; ring). destruct (exp_neg_01 _ H).
  apply convex_bounds; lra.
Qed.
Lemma rc_relax_split tau d1 d2 I i : rc_relax tau (d1 + d2) I i = rc_relax tau d2 I (rc_relax tau d1 I i).
Proof.
  unfold rc_relax. replace (- (d1 + d2) / tau) with (- d1 / tau + - d2 / tau) by (unfold Rdiv; ring).
  rewrite exp_plus. ring.
Qed.
Lemma rc_relax_0 tau I i : rc_relax tau 0 I i = i.
Proof. unfold rc_relax, Rdiv. rewrite Ropp_0, Rmult_0_l, exp_0. ring. Qed.

Lemma run_rc_bounds c lo hi : positive_rc c -> forall us p s,
  ordered p us -> Forall (fun u => lo <= ui u <= hi) us -> Forall (fun i => lo <= i <= hi) (xi s) ->
  Forall (fun st => Forall (fun i => lo <= i <= hi) (xi st)) (run Constant c p s us).
Proof.
  intros Hp. induction us as [|u us IH]; intros p s Ho Hu Hi; cbn [run]; constructor.
  2: { inversion Hu; subst. apply IH; try tauto; [apply Ho|]. clear IH. revert Hi.
       cbn [next next_constant xi]. intros Hi. apply Forall_map. rewrite Forall_forall in *. intros [i rc] Hin. cbn.
       unfold positive_rc in Hp. rewrite Forall_forall in Hp. apply rc_relax_bounds.
       - apply Hp. eapply in_combine_r; eauto.
       - destruct Ho. lra.
       - apply Hi. eapply in_combine_l; eauto.
       - auto. }
  cbn [next next_constant xi]. apply Forall_map. rewrite Forall_forall in *. intros [i rc] Hin. cbn.
  unfold positive_rc in Hp. rewrite Forall_forall in Hp. apply rc_relax_bounds.
  - apply Hp. eapply in_combine_r; eauto.
  - destruct Ho. lra.
  - apply Hi. eapply in_combine_l; eauto.
  - apply Hu. now left.
Qed.

(** * First-order linear equations *)

(** A continuous function on [0, d] that solves f' = g (m - f) inside, where G' = g. *)
Lemma linear_ode_unique (f e g G : R -> R) d : 0 < d ->
  (forall t, 0 <= t <= d -> continuity_pt f t) ->
  (forall t, 0 <= t <= d -> continuity_pt e t) ->
  (forall t, derivable_pt_lim G t (g t)) ->
  (forall t, 0 < t < d -> exists r, derivable_pt_lim f t (r - g t * f t) /\ derivable_pt_lim e t (r - g t * e t)) ->
  f 0 = e 0 -> f d = e d.
Proof.
  intros Hd Cf Ce HG HD H0.
  set (w := fun t => (f t - e t) * exp (G t)).
  assert (HE : forall t, derivable_pt_lim (fun t => exp (G t)) t (exp (G t) * g t)).
  { intros t. apply (derivable_pt_lim_comp G exp); [apply HG|apply derivable_pt_lim_exp]. }
  assert (Dw : forall t, 0 < t < d -> derivable_pt_lim w t 0).
  { intros t Ht. destruct (HD t Ht) as (r & D1 & D2).
    replace 0 with (((r - g t * f t) - (r - g t * e t)) * exp (G t) + (f t - e t) * (exp (G t) * g t)) by ring.
    apply (derivable_pt_lim_mult (fun t => f t - e t) (fun t => exp (G t))); [|apply HE].
    apply (derivable_pt_lim_minus f e); auto. }
  assert (Cw : forall t, 0 <= t <= d -> continuity_pt w t).
  { intros t Ht. apply (continuity_pt_mult (fun t => f t - e t) (fun t => exp (G t))).
    - apply (continuity_pt_minus f e); auto.
    - apply derivable_continuous_pt. eexists. apply HE. }
  assert (pr : forall x, 0 < x < d -> derivable_pt w x) by (intros x Hx; exists 0; now apply Dw).
  assert (constant_D_eq w (fun x => 0 <= x <= d) (w 0)) as K.
  { apply (null_derivative_loc w 0 d pr Cw). intros x P. apply (derive_pt_eq_0 w x 0 (pr x P)). now apply Dw. }
  assert (w d = w 0) as E by (apply K; lra).
  unfold w in E. rewrite H0, Rminus_diag_eq with (r1 := e 0) in E by reflexivity.
  rewrite Rmult_0_l in E. apply Rmult_integral in E as [E|E]; [lra|].
  pose proof (exp_pos (G d)). lra.
Qed.

(** * RC currents in linear mode *)

(** The solution of tau i' = I0 + slope t - i with i(0) = i. *)
Definition rc_exact (tau I0 slope i t : R) : R :=
  exp (- t / tau) * i + (1 - exp (- t / tau)) * (I0 - slope * tau) + slope * t.

Lemma rc_exact_0 tau I0 sl i : rc_exact tau I0 sl i 0 = i.
Proof. unfold rc_exact, Rdiv. rewrite Ropp_0, !Rmult_0_l, exp_0. ring. Qed.

Lemma derivable_lin k t : derivable_pt_lim (fun t => k * t) t k.
Proof.
  assert (derivable_pt_lim (fun t => k * t) t (k * 1)) as H.
  { apply (derivable_pt_lim_scal (fun t => t) k t 1). apply derivable_pt_lim_id. }
  now rewrite Rmult_1_r in H.
Qed.

Lemma derivable_exp_lin k t : derivable_pt_lim (fun t => exp (k * t)) t (k * exp (k * t)).
Proof.
  replace (k * exp (k * t)) with (exp (k * t) * k) by ring.
  apply (derivable_pt_lim_comp (fun t => k * t) exp); [apply derivable_lin|apply derivable_pt_lim_exp].
Qed.

Lemma rc_exact_derivative tau I0 sl i t : tau <> 0 ->
  derivable_pt_lim (rc_exact tau I0 sl i) t ((I0 + sl * t) / tau - / tau * rc_exact tau I0 sl i t).
Proof.
  intros Ht. set (A := i - (I0 - sl * tau)).
  assert (E : forall t, rc_exact tau I0 sl i t = A * exp (- / tau * t) + (I0 - sl * tau) + sl * t).
  { intros y. unfold rc_exact, A. replace (- y / tau) with (- / tau * y) by (unfold Rdiv; ring). ring. }
  assert (D : derivable_pt_lim (fun t => A * exp (- / tau * t) + (I0 - sl * tau) + sl * t) t
     (A * (- / tau * exp (- / tau * t)) + 0 + sl)).
  { apply (derivable_pt_lim_plus (fun t => A * exp (- / tau * t) + (I0 - sl * tau)) (fun t => sl * t)); [|apply derivable_lin].
    apply (derivable_pt_lim_plus (fun t => A * exp (- / tau * t)) (fun _ => I0 - sl * tau)); [|apply derivable_pt_lim_const].
    apply (derivable_pt_lim_scal (fun t => exp (- / tau * t))). apply derivable_exp_lin. }
  rewrite E. intros eps Heps. destruct (D eps Heps) as [del Hdel]. exists del. intros h Hh0 Hh.
  rewrite !E. replace ((I0 + sl * t) / tau - / tau * (A * exp (- / tau * t) + (I0 - sl * tau) + sl * t))
    with (A * (- / tau * exp (- / tau * t)) + 0 + sl) by (field; auto). apply Hdel; auto.
Qed.

Lemma continuity_of_derivable f t l : derivable_pt_lim f t l -> continuity_pt f t.
Proof. intros H. apply derivable_continuous_pt. now exists l. Qed.

Lemma rc_exact_unique tau I0 sl i d f : tau <> 0 -> 0 < d ->
  (forall t, 0 <= t <= d -> continuity_pt f t) ->
  (forall t, 0 < t < d -> derivable_pt_lim f t ((I0 + sl * t - f t) / tau)) ->
  f 0 = i -> f d = rc_exact tau I0 sl i d.
Proof.
  intros Ht Hd Cf Df H0.
  apply (linear_ode_unique f (rc_exact tau I0 sl i) (fun _ => / tau) (fun t => / tau * t)); auto.
  - intros t _. eapply continuity_of_derivable. now apply rc_exact_derivative.
  - intros t. apply derivable_lin.
  - intros t Htt. exists ((I0 + sl * t) / tau). split.
    + replace ((I0 + sl * t) / tau - / tau * f t) with ((I0 + sl * t - f t) / tau) by (unfold Rdiv; ring). auto.
    + now apply rc_exact_derivative.
  - now rewrite rc_exact_0.
Qed.

Lemma rc_ramp_error tau d sl I0 i :
  rc_ramp tau d sl (I0 + sl * d) i = rc_exact tau I0 sl i d + sl * d * (1 - exp (- d / tau)).
Proof. unfold rc_ramp, rc_exact. ring. Qed.

(** * Hysteresis *)
Lemma approach_bounds m x h lo hi : 0 <= x -> lo <= m <= hi -> lo <= h <= hi -> lo <= approach m x h <= hi.
Proof. intros Hx Hm Hh. unfold approach. destruct (exp_neg_01 x Hx). apply convex_bounds; lra. Qed.

Lemma approach_0 m h : approach m 0 h = h.
Proof. unfold approach. rewrite Ropp_0, exp_0. ring. Qed.

Lemma approach_dist m x h : approach m x h - m = exp (- x) * (h - m).
Proof. unfold approach. ring. Qed.

Lemma Rabs_le_inv x a : Rabs x <= a -> - a <= x <= a.
Proof. unfold Rabs. destruct (Rcase_abs x); lra. Qed.

Lemma asymptote_abs c v I : 0 <= M_ c v -> Rabs (asymptote c v I) <= M_ c v.
Proof.
  intros HM. unfold asymptote. destruct (Rle_dec (Rabs I) (/ 100000000)) as [L|L].
  - rewrite Rabs_mult, (Rabs_pos_eq (M_ c v)) by auto. assert (Rabs I <= 1) by lra.
    pose proof (Rabs_pos I). nra.
  - assert (Rabs I <> 0) by lra.
    assert (Rabs (I / Rabs I) = 1) as E.
    { unfold Rdiv. rewrite Rabs_mult, Rabs_inv, Rabs_Rabsolu. field. auto. }
    rewrite Rabs_mult, E, Rabs_pos_eq; lra.
Qed.

Lemma asymptote_pos c v I : / 100000000 < I -> asymptote c v I = M_ c v.
Proof.
  intros H. unfold asymptote. rewrite Rabs_pos_eq by lra.
  destruct (Rle_dec I (/ 100000000)); [lra|]. field. lra.
Qed.
Lemma asymptote_neg c v I : I < - / 100000000 -> asymptote c v I = - M_ c v.
Proof.
  intros H. unfold asymptote. rewrite Rabs_left1 by lra.
  destruct (Rle_dec (- I) (/ 100000000)); [lra|]. field. lra.
Qed.
Lemma asymptote_zero c v : asymptote c v 0 = 0.
Proof. unfold asymptote. rewrite Rabs_R0. destruct (Rle_dec 0 (/ 100000000)); lra. Qed.

Lemma efficiency_nonneg c I : 0 <= CE c -> 0 <= efficiency c I.
Proof. unfold efficiency. destruct (Rlt_dec I 0); lra. Qed.

Lemma rate_nonneg c I : 0 <= CE c -> 0 <= G_ c -> 0 < Qs c -> 0 <= efficiency c I * G_ c / Qs c.
Proof.
  intros. apply Rmult_le_pos; [|left; now apply Rinv_0_lt_compat].
  apply Rmult_le_pos; auto. now apply efficiency_nonneg.
Qed.

Lemma run_hyst_bounds c m : 0 <= CE c -> 0 <= G_ c -> 0 < Qs c -> (forall v, 0 <= M_ c v <= m) ->
  forall us p s, ordered p us -> Rabs (xh s) <= m ->
  Forall (fun st => Rabs (xh st) <= m) (run Constant c p s us).
Proof.
  intros H1 H2 H3 HM. induction us as [|u us IH]; intros p s Ho Hs; cbn [run]; [constructor|].
  assert (Rabs (xh (next Constant c p u s)) <= m) as K.
  { cbn [next next_constant xh]. apply Rabs_le. apply approach_bounds.
    - apply Rmult_le_pos; [now apply rate_nonneg|]. destruct Ho. apply Rmult_le_pos; [apply Rabs_pos|lra].
    - pose proof (asymptote_abs c (xsoc s) (ui p) (proj1 (HM _))). pose proof (HM (xsoc s)).
      apply Rabs_le_inv. lra.
    - apply Rabs_le_inv. auto. }
  constructor; [exact K|]. apply IH; [apply Ho|exact K].
Qed.

(** One pulse of linear mode: from zero current up to I, then back to zero, in
    steps of length d, with the maximum hysteresis m. *)
Lemma linear_up c p u s I d : ui p = 0 -> ui u = I -> ut u - ut p = d -> 0 < I ->
  xh (next Linear c p u s) = exp (- (efficiency c 0 * G_ c / Qs c * (d * I / 2))) * xh s.
Proof.
  intros H1 H2 H3 H4. cbn [next next_linear xh]. rewrite H1, H2, H3, asymptote_zero.
  destruct (Rle_dec 0 (0 * I)) as [_|N]; [|exfalso; apply N; lra].
  unfold ramp_piece. destruct (Rlt_dec 0 I); [|lra].
  unfold approach. rewrite Rmult_0_r, Rplus_0_r. f_equal. f_equal. f_equal. f_equal. field.
Qed.
Lemma linear_down c p u s I d : ui p = I -> ui u = 0 -> ut u - ut p = d -> / 100000000 < I ->
  xh (next Linear c p u s) - M_ c (xsoc s) =
    exp (efficiency c I * G_ c / Qs c * (d * I / 2)) * (xh s - M_ c (xsoc s)).
Proof.
  intros H1 H2 H3 H4. cbn [next next_linear xh]. rewrite H1, H2, H3, asymptote_pos by lra.
  destruct (Rle_dec 0 (I * 0)) as [_|N]; [|exfalso; apply N; lra].
  unfold ramp_piece. destruct (Rlt_dec 0 0); [lra|].
  rewrite approach_dist, Ropp_involutive. f_equal. f_equal. f_equal. field.
Qed.

Lemma efficiency_nn c I : 0 <= I -> efficiency c I = CE c.
Proof. unfold efficiency. destruct (Rlt_dec I 0); [lra|auto]. Qed.

(** n pulses: currents 0 -> I -> 0 -> I ... starting after an input with current 0 at time t. *)
Fixpoint pulses (I d t : R) (n : nat) : list cinput :=
  match n with
  | O => []
  | S k => {| ut := t + d; ui := I; uT := None |} :: {| ut := t + d + d; ui := 0; uT := None |}
           :: pulses I d (t + d + d) k
  end.

Lemma pulses_drift c m I d : (forall v, M_ c v = m) -> / 100000000 < I ->
  forall n p s, ui p = 0 ->
  xh (last (run Linear c p s (pulses I d (ut p) n)) s) =
    xh s - INR n * (m * (exp (CE c * G_ c / Qs c * (d * I / 2)) - 1)).
Proof.
  intros HM HI. induction n as [|n IH]; intros p s Hp.
  - cbn. ring.
  - cbn [pulses run]. set (u1 := {| ut := ut p + d; ui := I; uT := None |}).
    set (u2 := {| ut := ut p + d + d; ui := 0; uT := None |}).
    set (s1 := next Linear c p u1 s). set (s2 := next Linear c u1 u2 s1).
    assert (Hl : forall (l : list cstate) d0, last (s1 :: s2 :: l) d0 = last l s2).
    { intros l d0. destruct l as [|y l]; [reflexivity|]. change (last (y :: l) d0 = last (y :: l) s2).
      clear. revert y. induction l as [|z l IH]; intros y; [reflexivity|]. exact (IH z). }
    rewrite Hl. specialize (IH u2 s2 eq_refl). cbn [ut u2] in IH. rewrite IH.
    assert (E1 : xh s1 = exp (- (efficiency c 0 * G_ c / Qs c * (d * I / 2))) * xh s).
    { apply linear_up; cbn; auto; lra. }
    assert (E2 : xh s2 - M_ c (xsoc s1) = exp (efficiency c I * G_ c / Qs c * (d * I / 2)) * (xh s1 - M_ c (xsoc s1))).
    { apply linear_down; cbn; auto; lra. }
    rewrite efficiency_nn in E1, E2 by lra. rewrite HM in E2. rewrite E1 in E2.
    set (x := CE c * G_ c / Qs c * (d * I / 2)) in *. rewrite S_INR.
    assert (X : exp x * exp (- x) = 1) by (rewrite <- exp_plus, Rplus_opp_r; apply exp_0).
    assert (xh s2 = m + exp x * exp (- x) * xh s - exp x * m) as -> by lra. rewrite X. ring.
Qed.

(** * Hysteresis along a ramp that keeps its sign *)

Lemma quad_derivative a b t : derivable_pt_lim (fun t => a * t + b * t * t) t (a + 2 * b * t).
Proof.
  replace (a + 2 * b * t) with (a + (b * t + b * t * 1)) by ring.
  apply (derivable_pt_lim_plus (fun t => a * t) (fun t => b * t * t)); [apply derivable_lin|].
  apply (derivable_pt_lim_mult (fun t => b * t) (fun t => t)); [apply derivable_lin|apply derivable_pt_lim_id].
Qed.

Lemma hyst_exact_unique k I0 sl m h d f (sg : R) : 0 < d ->
  (forall t, 0 <= t <= d -> continuity_pt f t) ->
  (forall t, 0 < t < d -> derivable_pt_lim f t (k * (sg * (I0 + sl * t)) * (m - f t))) ->
  f 0 = h -> f d = approach m (k * (sg * (d * (I0 + (I0 + sl * d)) / 2))) h.
Proof.
  intros Hd Cf Df H0.
  set (G := fun t => k * sg * I0 * t + k * sg * sl / 2 * t * t).
  set (g := fun t => k * sg * I0 + 2 * (k * sg * sl / 2) * t).
  assert (HG : forall t, derivable_pt_lim G t (g t)) by (intros t; apply quad_derivative).
  set (e := fun t => (h - m) * exp (- G t) + m).
  assert (He : forall t, derivable_pt_lim e t (g t * m - g t * e t)).
  { intros t. unfold e. replace (g t * m - g t * ((h - m) * exp (- G t) + m)) with ((h - m) * (exp (- G t) * - g t) + 0) by ring.
    apply (derivable_pt_lim_plus (fun t => (h - m) * exp (- G t)) (fun _ => m)); [|apply derivable_pt_lim_const].
    apply (derivable_pt_lim_scal (fun t => exp (- G t))).
    apply (derivable_pt_lim_comp (fun t => - G t) exp); [|apply derivable_pt_lim_exp].
    apply (derivable_pt_lim_opp G). apply HG. }
  assert (f d = e d) as ->.
  { apply (linear_ode_unique f e g G); auto.
    - intros t _. eapply continuity_of_derivable. apply He.
    - intros t Ht. exists (g t * m). split; [|apply He].
      replace (g t * m - g t * f t) with (k * (sg * (I0 + sl * t)) * (m - f t)) by (unfold g; field). auto.
    - rewrite H0. unfold e, G. replace (- (k * sg * I0 * 0 + k * sg * sl / 2 * 0 * 0)) with 0 by ring.
      rewrite exp_0. ring. }
  unfold e, approach, G.
  replace (k * (sg * (d * (I0 + (I0 + sl * d)) / 2))) with (k * sg * I0 * d + k * sg * sl / 2 * d * d) by field.
  ring.
Qed.

(** * Trapezoids *)
Lemma trapezoid_zero ys x : trapezoid ys (repeat x (length ys)) = 0.
Proof.
  induction ys as [|y ys IH]; [reflexivity|]. destruct ys as [|y' ys]; [reflexivity|].
  change (repeat x (length (y :: y' :: ys))) with (x :: x :: repeat x (length ys)).
  change (trapezoid (y :: y' :: ys) (x :: x :: repeat x (length ys)))
    with ((x - x) * (y + y') / 2 + trapezoid (y' :: ys) (x :: repeat x (length ys))).
  change (x :: repeat x (length ys)) with (repeat x (length (y' :: ys))).
  rewrite IH. unfold Rdiv. ring.
Qed.

Fixpoint nondecreasing (xs : list R) : Prop :=
  match xs with x :: ((y :: _) as r) => x <= y /\ nondecreasing r | _ => True end.

Lemma trapezoid_step y0 y1 ys x0 x1 xs :
  trapezoid (y0 :: y1 :: ys) (x0 :: x1 :: xs) = (x1 - x0) * (y0 + y1) / 2 + trapezoid (y1 :: ys) (x1 :: xs).
Proof. reflexivity. Qed.

Lemma trapezoid_bounds lo hi : forall xs ys, length ys = length xs -> nondecreasing xs ->
  Forall (fun y => lo <= y <= hi) ys ->
  lo * (last xs 0 - hd 0 xs) <= trapezoid ys xs <= hi * (last xs 0 - hd 0 xs).
Proof.
  induction xs as [|x0 xs IH]; intros ys L N F.
  - destruct ys; [|discriminate]. cbn. lra.
  - destruct ys as [|y0 ys]; [discriminate|]. destruct xs as [|x1 xs].
    + destruct ys; [|discriminate]. cbn. lra.
    + destruct ys as [|y1 ys]; [discriminate|]. rewrite trapezoid_step.
      inversion F as [|? ? F0 F']; subst. inversion F' as [|? ? F1 _]; subst.
      destruct N as [N0 N]. specialize (IH (y1 :: ys) ltac:(cbn in *; lia) N F').
      change (last (x0 :: x1 :: xs) 0) with (last (x1 :: xs) 0). cbn [hd] in *. nra.
Qed.

Lemma trapezoid_affine al be : forall xs,
  trapezoid (map (fun x => al + be * x) xs) xs =
  (last xs 0 - hd 0 xs) * (al + be * (hd 0 xs + last xs 0) / 2).
Proof.
  induction xs as [|x0 xs IH]; [cbn; ring|]. destruct xs as [|x1 xs]; [cbn; ring|].
  change (map (fun x => al + be * x) (x0 :: x1 :: xs)) with
    ((al + be * x0) :: (al + be * x1) :: map (fun x => al + be * x) xs).
  rewrite trapezoid_step.
  change ((al + be * x1) :: map (fun x => al + be * x) xs) with (map (fun x => al + be * x) (x1 :: xs)).
  rewrite IH. change (last (x0 :: x1 :: xs) 0) with (last (x1 :: xs) 0). cbn [hd]. field.
Qed.
