(** C120: what a cell remembers of the state it started from. *)
From Coq Require Import Reals List Arith Lia Lra.
Import ListNotations.
From Verif Require Import Res NdR Interp Simulator Spec_Simulator ECM Spec_ECM ECM_shapes ECM_member ECM_batch ECM_total
  Spec_Rest Rest_proofs Held_proofs Spec_Memory Memory_proofs Properties_ECM Properties_Held.
Open Scope R_scope.

Section C120.
Variable spline : nat -> list R -> res (list R -> R -> R).
Notation simulation mode := (trajectory (ecm_model spline mode) no_degradation).
Variables (mode : behavior) (B b : nat) (a : ecm_asoh) (s s' : ecm_state) (p : ecm_input) (us : list ecm_input).
Hypothesis Hb : (b < B)%nat.
(** Two simulations of a cell, with the same inputs, from states with the same state of charge. *)
Hypothesis F : fits B a s p us.
Hypothesis F' : fits B a s' p us.
Variables out out' : list (ecm_state * ecm_asoh * t2).
Hypothesis H : simulation mode a s p us out.
Hypothesis H' : simulation mode a s' p us out'.
Hypothesis same_soc : num (soc s') b = num (soc s) b.
Notation c := (cell_of spline a b).
(** The state and voltage of both at input k. *)
Variables (k : nat) (u : ecm_input) (x x' : ecm_state * ecm_asoh * t2).
Hypothesis Eu : nth_error us k = Some u.
Hypothesis E : nth_error out k = Some x.
Hypothesis E' : nth_error out' k = Some x'.
Notation D := (ut (input_of u) - ut (input_of p)).

Lemma lengths_of (y : ecm_state) : c2 (i_rc y) = length (rcs a) -> length (xi (state_of y b)) = length (RC_ c).
Proof. intros L. cbn [state_of xi cell_of RC_]. now rewrite !map_length, seq_length. Qed.
Lemma difference_at (y y' : ecm_state) j : c2 (i_rc y) = length (rcs a) -> c2 (i_rc y') = length (rcs a) -> (j < length (rcs a))%nat ->
  nth_error (current_differences (state_of y b) (state_of y' b)) j = Some (row (i_rc y') b j - row (i_rc y) b j).
Proof.
  intros L L' Hj. unfold current_differences. cbn [state_of xi]. rewrite L, L', nth_error_map.
  assert (N : forall z : ecm_state, nth_error (map (row (i_rc z) b) (seq 0 (length (rcs a)))) j = Some (row (i_rc z) b j)).
  { intros z. rewrite nth_error_map, (nth_error_nth' _ 0%nat) by (now rewrite seq_length). rewrite seq_nth by exact Hj. reflexivity. }
  rewrite (nth_error_pair _ _ j _ _ (N y) (N y')). reflexivity.
Qed.

(** ** The RC currents: no difference is left of the guess after some time constants, in
    either mode, whatever the currents are.  [tau]: no element is slower than this at the
    states of charge and temperatures that are met. *)
Section Elements.
Variable tau : R.
Hypothesis Pt : 0 < tau.
Hypothesis in_order : ordered (input_of p) (map input_of us).
Hypothesis slow : forall i w y, nth_error (p :: us) i = Some w -> nth_error (s :: map (fun x => tr_of x) out) i = Some y ->
  time_constants_below c tau (uT (input_of w)) (num (soc y) b).

Lemma both_runs : xsoc (state_of (tr_of x') b) = xsoc (state_of (tr_of x) b) /\
  (xq (state_of s' b) = xq (state_of s b) -> xq (state_of (tr_of x') b) = xq (state_of (tr_of x) b)) /\
  Forall2 (fun d0 d => Rabs d <= exp (- D / tau) * Rabs d0) (current_differences (state_of s b) (state_of s' b))
    (current_differences (state_of (tr_of x) b) (state_of (tr_of x') b)).
Proof.
  destruct (member_at spline mode B b a s p us out k x u Hb F H E Eu) as (N & _ & _).
  destruct (member_at spline mode B b a s' p us out' k x' u Hb F' H' E' Eu) as (N' & _ & _).
  refine (run_differences mode c tau (map input_of us) (input_of p) (state_of s b) (state_of s' b) k _ _ (input_of u) Pt same_soc _ _ in_order _ N N' _).
  - apply lengths_of, F.
  - apply lengths_of, F'.
  - intros i w y Ew Ey. destruct F as (A & St & P & U).
    destruct (trajectory_run spline mode B b Hb us p s a out A St P U H) as (Nr & _ & _).
    change (input_of p :: map input_of us) with (map input_of (p :: us)) in Ew. rewrite nth_error_map in Ew.
    destruct (nth_error (p :: us) i) as [w0|] eqn:E0; [|discriminate]. cbn in Ew. injection Ew as <-.
    rewrite <- Nr in Ey. destruct i as [|i]; cbn in Ey.
    + injection Ey as <-. exact (slow 0%nat w0 s E0 eq_refl).
    + rewrite nth_error_map in Ey. destruct (nth_error out i) as [z|] eqn:Ez; [|discriminate]. cbn in Ey. injection Ey as <-.
      apply (slow (S i) w0 (tr_of z) E0). cbn. now rewrite nth_error_map, Ez.
  - now rewrite nth_error_map, Eu.
Qed.

Theorem C120_currents : num (soc (tr_of x')) b = num (soc (tr_of x)) b /\
  forall j, (j < length (rcs a))%nat ->
    Rabs (row (i_rc (tr_of x')) b j - row (i_rc (tr_of x)) b j) <= exp (- D / tau) * Rabs (row (i_rc s') b j - row (i_rc s) b j).
Proof.
  destruct both_runs as (V & _ & Fd). split; [exact V|]. intros j Hj.
  destruct (member_at spline mode B b a s p us out k x u Hb F H E Eu) as (_ & _ & L).
  destruct (member_at spline mode B b a s' p us out' k x' u Hb F' H' E' Eu) as (_ & _ & L').
  pose proof (difference_at s s' j ltac:(apply F) ltac:(apply F') Hj) as D0.
  pose proof (difference_at (tr_of x) (tr_of x') j L L' Hj) as D1.
  exact (Forall2_nth _ _ _ Fd j _ _ D0 D1).
Qed.

(** The voltages approach each other as well, if nothing but the RC currents differed. *)
Theorem C120_voltage : option_map (fun q => num q b) (q0 s') = option_map (fun q => num q b) (q0 s) -> num (hyst s') b = num (hyst s) b ->
  let differing := {| xsoc := num (soc (tr_of x)) b; xq := None; xi := current_differences (state_of s b) (state_of s' b); xh := 0 |} in
  Rabs (num (out_of x') b - num (out_of x) b) <= exp (- D / tau) * rc_drop c (uT (input_of u)) differing.
Proof.
  intros Q Hh differing. destruct both_runs as (V & W & Fd). specialize (W Q).
  destruct (member_at spline mode B b a s p us out k x u Hb F H E Eu) as (N & Y & L).
  destruct (member_at spline mode B b a s' p us out' k x' u Hb F' H' E' Eu) as (N' & Y' & L').
  rewrite Y, Y', voltage_difference; [|split; assumption|now apply lengths_of|now apply lengths_of].
  assert (Z : xh (state_of (tr_of x') b) = xh (state_of (tr_of x) b))
    by exact (run_same_hysteresis mode c (map input_of us) (input_of p) (state_of s b) (state_of s' b) k _ _ same_soc Hh N N').
  rewrite Z, Rminus_diag_eq, Rplus_0_r by reflexivity.
  apply sum_bound; [left; apply exp_pos|exact Fd].
Qed.
End Elements.

(** ** The hysteresis, with constant currents: differences shrink with the charge that is
    moved, and no faster or slower. *)
Theorem C120_hysteresis : mode = Constant ->
  num (hyst (tr_of x')) b - num (hyst (tr_of x)) b
  = exp (- (G_ c / Qs c * throughput c (input_of p) (map input_of (firstn (S k) us)))) * (num (hyst s') b - num (hyst s) b).
Proof.
  intros M. destruct (member_at spline mode B b a s p us out k x u Hb F H E Eu) as (N & _ & _).
  destruct (member_at spline mode B b a s' p us out' k x' u Hb F' H' E' Eu) as (N' & _ & _). rewrite M in N, N'.
  pose proof (run_hysteresis c (map input_of us) (input_of p) (state_of s b) (state_of s' b) k _ _ same_soc N N') as X.
  rewrite firstn_map in X. exact X.
Qed.
(** In linear mode they grow whenever a charging current ramps down to zero. *)
Theorem C120_linear_refuted : mode = Linear -> k = 0%nat ->
  0 < ui (input_of p) -> ui (input_of u) = 0 -> ut (input_of p) < ut (input_of u) ->
  0 < num (ce a) b -> 0 < num (hys_gamma (h0 a)) b -> 0 < num (q_base (q_t a)) b -> num (hyst s') b <> num (hyst s) b ->
  Rabs (num (hyst s') b - num (hyst s) b) < Rabs (num (hyst (tr_of x')) b - num (hyst (tr_of x)) b).
Proof.
  intros M K I0 I1 Ht P1 P2 P3 Nh. destruct (member_at spline mode B b a s p us out k x u Hb F H E Eu) as (N & _ & _).
  destruct (member_at spline mode B b a s' p us out' k x' u Hb F' H' E' Eu) as (N' & _ & _). rewrite M, K in N, N'. rewrite K in Eu.
  destruct us as [|u0 us0]; [discriminate|]. cbn in Eu. injection Eu as ->. cbn [map run nth_error] in N, N'. cbv zeta in N, N'.
  apply (f_equal (fun o => match o with Some y => y | None => state_of s b end)) in N. apply (f_equal (fun o => match o with Some y => y | None => state_of s b end)) in N'.
  change (next Linear) with next_linear in N, N'.
  pose proof (step_growing c (input_of p) (input_of u) (state_of s b) (state_of s' b) same_soc I1) as X. rewrite N, N' in X.
  change (xh (state_of ?y b)) with (num (hyst y) b) in X. rewrite X, Rabs_mult, (Rabs_pos_eq (exp _)) by (left; apply exp_pos).
  set (g := efficiency c (ui (input_of p)) * G_ c / Qs c * (D * ui (input_of p) / 2)).
  assert (Pg : 0 < g).
  { unfold g, efficiency. destruct (Rlt_dec (ui (input_of p)) 0) as [Q|_]; [lra|]. cbn [cell_of CE G_ Qs].
    apply Rmult_lt_0_compat; [|apply Rmult_lt_0_compat; [apply Rmult_lt_0_compat; lra|lra]].
    apply Rmult_lt_0_compat; [apply Rmult_lt_0_compat; assumption|apply Rinv_0_lt_compat; lra]. }
  assert (1 < exp g) by (rewrite <- exp_0; now apply exp_increasing).
  assert (0 < Rabs (num (hyst s') b - num (hyst s) b)) by (apply Rabs_pos_lt; lra). 
  rewrite <- (Rmult_1_l (Rabs _)) at 1. now apply Rmult_lt_compat_r.
Qed.
End C120.
Print Assumptions C120_currents.
Print Assumptions C120_voltage.
Print Assumptions C120_hysteresis.
Print Assumptions C120_linear_refuted.

(** The demo cell, whose RC currents are guessed wrong, under varying currents. *)
Example C120_case : exists out out' : list (ecm_state * ecm_asoh * t2), let us := [at_ 10 3; at_ 15 (-4); at_ 60 1] in
  fits 1 demo_asoh (loaded 1 2) (at_ 0 2) us /\ fits 1 demo_asoh (loaded 0 5) (at_ 0 2) us /\
  trajectory (ecm_model no_spline Linear) no_degradation demo_asoh (loaded 1 2) (at_ 0 2) us out /\
  trajectory (ecm_model no_spline Linear) no_degradation demo_asoh (loaded 0 5) (at_ 0 2) us out' /\
  ordered (input_of (at_ 0 2)) (map input_of us) /\
  exists x x', nth_error out 2 = Some x /\ nth_error out' 2 = Some x' /\
    Rabs (num (out_of x') 0 - num (out_of x) 0) <= exp (- 60 / 100) * (7 / 100).
Proof.
  set (us := [at_ 10 3; at_ 15 (-4); at_ 60 1]).
  assert (A := demo_fits [] (at_ 0 2) (at_ok 0 2) (Forall_nil _)). destruct A as (A & _).
  assert (Fs : forall y z, fits 1 demo_asoh (loaded y z) (at_ 0 2) us).
  { intros y z. split; [exact A|split; [repeat split; cbn; auto; now left|split; [apply at_ok|unfold us; inputs_ok]]]. }
  assert (Rs : forall y z, exists out, trajectory (ecm_model no_spline Linear) no_degradation demo_asoh (loaded y z) (at_ 0 2) us out).
  { intros y z. apply demo_runs; [apply Fs|apply demo_usable|discriminate|cbn; lra]. }
  destruct (Rs 1 2) as [out H], (Rs 0 5) as [out' H']. exists out, out'. cbv zeta. fold us.
  split; [apply Fs|]. split; [apply Fs|]. split; [exact H|]. split; [exact H'|]. split; [cbn; lra|].
  assert (L : forall out y z, trajectory (ecm_model no_spline Linear) no_degradation demo_asoh (loaded y z) (at_ 0 2) us out -> exists x, nth_error out 2 = Some x).
  { clear. unfold us. intros out y z H. inversion H as [|? ? ? ? ? ? ? ? ? ? r1 _ _ _ H1]; subst.
    inversion H1 as [|? ? ? ? ? ? ? ? ? ? r2 _ _ _ H2]; subst. inversion H2 as [|? ? ? ? ? ? ? ? ? ? r3 _ _ _ H3]; subst. eexists. reflexivity. }
  destruct (L out 1 2 H) as [x Ex], (L out' 0 5 H') as [x' Ex']. exists x, x'. split; [exact Ex|]. split; [exact Ex'|].
  assert (Or : ordered (input_of (at_ 0 2)) (map input_of us)) by (cbn; lra).
  assert (Sl : forall i w y, nth_error (at_ 0 2 :: us) i = Some w -> nth_error (loaded 1 2 :: map (fun x => tr_of x) out) i = Some y ->
    time_constants_below (cell_of no_spline demo_asoh 0) 100 (uT (input_of w)) (num (soc y) 0)).
  { intros i w y Ew _. assert (T : uT (input_of w) = None).
    { apply nth_error_In in Ew. unfold us in Ew. cbn in Ew. intuition (subst; reflexivity). }
    rewrite T. unfold time_constants_below. cbn [cell_of RC_ demo_asoh rcs map].
    repeat apply Forall_cons; try apply Forall_nil; cbn [fst snd rc_r rc_c ohms res_at res_sih]; unfold sih_at, num, row; cbn; lra. }
  pose proof (C120_voltage no_spline Linear 1 0 demo_asoh (loaded 1 2) (loaded 0 5) (at_ 0 2) us (Nat.lt_0_1) (Fs 1 2) (Fs 0 5) out out' H H' eq_refl
    2 (at_ 60 1) x x' eq_refl Ex Ex' 100 ltac:(lra) Or Sl eq_refl eq_refl) as G.
  cbv zeta in G. replace (ut (input_of (at_ 60 1)) - ut (input_of (at_ 0 2))) with 60 in G by (cbn; ring).
  eapply Rle_trans; [exact G|]. apply Rmult_le_compat_l; [left; apply exp_pos|].
  unfold rc_drop, current_differences. cbn [xi xsoc cell_of RC_ demo_asoh rcs map combine seq state_of loaded i_rc c2 fst snd fold_right rc_r ohms res_at input_of at_ uT temperature option_map res_sih].
  unfold sih_at, num, row. cbn. unfold Rabs. repeat destruct (Rcase_abs _); lra.
Qed.

(** A charging current that ramps down to zero, from two levels of hysteresis. *)
Definition polarised (h : R) : ecm_state := {| soc := sc (/ 2); q0 := Some (sc 0); i_rc := T2 1 2 (fun _ _ => 0); hyst := sc h |}.
Example C120_linear_case : exists x x',
  trajectory (ecm_model no_spline Linear) no_degradation demo_asoh (polarised 0) (at_ 0 2) [at_ 10 0] [x] /\
  trajectory (ecm_model no_spline Linear) no_degradation demo_asoh (polarised (/ 20)) (at_ 0 2) [at_ 10 0] [x'] /\
  Rabs (/ 20) < Rabs (num (hyst (tr_of x')) 0 - num (hyst (tr_of x)) 0).
Proof.
  assert (A := demo_fits [] (at_ 0 2) (at_ok 0 2) (Forall_nil _)). destruct A as (A & _).
  assert (Fs : forall h, fits 1 demo_asoh (polarised h) (at_ 0 2) [at_ 10 0]).
  { intros h. split; [exact A|split; [repeat split; cbn; auto; now left|split; [apply at_ok|inputs_ok]]]. }
  assert (Rs : forall h, exists x, trajectory (ecm_model no_spline Linear) no_degradation demo_asoh (polarised h) (at_ 0 2) [at_ 10 0] [x]).
  { intros h. destruct (demo_runs Linear demo_asoh (polarised h) [at_ 10 0] 0 2) as [out H]; [apply Fs|apply demo_usable|discriminate|cbn; lra|].
    inversion H as [|? ? ? ? ? ? ? ? ? ? r1 E0 E1 E2 H1]; subst. inversion H1; subst. eauto. }
  destruct (Rs 0) as [x H], (Rs (/ 20)) as [x' H']. exists x, x'. split; [exact H|]. split; [exact H'|].
  replace (/ 20) with (num (hyst (polarised (/ 20))) 0 - num (hyst (polarised 0)) 0) by (cbn; lra).
  refine (C120_linear_refuted no_spline Linear 1 0 demo_asoh (polarised 0) (polarised (/ 20)) (at_ 0 2) [at_ 10 0] Nat.lt_0_1 (Fs _) (Fs _) _ _ H H' eq_refl
    0 (at_ 10 0) x x' eq_refl eq_refl eq_refl eq_refl eq_refl _ eq_refl _ _ _ _ _); cbn; lra.
Qed.
