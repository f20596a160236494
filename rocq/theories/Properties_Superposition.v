(** C126: the effects of currents add up. *)
From Coq Require Import Reals List Arith Lia Lra.
Import ListNotations.
From Verif Require Import Res NdR Interp Simulator Spec_Simulator ECM Spec_ECM ECM_shapes ECM_member ECM_batch ECM_total
  Spec_Superposition Superposition_proofs Properties_ECM Properties_Held Monotone_proofs Spec_Monotone Properties_Monotone.
Open Scope R_scope.

Section C126.
Variable spline : nat -> list R -> res (list R -> R -> R).
Variables (mode : behavior) (al be : R).
Notation simulation := (trajectory (ecm_model spline mode) no_degradation).
(** Three simulations of the same cell at the same times and temperatures. *)
Variables (B b : nat) (a : ecm_asoh) (s1 s2 s : ecm_state) (p1 p2 p : ecm_input) (us1 us2 us : list ecm_input).
Hypothesis Hb : (b < B)%nat.
Hypothesis F1 : fits B a s1 p1 us1.
Hypothesis F2 : fits B a s2 p2 us2.
Hypothesis F : fits B a s p us.
Variables out1 out2 out : list (ecm_state * ecm_asoh * t2).
Hypothesis H1 : simulation a s1 p1 us1 out1.
Hypothesis H2 : simulation a s2 p2 us2 out2.
Hypothesis H : simulation a s p us out.
Notation c := (cell_of spline a b).
(** The currents of the third are al times those of the first and be times those of the
    second. *)
Hypothesis first : mixed_input al be (input_of p1) (input_of p2) (input_of p).
Hypothesis later : all3 (mixed_input al be) (map input_of us1) (map input_of us2) (map input_of us).
(** All three at step k. *)
Variables (k : nat) (u1 u2 u : ecm_input) (x1 x2 x : ecm_state * ecm_asoh * t2).
Hypothesis Eu1 : nth_error us1 k = Some u1.
Hypothesis Eu2 : nth_error us2 k = Some u2.
Hypothesis Eu : nth_error us k = Some u.
Hypothesis E1 : nth_error out1 k = Some x1.
Hypothesis E2 : nth_error out2 k = Some x2.
Hypothesis E : nth_error out k = Some x.

(** So are the voltages, apart from the open circuit voltage and the hysteresis, and the
    currents of the RC elements and the charge on the series capacitor. *)
Theorem C126_superposition : flat_circuit c -> mixed_circuit al be (state_of s1 b) (state_of s2 b) (state_of s b) ->
  mixed_circuit al be (state_of (tr_of x1) b) (state_of (tr_of x2) b) (state_of (tr_of x) b) /\
  drop c (input_of u) (state_of (tr_of x) b) (num (out_of x) b) =
    al * drop c (input_of u1) (state_of (tr_of x1) b) (num (out_of x1) b) + be * drop c (input_of u2) (state_of (tr_of x2) b) (num (out_of x2) b).
Proof.
  intros Fl S. destruct (member_at spline mode B b a s p us out k x u Hb F H E Eu) as (N & V & _).
  destruct (member_at spline mode B b a s1 p1 us1 out1 k x1 u1 Hb F1 H1 E1 Eu1) as (N1 & V1 & _).
  destruct (member_at spline mode B b a s2 p2 us2 out2 k x2 u2 Hb F2 H2 E2 Eu2) as (N2 & V2 & _).
  pose proof (run_mixed al be c Fl mode _ _ _ _ _ _ _ _ _ k _ _ _ later first S N1 N2 N) as X. split; [exact X|].
  rewrite V, V1, V2. apply (drop_mixed al be c Fl); [|exact X].
  exact (all3_nth input_of _ us1 us2 us k u1 u2 u later Eu1 Eu2 Eu).
Qed.

(** With a perfect coulombic efficiency, so is the state of charge, whatever the circuit is. *)
Theorem C126_charge : num (ce a) b = 1 -> mixed al be (num (soc s1) b) (num (soc s2) b) (num (soc s) b) ->
  mixed al be (num (soc (tr_of x1)) b) (num (soc (tr_of x2)) b) (num (soc (tr_of x)) b).
Proof.
  intros C S. destruct (member_at spline mode B b a s p us out k x u Hb F H E Eu) as (N & _).
  destruct (member_at spline mode B b a s1 p1 us1 out1 k x1 u1 Hb F1 H1 E1 Eu1) as (N1 & _).
  destruct (member_at spline mode B b a s2 p2 us2 out2 k x2 u2 Hb F2 H2 E2 Eu2) as (N2 & _).
  exact (run_charge al be c mode C _ _ _ _ _ _ (state_of s1 b) (state_of s2 b) (state_of s b) k _ _ _ later first S N1 N2 N).
Qed.

(** Not so with any other efficiency: charge and discharge with the same current do not
    cancel. *)
Theorem C126_efficiency_refuted : mode = Constant -> al = / 2 -> be = / 2 -> k = 0%nat -> s1 = s -> s2 = s ->
  0 < ui (input_of p1) -> ui (input_of p2) = - ui (input_of p1) -> ut (input_of p) < ut (input_of u) ->
  0 < num (q_base (q_t a)) b -> num (ce a) b <> 1 ->
  mixed al be (num (soc s1) b) (num (soc s2) b) (num (soc s) b) /\
  ~ mixed al be (num (soc (tr_of x1)) b) (num (soc (tr_of x2)) b) (num (soc (tr_of x)) b).
Proof.
  intros Mo Ea Eb K Es1 Es2 I1 I2 Ht Q C. split; [rewrite Es1, Es2, Ea, Eb; unfold mixed; lra|].
  destruct (member_at spline mode B b a s p us out k x u Hb F H E Eu) as (N & _).
  destruct (member_at spline mode B b a s1 p1 us1 out1 k x1 u1 Hb F1 H1 E1 Eu1) as (N1 & _).
  destruct (member_at spline mode B b a s2 p2 us2 out2 k x2 u2 Hb F2 H2 E2 Eu2) as (N2 & _).
  rewrite K in *. rewrite Mo, Es1 in N1. rewrite Mo, Es2 in N2. rewrite Mo in N.
  destruct us as [|v l]; [discriminate|]. destruct us1 as [|v1 l1]; [discriminate|]. destruct us2 as [|v2 l2]; [discriminate|].
  cbn [nth_error] in Eu, Eu1, Eu2. injection Eu as ->. injection Eu1 as ->. injection Eu2 as ->.
  cbn [map run nth_error] in N, N1, N2. cbv zeta in N, N1, N2.
  apply (f_equal (fun o => match o with Some y => xsoc y | None => 0 end)) in N, N1, N2.
  change (next Constant) with next_constant in N, N1, N2. change (xsoc (state_of ?y b)) with (num (soc y) b) in N, N1, N2. rewrite <- N, <- N1, <- N2.
  cbn [map] in later. inversion later as [|? ? ? ? ? ? (T1 & T2 & T3) A' Q1 Q2 Q3]; subst. destruct first as (P1 & P2 & _ & _ & P5).
  cbn [next_constant xsoc]. change (xsoc (state_of s b)) with (num (soc s) b).
  rewrite P1, P2, T1, T2, P5, I2. set (i := ui (input_of p1)) in *. set (d := ut (input_of u) - ut (input_of p)).
  replace (/ 2 * i + / 2 * - i) with 0 by lra. unfold efficiency.
  destruct (Rlt_dec i 0) as [|_]; [lra|]. destruct (Rlt_dec (- i) 0) as [_|]; [|lra].
  intros M. unfold mixed in M. cbn [cell_of CE Qs] in M.
  assert (Pd : 0 < i * d / (3600 * num (q_base (q_t a)) b)).
  { unfold Rdiv. apply Rmult_lt_0_compat; [apply Rmult_lt_0_compat; unfold d; lra|apply Rinv_0_lt_compat; lra]. }
  assert (Z : (num (ce a) b - 1) * (i * d / (3600 * num (q_base (q_t a)) b)) = 0).
  { assert (Q0 : 3600 * num (q_base (q_t a)) b <> 0) by lra. unfold Rdiv in *. rewrite Rmult_0_l, Rmult_0_r, Rmult_0_l in M. lra. }
  apply Rmult_integral in Z. destruct Z; lra.
Qed.
End C126.
Print Assumptions C126_superposition.
Print Assumptions C126_charge.
Print Assumptions C126_efficiency_refuted.

(** * A case: two different profiles of the demo cell and their difference *)
Lemma demo_flat : flat_circuit (cell_of no_spline demo_asoh 0).
Proof.
  destruct demo_plain as [_ _ P0 PC PR _]. split.
  - intros T v v'. exact (proj1 (P0 T v v')).
  - intros v v'. exact (proj1 (PC v v')).
  - revert PR. apply Forall_impl. intros e A v v' T. destruct (A v v' T) as (X & Y & _). now split.
Qed.
Example C126_case : exists out1 out2 out x1 x2 x, let us1 := [at_ 10 (-2); at_ 20 1] in let us2 := [at_ 10 1; at_ 20 1] in let us := [at_ 10 (-3); at_ 20 0] in
  trajectory (ecm_model no_spline Linear) no_degradation demo_asoh demo_state (at_ 0 1) us1 out1 /\
  trajectory (ecm_model no_spline Linear) no_degradation demo_asoh demo_state (at_ 0 1) us2 out2 /\
  trajectory (ecm_model no_spline Linear) no_degradation demo_asoh demo_state (at_ 0 0) us out /\
  nth_error out1 1 = Some x1 /\ nth_error out2 1 = Some x2 /\ nth_error out 1 = Some x /\
  drop (cell_of no_spline demo_asoh 0) (input_of (at_ 20 0)) (state_of (tr_of x) 0) (num (out_of x) 0) =
    1 * drop (cell_of no_spline demo_asoh 0) (input_of (at_ 20 1)) (state_of (tr_of x1) 0) (num (out_of x1) 0)
    + (-1) * drop (cell_of no_spline demo_asoh 0) (input_of (at_ 20 1)) (state_of (tr_of x2) 0) (num (out_of x2) 0).
Proof.
  set (us1 := [at_ 10 (-2); at_ 20 1]). set (us2 := [at_ 10 1; at_ 20 1]). set (us := [at_ 10 (-3); at_ 20 0]).
  assert (Fs : forall i j k, fits 1 demo_asoh demo_state (at_ 0 i) [at_ 10 j; at_ 20 k]) by (intros; apply demo_fits; [apply at_ok|repeat constructor]).
  assert (Rs : forall i j k, exists out, trajectory (ecm_model no_spline Linear) no_degradation demo_asoh demo_state (at_ 0 i) [at_ 10 j; at_ 20 k] out /\
    exists x, nth_error out 1 = Some x).
  { intros i j k. destruct (demo_runs Linear demo_asoh demo_state [at_ 10 j; at_ 20 k] 0 i (Fs i j k) demo_usable) as [out H]; [discriminate|cbn; lra|].
    exists out. split; [exact H|]. inversion H as [|? ? ? ? ? ? ? ? ? ? r1 _ _ _ H1]; subst.
    inversion H1 as [|? ? ? ? ? ? ? ? ? ? r2 _ _ _ H2]; subst. eexists. reflexivity. }
  destruct (Rs 1 (-2) 1) as (out1 & H1 & x1 & E1). destruct (Rs 1 1 1) as (out2 & H2 & x2 & E2). destruct (Rs 0 (-3) 0) as (out & H & x & E).
  exists out1, out2, out, x1, x2, x. cbv zeta. fold us1 us2 us. do 6 (split; [assumption|]).
  apply (C126_superposition no_spline Linear 1 (-1) 1 0 demo_asoh demo_state demo_state demo_state (at_ 0 1) (at_ 0 1) (at_ 0 0) us1 us2 us Nat.lt_0_1
    (Fs _ _ _) (Fs _ _ _) (Fs _ _ _) out1 out2 out H1 H2 H) with (k := 1%nat); try assumption; try reflexivity.
  - repeat split. cbn. lra.
  - repeat constructor; cbn; lra.
  - exact demo_flat.
  - split; cbn; [unfold mixed; lra|]. repeat constructor; unfold mixed, row; cbn; lra.
Qed.
Print Assumptions C126_case.
