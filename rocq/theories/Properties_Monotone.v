(** C124: more current, more charge and a higher voltage. *)
From Coq Require Import Reals List Arith Lia Lra.
Import ListNotations.
From Verif Require Import Res NdR Interp Simulator Spec_Simulator ECM Spec_ECM ECM_shapes ECM_member ECM_batch ECM_total
  Spec_Rest Rest_proofs Interp_slopes Held_proofs Spec_Monotone Monotone_proofs Properties_ECM Properties_Rest Properties_Held.
Open Scope R_scope.

Section C124.
Variable spline : nat -> list R -> res (list R -> R -> R).
Notation simulation := (trajectory (ecm_model spline Constant) no_degradation).
Variables (B b : nat) (a : ecm_asoh) (s s' : ecm_state) (p p' : ecm_input) (us us' : list ecm_input).
Hypothesis Hb : (b < B)%nat.
Hypothesis F : fits B a s p us.
Hypothesis F' : fits B a s' p' us'.
Variables out out' : list (ecm_state * ecm_asoh * t2).
Hypothesis H : simulation a s p us out.
Hypothesis H' : simulation a s' p' us' out'.
(** Two simulations at the same times and temperatures, the second with at least as much
    current at each step. *)
Hypothesis in_order : ordered (input_of p) (map input_of us).
Hypothesis first : more_current (input_of p) (input_of p').
Hypothesis later : Forall2 more_current (map input_of us) (map input_of us').
Notation c := (cell_of spline a b).
(** Both at step k. *)
Variables (k : nat) (u u' : ecm_input) (x x' : ecm_state * ecm_asoh * t2).
Hypothesis Eu : nth_error us k = Some u.
Hypothesis Eu' : nth_error us' k = Some u'.
Hypothesis E : nth_error out k = Some x.
Hypothesis E' : nth_error out' k = Some x'.

(** The state of charge is never lower, whatever the circuit is. *)
Theorem C124_charge : 0 < num (q_base (q_t a)) b -> 0 <= num (ce a) b -> num (soc s) b <= num (soc s') b ->
  num (soc (tr_of x)) b <= num (soc (tr_of x')) b.
Proof.
  intros Q C S. destruct (member_at spline Constant B b a s p us out k x u Hb F H E Eu) as (N & _ & _).
  destruct (member_at spline Constant B b a s' p' us' out' k x' u' Hb F' H' E' Eu') as (N' & _ & _).
  refine (run_charges c _ C _ _ _ _ (state_of s b) (state_of s' b) k _ _ in_order first later S N N'). cbn. lra.
Qed.

(** Neither are the other quantities and the voltage, if the circuit is a simple one and its
    hysteresis starts between its bounds. *)
Theorem C124_voltage : plain_cell c ->
  Forall (fun u => plain_current (input_of u)) (p :: removelast us) -> Forall (fun u => plain_current (input_of u)) (p' :: removelast us') ->
  Rabs (num (hyst s) b) <= M_ c 0 -> Rabs (num (hyst s') b) <= M_ c 0 -> below (state_of s b) (state_of s' b) ->
  below (state_of (tr_of x) b) (state_of (tr_of x') b) /\ num (out_of x) b <= num (out_of x') b.
Proof.
  intros P Np Np' B1 B2 S. destruct (member_at spline Constant B b a s p us out k x u Hb F H E Eu) as (N & V & _).
  destruct (member_at spline Constant B b a s' p' us' out' k x' u' Hb F' H' E' Eu') as (N' & V' & _).
  assert (Rb : forall y M, Rabs y <= M -> - M <= y <= M) by (intros y M; unfold Rabs; destruct (Rcase_abs y); lra).
  assert (Pl : forall q l, Forall (fun u => plain_current (input_of u)) (q :: removelast l) -> Forall plain_current (input_of q :: removelast (map input_of l))).
  { intros q l A. constructor; [exact (Forall_inv A)|]. pose proof (Forall_inv_tail A) as A2. clear A.
    induction l as [|y [|w l] IH]; cbn [map removelast] in *; [constructor|constructor|]. inversion A2; subst. constructor; [assumption|now apply IH]. }
  pose proof (run_below c P _ _ _ _ (state_of s b) (state_of s' b) k _ _ in_order first later (Pl _ _ Np) (Pl _ _ Np') (Rb _ _ B1) (Rb _ _ B2) S N N') as X.
  split; [exact X|]. rewrite V, V'. apply voltage_below; [exact P| |exact X].
  apply (Forall2_nth _ _ _ later k); now rewrite nth_error_map, ?Eu, ?Eu'.
Qed.

(** Not so for currents that count as zero: a tiny charging current lowers the hysteresis. *)
Theorem C124_tiny_currents_refuted : k = 0%nat -> s' = s -> ui (input_of p) = 0 -> 0 < ui (input_of p') <= / 100000000 ->
  ut (input_of p) < ut (input_of u) ->
  0 < num (q_base (q_t a)) b -> 0 < num (ce a) b -> 0 < num (hys_gamma (h0 a)) b ->
  M_ c (num (soc s) b) * / 100000000 < num (hyst s) b -> 0 <= M_ c (num (soc s) b) ->
  num (hyst (tr_of x')) b < num (hyst (tr_of x)) b.
Proof.
  intros K Es I0 I1 Ht Q C G Mh PM. subst s'. destruct (member_at spline Constant B b a s p us out k x u Hb F H E Eu) as (N & _ & _).
  destruct (member_at spline Constant B b a s p' us' out' k x' u' Hb F' H' E' Eu') as (N' & _ & _). rewrite K in N, N'. rewrite K in Eu, Eu'.
  destruct us as [|u0 us0]; [discriminate|]. cbn in Eu. injection Eu as ->. destruct us' as [|u0' us0']; [discriminate|]. cbn in Eu'. injection Eu' as ->.
  cbn [map run nth_error] in N, N'. cbv zeta in N, N'.
  apply (f_equal (fun o => match o with Some y => xh y | None => 0 end)) in N. apply (f_equal (fun o => match o with Some y => xh y | None => 0 end)) in N'.
  change (next Constant) with next_constant in N, N'. change (xh (state_of ?y b)) with (num (hyst y) b) in N, N'. rewrite <- N, <- N'.
  inversion later as [|? ? ? ? (T2 & _) _]; subst. destruct first as (T1 & _).
  cbn [next_constant xh]. rewrite I0, Rabs_R0, Rmult_0_l, Rmult_0_r, T1, T2. change (xh (state_of s b)) with (num (hyst s) b). change (xsoc (state_of s b)) with (num (soc s) b).
  set (h := num (hyst s) b) in *. set (v := num (soc s) b) in *. unfold approach at 2. rewrite Ropp_0, exp_0.
  unfold asymptote. set (i := ui (input_of p')) in *. destruct (Rle_dec (Rabs i) _) as [_|Z]; [|rewrite Rabs_pos_eq in Z; lra].
  unfold efficiency. destruct (Rlt_dec i 0); [lra|]. rewrite (Rabs_pos_eq i) by lra.
  set (z := CE c * G_ c / Qs c * (i * (ut (input_of u) - ut (input_of p)))).
  assert (Pz : 0 < z).
  { unfold z. cbn [cell_of CE G_ Qs]. apply Rmult_lt_0_compat; [|apply Rmult_lt_0_compat; lra].
    apply Rmult_lt_0_compat; [apply Rmult_lt_0_compat; assumption|apply Rinv_0_lt_compat; lra]. }
  unfold approach. assert (exp (- z) < 1) by (rewrite <- exp_0; apply exp_increasing; lra).
  assert (M_ c v * i <= M_ c v * / 100000000) by (apply Rmult_le_compat_l; lra).
  assert (0 < (1 - exp (- z)) * (h - M_ c v * i)) by (apply Rmult_lt_0_compat; lra). lra.
Qed.
End C124.
Print Assumptions C124_charge.
Print Assumptions C124_voltage.
Print Assumptions C124_tiny_currents_refuted.

(** * A case: the demo cell, two profiles with charge and discharge *)
Lemma demo_plain : plain_cell (cell_of no_spline demo_asoh 0).
Proof.
  assert (V : forall y v, sih_at no_spline (one_value y) 0 v = y) by reflexivity.
  assert (O : forall y v T, res_at no_spline (ohms y) 0 v T = y).
  { intros y v [t|]; [|reflexivity]. unfold res_at. cbn [ohms res_sih res_fac res_tref]. rewrite V. change (num (sc 0) 0) with 0.
    rewrite Ropp_0, Rmult_0_l, exp_0. ring. }
  split.
  - cbn. lra.
  - intros T v v' L. cbn [cell_of OCV_].
    pose proof (grows_changes no_spline 1 1 _ 0 (proj1 C112_case) v v' L) as [X _].
    assert (W : forall v, ocv_at no_spline (oc demo_asoh) 0 v T = sih_at no_spline (ocv_ref (oc demo_asoh)) 0 v).
    { intros w. destruct T as [t|]; [|reflexivity]. unfold ocv_at. change (ocv_ent (oc demo_asoh)) with (one_value 0). rewrite V. ring. }
    rewrite !W. lra.
  - intros T v v'. cbn [cell_of R0_ r0 demo_asoh]. rewrite !O. split; [reflexivity|lra].
  - intros v v'. cbn [cell_of C0_ c0 demo_asoh]. rewrite !V. split; [reflexivity|lra].
  - cbn [cell_of RC_ rcs demo_asoh map rc_r rc_c]. repeat constructor; cbn [fst snd]; rewrite ?O, ?V; lra.
  - intros v v'. cbn [cell_of M_ G_ h0 demo_asoh hys_sih hys_gamma]. rewrite !V. cbn. lra.
Qed.
Example C124_case : exists out out' x x', let us := [at_ 10 (-2); at_ 20 1; at_ 30 0] in let us' := [at_ 10 (-1); at_ 20 2; at_ 30 0] in
  trajectory (ecm_model no_spline Constant) no_degradation demo_asoh demo_state (at_ 0 1) us out /\
  trajectory (ecm_model no_spline Constant) no_degradation demo_asoh demo_state (at_ 0 1) us' out' /\
  nth_error out 2 = Some x /\ nth_error out' 2 = Some x' /\ num (out_of x) 0 <= num (out_of x') 0.
Proof.
  set (us := [at_ 10 (-2); at_ 20 1; at_ 30 0]). set (us' := [at_ 10 (-1); at_ 20 2; at_ 30 0]).
  assert (Fs : fits 1 demo_asoh demo_state (at_ 0 1) us /\ fits 1 demo_asoh demo_state (at_ 0 1) us').
  { split; (apply demo_fits; [apply at_ok|repeat constructor]). }
  destruct Fs as [Fs Fs'].
  destruct (demo_runs Constant demo_asoh demo_state us 0 1 Fs demo_usable) as [out H]; [discriminate|cbn; lra|].
  destruct (demo_runs Constant demo_asoh demo_state us' 0 1 Fs' demo_usable) as [out' H']; [discriminate|cbn; lra|].
  assert (L : forall u1 u2 u3 out, trajectory (ecm_model no_spline Constant) no_degradation demo_asoh demo_state (at_ 0 1) [u1; u2; u3] out -> exists x, nth_error out 2 = Some x).
  { clear. intros u1 u2 u3 out H. inversion H as [|? ? ? ? ? ? ? ? ? ? r1 _ _ _ H1]; subst.
    inversion H1 as [|? ? ? ? ? ? ? ? ? ? r2 _ _ _ H2]; subst. inversion H2 as [|? ? ? ? ? ? ? ? ? ? r3 _ _ _ H3]; subst. eexists. reflexivity. }
  destruct (L _ _ _ _ H) as [x Ex], (L _ _ _ _ H') as [x' Ex']. exists out, out', x, x'. cbv zeta. fold us us'.
  do 4 (split; [assumption|]).
  assert (Pc : forall t i, i = 0 \/ 1 <= Rabs i -> plain_current (input_of (at_ t i))) by (intros t i [Z|Z]; [now left|right; cbn; lra]).
  assert (A : forall y, 1 <= y -> 1 <= Rabs y) by (intros; rewrite Rabs_pos_eq; lra). assert (A' : forall y, y <= -1 -> 1 <= Rabs y) by (intros; rewrite Rabs_left; lra).
  apply (C124_voltage no_spline 1 0 demo_asoh demo_state demo_state (at_ 0 1) (at_ 0 1) us us' Nat.lt_0_1 Fs Fs' out out' H H')
    with (k := 2%nat) (u := at_ 30 0) (u' := at_ 30 0); try assumption; try reflexivity.
  - cbn. lra.
  - repeat split. cbn. lra.
  - cbn. repeat constructor; cbn; lra.
  - exact demo_plain.
  - cbn [us us' removelast]. repeat (apply Forall_cons; [apply Pc; right; first [apply A; lra|apply A'; lra]|]). apply Forall_nil.
  - cbn [us us' removelast]. repeat (apply Forall_cons; [apply Pc; right; first [apply A; lra|apply A'; lra]|]). apply Forall_nil.
  - cbn. rewrite Rabs_R0. lra.
  - cbn. rewrite Rabs_R0. lra.
  - unfold below. cbn. repeat split; try lra. repeat constructor; lra.
Qed.
Print Assumptions C124_case.

Definition magnetised : ecm_state := {| soc := sc (/ 2); q0 := Some (sc 0); i_rc := T2 1 2 (fun _ _ => 0); hyst := sc (/ 20) |}.
Example C124_tiny_case : exists x x',
  trajectory (ecm_model no_spline Constant) no_degradation demo_asoh magnetised (at_ 0 0) [at_ 10 0] [x] /\
  trajectory (ecm_model no_spline Constant) no_degradation demo_asoh magnetised (at_ 0 (/ 1000000000)) [at_ 10 0] [x'] /\
  num (hyst (tr_of x')) 0 < num (hyst (tr_of x)) 0.
Proof.
  assert (A := demo_fits [] (at_ 0 2) (at_ok 0 2) (Forall_nil _)). destruct A as (A & _).
  assert (Fs : forall i, fits 1 demo_asoh magnetised (at_ 0 i) [at_ 10 0]).
  { intros i. split; [exact A|split; [repeat split; cbn; auto; now left|split; [apply at_ok|inputs_ok]]]. }
  assert (Rs : forall i, exists x, trajectory (ecm_model no_spline Constant) no_degradation demo_asoh magnetised (at_ 0 i) [at_ 10 0] [x]).
  { intros i. destruct (demo_runs Constant demo_asoh magnetised [at_ 10 0] 0 i) as [out H]; [apply Fs|apply demo_usable|discriminate|cbn; lra|].
    inversion H as [|? ? ? ? ? ? ? ? ? ? r1 E0 E1 E2 H1]; subst. inversion H1; subst. eauto. }
  destruct (Rs 0) as [x H], (Rs (/ 1000000000)) as [x' H']. exists x, x'. split; [exact H|]. split; [exact H'|].
  refine (C124_tiny_currents_refuted no_spline 1 0 demo_asoh magnetised magnetised (at_ 0 0) (at_ 0 (/ 1000000000)) [at_ 10 0] [at_ 10 0] Nat.lt_0_1 (Fs _) (Fs _)
    _ _ H H' _ _ _ 0%nat (at_ 10 0) (at_ 10 0) x x' eq_refl eq_refl eq_refl eq_refl eq_refl eq_refl eq_refl _ _ _ _ _ _ _).
  - cbn. lra.
  - repeat split. cbn. lra.
  - repeat constructor; cbn; lra.
  - cbn. lra.
  - cbn. lra.
  - cbn. lra.
  - cbn. lra.
  - cbn. lra.
  - cbn [cell_of M_ demo_asoh h0 hys_sih]. unfold sih_at, num, row. cbn. lra.
  - cbn [cell_of M_ demo_asoh h0 hys_sih]. unfold sih_at, num, row. cbn. lra.
Qed.
