(** C127: the voltage stays within a band that the currents determine. *)
From Coq Require Import Reals List Arith Lia Lra.
Import ListNotations.
From Verif Require Import Res NdR Interp Simulator Spec_Simulator ECM Spec_ECM ECM_shapes ECM_member ECM_batch ECM_total ECM_physics
  Spec_Rest Rest_proofs Held_proofs Spec_Monotone Monotone_proofs Properties_ECM Properties_Rest Properties_Held Properties_Monotone.
Open Scope R_scope.

Section C127.
Variable spline : nat -> list R -> res (list R -> R -> R).
Notation simulation mode := (trajectory (ecm_model spline mode) no_degradation).

(** The resistance of the whole circuit at the state of charge z and temperature T. *)
Definition all_ohms (a : ecm_asoh) (b : nat) (z : R) (T : option R) : R :=
  res_at spline (r0 a) b z T + fold_right Rplus 0 (map (fun e => res_at spline (rc_r e) b z T) (rcs a)).
(** The voltage of the cell if nothing flows in it: its open circuit voltage and that of the
    series capacitor. *)
Definition at_rest (a : ecm_asoh) (b : nat) (s : ecm_state) (T : option R) : R :=
  ocv_at spline (oc a) b (num (soc s) b) T
  + match q0 s, c0 a with Some q, Some c => num q b / sih_at spline c b (num (soc s) b) | _, _ => 0 end.

Lemma weighted_bound I : forall i els z T, 0 <= I -> length i = length els -> Forall (fun y => - I <= y <= I) i ->
  Forall (fun e : (R -> option R -> R) * (R -> R) => 0 <= fst e z T) els ->
  Rabs (rc_sum i els z T) <= I * fold_right Rplus 0 (map (fun e => fst e z T) els).
Proof.
  induction i as [|y i IH]; intros [|e els] z T P L Fi Fe; try discriminate.
  - cbn [rc_sum map fold_right]. rewrite Rabs_R0. lra.
  - inversion Fi as [|? ? Hy Fi']; inversion Fe as [|? ? He Fe']; subst. cbn [rc_sum map fold_right].
    specialize (IH els z T P (eq_add_S _ _ L) Fi' Fe').
    eapply Rle_trans; [apply Rabs_triang|]. rewrite Rmult_plus_distr_l. apply Rplus_le_compat; [|exact IH].
    rewrite Rabs_mult, (Rabs_pos_eq (fst e z T)) by exact He. apply Rmult_le_compat_r; [exact He|]. now apply Rabs_le.
Qed.

(** In constant mode, from RC currents within the band, the voltage never differs from that at
    rest by more than the largest current times the resistance of the whole circuit, and the
    largest hysteresis. *)
Theorem C127_band : forall B b a s p us out I m k u x, (b < B)%nat -> fits B a s p us -> simulation Constant a s p us out ->
  positive_rc (cell_of spline a b) -> ordered (input_of p) (map input_of us) -> 0 <= I ->
  Forall (fun u => - I <= ui (input_of u) <= I) us ->
  (forall j, (j < length (rcs a))%nat -> - I <= row (i_rc s) b j <= I) ->
  0 <= num (ce a) b -> 0 <= num (hys_gamma (h0 a)) b -> 0 < num (q_base (q_t a)) b ->
  (forall v, 0 <= sih_at spline (hys_sih (h0 a)) b v <= m) -> Rabs (num (hyst s) b) <= m ->
  nth_error us k = Some u -> nth_error out k = Some x ->
  let z := num (soc (tr_of x)) b in let T := uT (input_of u) in
  0 <= res_at spline (r0 a) b z T -> Forall (fun e => 0 <= res_at spline (rc_r e) b z T) (rcs a) ->
  Rabs (num (out_of x) b - at_rest a b (tr_of x) T) <= I * all_ohms a b z T + m.
Proof.
  intros B b a s p us out I m k u x Hb F H Pr Or PI Iu Is Hc Hg Hq HM Hh Eu E z T P0 Ps.
  destruct (member_at spline Constant B b a s p us out k x u Hb F H E Eu) as (N & V & W).
  pose proof (C24_interval spline B b a s p us out (- I) I Hb F H Pr Or Iu Is x) as G1.
  pose proof (C27_bounded spline B b a s p us out m Hb F H Or Hc Hg Hq HM Hh x (nth_error_In _ _ E)) as G2.
  assert (Hi : Forall (fun y => - I <= y <= I) (xi (state_of (tr_of x) b))).
  { cbn [state_of xi]. apply Forall_map, Forall_forall. intros j Hj. apply in_seq in Hj. apply G1; [exact (nth_error_In _ _ E)|lia]. }
  rewrite V. unfold voltage. fold T. change (xsoc (state_of (tr_of x) b)) with z. change (xh (state_of (tr_of x) b)) with (num (hyst (tr_of x)) b).
  set (c := cell_of spline a b).
  assert (S : Rabs (rc_sum (xi (state_of (tr_of x) b)) (RC_ c) z T) <= I * fold_right Rplus 0 (map (fun e => fst e z T) (RC_ c))).
  { apply weighted_bound; [exact PI| |exact Hi|].
    - unfold c. cbn [state_of xi cell_of RC_]. rewrite !map_length, seq_length. exact W.
    - unfold c. cbn [cell_of RC_]. apply Forall_map. exact Ps. }
  unfold c in S at 2. cbn [cell_of RC_] in S. rewrite map_map in S. cbn [fst] in S.
  unfold at_rest, all_ohms. fold z. change (OCV_ c) with (ocv_at spline (oc a) b). change (R0_ c) with (res_at spline (r0 a) b).
  assert (C : match xq (state_of (tr_of x) b) with None => 0 | Some q => q / C0_ c z end =
              match q0 (tr_of x), c0 a with Some q, Some c => num q b / sih_at spline c b z | _, _ => 0 end).
  { unfold c. cbn [state_of xq cell_of C0_]. destruct (q0 (tr_of x)); cbn [option_map]; [|reflexivity]. destruct (c0 a); [reflexivity|].
    unfold Rdiv. now rewrite Rinv_0, Rmult_0_r. }
  rewrite C. set (y := match q0 _ with Some _ => _ | None => _ end). set (r := rc_sum _ _ _ _) in *. set (h := num (hyst (tr_of x)) b) in *. set (o := ocv_at _ _ _ _ _).
  replace (_ - _) with (ui (input_of u) * res_at spline (r0 a) b z T + r + h) by ring.
  assert (J : Rabs (ui (input_of u) * res_at spline (r0 a) b z T) <= I * res_at spline (r0 a) b z T).
  { rewrite Rabs_mult, (Rabs_pos_eq (res_at spline (r0 a) b z T)) by exact P0. apply Rmult_le_compat_r; [exact P0|]. apply Rabs_le.
    rewrite Forall_forall in Iu. exact (Iu u (nth_error_In _ _ Eu)). }
  eapply Rle_trans; [apply Rabs_triang|]. eapply Rle_trans; [apply Rplus_le_compat_r, Rabs_triang|]. rewrite Rmult_plus_distr_l. lra.
Qed.

Lemma moved mode c I e : 0 < Qs c -> 0 <= CE c <= e -> 1 <= e -> forall l k s p w X,
  nth_error (run mode c p s l) k = Some X -> ordered p l -> nth_error l k = Some w -> Forall (fun u => - I <= ui u <= I) (p :: l) ->
  Rabs (xsoc X - xsoc s) <= e * I * (ut w - ut p) / Qs c.
Proof.
  intros Q C He. induction l as [|u l IH]; intros k s p w X N Or Eu Iu; [destruct k; discriminate|].
  destruct Or as [Ht Or]. inversion Iu as [|? ? Ip Iu']; subst. inversion Iu' as [|? ? Ju _]; subst.
  assert (St : Rabs (xsoc (next mode c p u s) - xsoc s) <= e * I * (ut u - ut p) / Qs c).
  { assert (Pe : Rabs (efficiency c (ui p)) <= e).
    { unfold efficiency. destruct (Rlt_dec _ _); [rewrite Rabs_R1; lra|rewrite Rabs_pos_eq; lra]. }
    assert (Gen : forall q, Rabs q <= I * (ut u - ut p) -> Rabs (xsoc s + efficiency c (ui p) * q / Qs c - xsoc s) <= e * I * (ut u - ut p) / Qs c).
    { intros q Hq. replace (_ - _) with (efficiency c (ui p) * q * / Qs c) by (unfold Rdiv; ring).
      rewrite !Rabs_mult, (Rabs_pos_eq (/ Qs c)) by (left; now apply Rinv_0_lt_compat).
      unfold Rdiv. apply Rmult_le_compat_r; [left; now apply Rinv_0_lt_compat|]. rewrite (Rmult_assoc e). apply Rmult_le_compat; auto using Rabs_pos. }
    destruct mode; cbn [next next_constant next_linear xsoc]; apply Gen.
    - rewrite Rabs_mult, (Rabs_pos_eq (ut u - ut p)) by lra. apply Rmult_le_compat_r; [lra|]. now apply Rabs_le.
    - replace ((ut u - ut p) * (ui p + ui u) / 2) with ((ui p + ui u) / 2 * (ut u - ut p)) by field.
      rewrite Rabs_mult, (Rabs_pos_eq (ut u - ut p)) by lra. apply Rmult_le_compat_r; [lra|]. apply Rabs_le. lra. }
  cbn [run] in N. cbv zeta in N. destruct k as [|k]; cbn [nth_error] in N, Eu.
  - apply (f_equal (fun o => match o with Some y => xsoc y | None => 0 end)) in N. injection Eu as <-. rewrite <- N. exact St.
  - specialize (IH k _ u w X N Or Eu Iu').
    replace (xsoc X - xsoc s) with ((xsoc X - xsoc (next mode c p u s)) + (xsoc (next mode c p u s) - xsoc s)) by ring.
    eapply Rle_trans; [apply Rabs_triang|].
    replace (e * I * (ut w - ut p) / Qs c) with (e * I * (ut w - ut u) / Qs c + e * I * (ut u - ut p) / Qs c) by (field; lra).
    lra.
Qed.

(** The state of charge moves by no more than the largest current allows. *)
Theorem C127_charge : forall mode B b a s p us out I e k u x, (b < B)%nat -> fits B a s p us -> simulation mode a s p us out ->
  ordered (input_of p) (map input_of us) -> Forall (fun u => - I <= ui (input_of u) <= I) (p :: us) ->
  0 <= num (ce a) b <= e -> 1 <= e -> 0 < num (q_base (q_t a)) b ->
  nth_error us k = Some u -> nth_error out k = Some x ->
  Rabs (num (soc (tr_of x)) b - num (soc s) b) <= e * I * (ut (input_of u) - ut (input_of p)) / (3600 * num (q_base (q_t a)) b).
Proof.
  intros mode B b a s p us out I e k u x Hb F H Or Iu Hc He Hq Eu E.
  destruct (member_at spline mode B b a s p us out k x u Hb F H E Eu) as (N & _ & _).
  set (c := cell_of spline a b) in *. change (num (soc (tr_of x)) b) with (xsoc (state_of (tr_of x) b)). change (num (soc s) b) with (xsoc (state_of s b)).
  change (3600 * num (q_base (q_t a)) b) with (Qs c).
  assert (Q : 0 < Qs c) by (cbn; lra). assert (C : 0 <= CE c <= e) by exact Hc.
  assert (Eu' : nth_error (map input_of us) k = Some (input_of u)) by (now rewrite nth_error_map, Eu).
  assert (Iu' : Forall (fun u => - I <= ui u <= I) (input_of p :: map input_of us)).
  { inversion Iu; subst. constructor; [assumption|]. now apply Forall_map. }
  exact (moved mode c I e Q C He (map input_of us) k (state_of s b) (input_of p) (input_of u) (state_of (tr_of x) b) N Or Eu' Iu').
Qed.

(** In linear mode the RC currents leave the band: from rest and without current, a ramp that
    takes longer than the time constant ends with more current in the element than ever
    flowed through the cell. *)
Theorem C127_linear_refuted : forall B b a s p u out x j dflt, (b < B)%nat -> fits B a s p [u] -> simulation Linear a s p [u] out -> out = [x] ->
  (j < length (rcs a))%nat -> row (i_rc s) b j = 0 -> ui (input_of p) = 0 -> 0 < ui (input_of u) ->
  let e := nth j (rcs a) dflt in let tau := res_at spline (rc_r e) b (num (soc s) b) (uT (input_of p)) * sih_at spline (rc_c e) b (num (soc s) b) in
  0 < tau < ut (input_of u) - ut (input_of p) ->
  ui (input_of u) < row (i_rc (tr_of x)) b j.
Proof.
  intros B b a s p u out x j dflt Hb F H Eo Hj R0 I0 I1 e tau Ht. subst out.
  destruct (member_at spline Linear B b a s p [u] [x] 0%nat x u Hb F H eq_refl eq_refl) as (N & _ & W).
  assert (Cs : c2 (i_rc s) = length (rcs a)) by apply F.
  cbn [map run nth_error] in N. cbv zeta in N. apply (f_equal (fun o => match o with Some y => nth j (xi y) 0 | None => 0 end)) in N.
  change (next Linear) with next_linear in N. cbn [next_linear state_of xi cell_of RC_ xsoc] in N. rewrite Cs, W in N. symmetry in N.
  rewrite nth_indep with (d' := row (i_rc (tr_of x)) b 0%nat) in N by (now rewrite map_length, seq_length).
  rewrite (map_nth (row (i_rc (tr_of x)) b)), seq_nth in N by exact Hj. cbn [Nat.add] in N. rewrite N.
  set (f := fun y : R * ((R -> option R -> R) * (R -> R)) => _).
  set (dd := (row (i_rc s) b 0%nat, (res_at spline (rc_r dflt) b, sih_at spline (rc_c dflt) b))).
  rewrite nth_indep with (d' := f dd) by (rewrite map_length, combine_length, !map_length, seq_length; lia).
  rewrite (map_nth f). unfold dd. rewrite combine_nth by (now rewrite !map_length, seq_length).
  rewrite (map_nth (row (i_rc s) b)), seq_nth by exact Hj.
  rewrite (map_nth (fun c => (res_at spline (rc_r c) b, sih_at spline (rc_c c) b))). fold e. unfold f. cbn [fst snd Nat.add].
  change (xsoc (state_of s b)) with (num (soc s) b). fold tau. rewrite R0, I0. set (d := ut (input_of u) - ut (input_of p)) in *. set (i := ui (input_of u)) in *.
  unfold rc_ramp. replace ((i - 0) / d * d) with i by (field; lra).
  assert (0 < (1 - exp (- d / tau)) * (i - (i - 0) / d * tau)).
  { apply Rmult_lt_0_compat.
    - assert (exp (- d / tau) < exp 0); [|rewrite exp_0 in *; lra]. apply exp_increasing. unfold Rdiv. rewrite Ropp_mult_distr_l_reverse.
      assert (0 < d * / tau) by (apply Rmult_lt_0_compat; [lra|apply Rinv_0_lt_compat; lra]). lra.
    - replace (i - (i - 0) / d * tau) with (i * (d - tau) / d) by (field; lra). apply Rmult_lt_0_compat; [apply Rmult_lt_0_compat; lra|apply Rinv_0_lt_compat; lra]. }
  lra.
Qed.
End C127.
Print Assumptions C127_band.
Print Assumptions C127_charge.
Print Assumptions C127_linear_refuted.

(** * Cases: the demo cell under charge and discharge, and a ramp of 1000 s *)
Example C127_case : exists out x, let us := [at_ 10 (-2); at_ 20 1; at_ 30 2] in
  trajectory (ecm_model no_spline Constant) no_degradation demo_asoh demo_state (at_ 0 1) us out /\ nth_error out 2 = Some x /\
  Rabs (num (out_of x) 0 - at_rest no_spline demo_asoh 0 (tr_of x) None) <= 2 * all_ohms no_spline demo_asoh 0 (num (soc (tr_of x)) 0) None + / 10 /\
  Rabs (num (soc (tr_of x)) 0 - / 2) <= 1 * 2 * (30 - 0) / (3600 * num (q_base (q_t demo_asoh)) 0).
Proof.
  set (us := [at_ 10 (-2); at_ 20 1; at_ 30 2]).
  assert (Fs : fits 1 demo_asoh demo_state (at_ 0 1) us) by (apply demo_fits; [apply at_ok|repeat constructor]).
  destruct (demo_runs Constant demo_asoh demo_state us 0 1 Fs demo_usable) as [out H]; [discriminate|cbn; lra|].
  assert (L : exists x, nth_error out 2 = Some x).
  { inversion H as [|? ? ? ? ? ? ? ? ? ? r1 _ _ _ H1]; subst.
    inversion H1 as [|? ? ? ? ? ? ? ? ? ? r2 _ _ _ H2]; subst. inversion H2 as [|? ? ? ? ? ? ? ? ? ? r3 _ _ _ H3]; subst. eexists. reflexivity. }
  destruct L as [x Ex]. exists out, x. cbv zeta. split; [exact H|]. split; [exact Ex|].
  assert (V : forall y v, sih_at no_spline (one_value y) 0 v = y) by reflexivity.
  assert (O : forall y v T, res_at no_spline (ohms y) 0 v T = y).
  { intros y v [t|]; [|reflexivity]. unfold res_at. cbn [ohms res_sih res_fac res_tref]. rewrite V. change (num (sc 0) 0) with 0.
    rewrite Ropp_0, Rmult_0_l, exp_0. ring. }
  split.
  - refine (C127_band no_spline 1 0 demo_asoh demo_state (at_ 0 1) us out 2 (/ 10) 2%nat (at_ 30 2) x Nat.lt_0_1 Fs H _ _ _ _ _ _ _ _ _ _ eq_refl Ex _ _).
    + unfold positive_rc. cbn [cell_of RC_ rcs demo_asoh map rc_r rc_c]. repeat constructor; intros v T; cbn [fst snd]; rewrite O, V; lra.
    + cbn. lra.
    + lra.
    + repeat constructor; cbn; lra.
    + intros j Hj. cbn. lra.
    + cbn. lra.
    + cbn. lra.
    + cbn. lra.
    + intros v. cbn [demo_asoh h0 hys_sih]. rewrite V. lra.
    + cbn. rewrite Rabs_R0. lra.
    + cbn [demo_asoh r0]. rewrite O. lra.
    + cbn [demo_asoh rcs]. repeat constructor; cbn [rc_r]; rewrite O; lra.
  - refine (C127_charge no_spline Constant 1 0 demo_asoh demo_state (at_ 0 1) us out 2 1 2%nat (at_ 30 2) x Nat.lt_0_1 Fs H _ _ _ _ _ eq_refl Ex).
    + cbn. lra.
    + repeat constructor; cbn; lra.
    + cbn. lra.
    + lra.
    + cbn. lra.
Qed.
Print Assumptions C127_case.
Example C127_linear_case : exists x,
  trajectory (ecm_model no_spline Linear) no_degradation demo_asoh demo_state (at_ 0 0) [at_ 100000 1] [x] /\ 1 < row (i_rc (tr_of x)) 0 0.
Proof.
  assert (Fs : fits 1 demo_asoh demo_state (at_ 0 0) [at_ 100000 1]) by (apply demo_fits; [apply at_ok|repeat constructor]).
  destruct (demo_runs Linear demo_asoh demo_state [at_ 100000 1] 0 0 Fs demo_usable) as [out H]; [discriminate|cbn; lra|].
  inversion H as [|? ? ? ? ? ? ? ? ? ? r1 E0 E1 E2 H1]; subst. inversion H1; subst. eexists. split; [exact H|].
  refine (C127_linear_refuted no_spline 1 0 demo_asoh demo_state (at_ 0 0) (at_ 100000 1) _ _ 0%nat (hd {| rc_r := ohms 1; rc_c := one_value 1 |} (rcs demo_asoh)) Nat.lt_0_1 Fs H eq_refl _ _ _ _ _).
  - cbn. lia.
  - reflexivity.
  - reflexivity.
  - cbn. lra.
  - cbn [demo_asoh rcs nth rc_r rc_c]. change (res_at no_spline (ohms ?y) 0 ?v (uT (input_of (at_ 0 0)))) with y. unfold sih_at. cbn. lra.
Qed.
Print Assumptions C127_linear_case.
