(** C23-C30, C33, C34: how the equivalent circuit model moves its state and what
    voltage it reports, for circuits with any number of RC elements, any batch
    size B and any sequence of inputs.

    [trajectory (ecm_model spline mode) no_degradation a s p us out] is a
    simulation of health [a] from state [s] and previous input [p] under the
    inputs [us] (Spec_Simulator.v); member b of a batch is read by [num], [row],
    [state_of] and [cell_of] (Spec_ECM.v). *)
From Coq Require Import Reals List Arith ZArith Lia Lra Bool.
Import ListNotations.
From Verif Require Import Res Container NdR Interp Spec_Interp Interp_proofs Simulator Spec_Simulator
  ECM Spec_ECM ECM_shapes ECM_member ECM_update ECM_voltage ECM_batch ECM_physics ECM_energy ECM_total.
Open Scope R_scope.

(** Arrays have one row or B rows, columns where columns are expected, as many RC
    currents as RC elements, and the inputs are not batched. *)
Definition fits (B : nat) (a : ecm_asoh) (s : ecm_state) (p : ecm_input) (us : list ecm_input) : Prop :=
  asoh_ok B a /\ state_ok B (length (rcs a)) s /\ input_ok p /\ Forall input_ok us.

Lemma mk_fits B a s p us : asoh_ok B a -> state_ok B (length (rcs a)) s -> input_ok p -> Forall input_ok us -> fits B a s p us.
Proof. unfold fits. auto. Qed.

(** ** A circuit to try the theorems on: two RC elements, series capacitor,
    SOC-dependent OCV on the default grid, unbatched. *)
Definition no_spline : nat -> list R -> res (list R -> R -> R) := fun _ _ => Err ValueError.
Definition one_value (x : R) : sih := {| sv := sc x; spin := None; sstyle := None |}.
Definition ohms (x : R) : resistance := {| res_sih := one_value x; res_tref := Some 25; res_fac := sc 0 |}.
Definition demo_asoh : ecm_asoh :=
  {| q_t := {| q_base := sc 10 |}; ce := sc 1;
     oc := {| ocv_ref := {| sv := T2 1 3 (fun _ j => match j with 0%nat => 3 | 1%nat => 7 / 2 | _ => 4 end);
                            spin := None; sstyle := None |};
              ocv_tref := sc 25; ocv_ent := one_value 0 |};
     r0 := ohms (/ 100); c0 := Some (one_value 1000);
     rcs := [{| rc_r := ohms (/ 100); rc_c := one_value 2500 |}; {| rc_r := ohms (/ 50); rc_c := one_value 5000 |}];
     h0 := {| hys_sih := one_value (/ 10); hys_gamma := sc 50 |} |}.
Definition demo_state : ecm_state :=
  {| soc := sc (/ 2); q0 := Some (sc 0); i_rc := T2 1 2 (fun _ _ => 0); hyst := sc 0 |}.
Definition at_ (t i : R) : ecm_input := {| time := sc t; current := sc i; temperature := None |}.

Lemma demo_fits us p : input_ok p -> Forall input_ok us -> fits 1 demo_asoh demo_state p us.
Proof.
  intros Hp Hu. split; [|split; [|now split]].
  - repeat split; cbn; auto; try (now left). repeat constructor; cbn; auto.
  - repeat split; cbn; auto; now left.
Qed.
Lemma demo_usable : usable_asoh no_spline demo_asoh.
Proof.
  assert (forall x, usable no_spline (one_value x)) as U by (now left).
  repeat split; cbn; try apply U; try discriminate.
  - right. repeat split; cbn; try lia; discriminate.
  - repeat constructor; cbn; try apply U; discriminate.
Qed.
Lemma at_ok t i : input_ok (at_ t i).
Proof. repeat split. Qed.

Section Dynamics.
  Variable spline : nat -> list R -> res (list R -> R -> R).
  Notation simulation mode := (trajectory (ecm_model spline mode) no_degradation).

  Lemma at_step mode B b a s p us out k x : (b < B)%nat -> fits B a s p us -> simulation mode a s p us out ->
    nth_error out k = Some x ->
    nth_error (run mode (cell_of spline a b) (input_of p) (state_of s b) (map input_of us)) k = Some (state_of (tr_of x) b).
  Proof.
    intros Hb (Ha & Hs & Hp & Hu) H E. destruct (trajectory_run spline mode B b Hb us p s a out Ha Hs Hp Hu H) as (N & _).
    rewrite <- N. now rewrite nth_error_map, E.
  Qed.

  (** A single update, for member b. *)
  Lemma one_step mode B b a s p u s' : (b < B)%nat -> fits B a s p [u] ->
    update_transient_state spline mode p u s a = Ok s' ->
    state_of s' b = next mode (cell_of spline a b) (input_of p) (input_of u) (state_of s b) /\
    state_ok B (length (rcs a)) s'.
  Proof.
    intros Hb (Ha & Hs & Hp & Hu) E. inversion Hu as [|? ? Hu' _]; subst.
    destruct (update_rel spline B b Hb mode p u s a Ha Hs Hp Hu' (update_can spline _ _ _ _ _ _ Hp Hu' E)) as (s1 & E1 & O & N).
    rewrite E1 in E. injection E as ->. auto.
  Qed.

  (** ** C82. Simulations of circuits that are not batched never raise. *)
  Theorem C82_unbatched_never_raises : forall mode a s p us,
    fits 1 a s p us -> usable_asoh spline a -> (q0 s <> None -> c0 a <> None) ->
    (mode = Linear -> distinct_times (input_of p) (map input_of us)) ->
    exists out, simulation mode a s p us out.
  Proof. intros mode a s p us (Ha & Hs & Hp & Hu) Ua HC HT. now apply trajectory_total. Qed.

  (** ** C23. Coulomb counting *)
  Theorem C23_soc : forall mode B b a s p us out k x, (b < B)%nat -> fits B a s p us ->
    simulation mode a s p us out -> nth_error out k = Some x ->
    let eff u := if Rlt_dec (ui u) 0 then 1 else num (ce a) b in
    num (soc (tr_of x)) b = num (soc s) b +
      total (fun prev u => eff prev * step_charge mode prev u) (input_of p) (map input_of (firstn (S k) us))
      / (3600 * num (q_base (q_t a)) b).
  Proof.
    intros mode B b a s p us out k x Hb F H E eff. pose proof (at_step _ _ _ _ _ _ _ _ _ _ Hb F H E) as N.
    apply run_soc in N as [N _]. cbn [state_of xsoc] in N. rewrite firstn_map in N. exact N.
  Qed.
  Theorem C23_series_capacitor : forall mode B b a s p us out k x, (b < B)%nat -> fits B a s p us ->
    simulation mode a s p us out -> nth_error out k = Some x ->
    option_map (fun q => num q b) (q0 (tr_of x)) =
    option_map (fun q => num q b + total (step_charge mode) (input_of p) (map input_of (firstn (S k) us))) (q0 s).
  Proof.
    intros mode B b a s p us out k x Hb F H E. pose proof (at_step _ _ _ _ _ _ _ _ _ _ Hb F H E) as N.
    apply run_soc in N as [_ N]. cbn [state_of xq] in N. rewrite firstn_map in N. rewrite N. now destruct (q0 s).
  Qed.

  (** ** C24. RC currents in constant mode *)

  (** They stay in every interval containing the initial values and the currents. *)
  Theorem C24_interval : forall B b a s p us out lo hi, (b < B)%nat -> fits B a s p us ->
    simulation Constant a s p us out ->
    positive_rc (cell_of spline a b) -> ordered (input_of p) (map input_of us) ->
    Forall (fun u => lo <= ui (input_of u) <= hi) us ->
    (forall j, (j < length (rcs a))%nat -> lo <= row (i_rc s) b j <= hi) ->
    forall x j, In x out -> (j < length (rcs a))%nat -> lo <= row (i_rc (tr_of x)) b j <= hi.
  Proof.
    intros B b a s p us out lo hi Hb (Ha & Hs & Hp & Hu) H Pr Or Iu Is x j Hx Hj.
    destruct (trajectory_run spline Constant B b Hb us p s a out Ha Hs Hp Hu H) as (N & _ & Sh).
    pose proof (run_rc_bounds (cell_of spline a b) lo hi Pr (map input_of us) (input_of p) (state_of s b) Or) as G.
    rewrite <- N in G.
    assert (G1 : Forall (fun u => lo <= ui u <= hi) (map input_of us)) by (now apply Forall_map).
    assert (G2 : Forall (fun i => lo <= i <= hi) (xi (state_of s b))).
    { cbn. apply Forall_map. rewrite (proj2 (proj1 (proj2 (proj2 Hs)))). apply Forall_forall. intros k Hk. apply in_seq in Hk.
      apply Is. lia. }
    specialize (G G1 G2). rewrite Forall_map, Forall_forall in G. specialize (G x Hx). cbn in G. rewrite Forall_map, Forall_forall in G.
    apply G. rewrite Forall_forall in Sh. specialize (Sh x Hx). rewrite (proj2 (proj1 (proj2 (proj2 Sh)))). apply in_seq. lia.
  Qed.

  (** One step: the convex combination with weight exp(-dt/tau). *)
  Theorem C24_one_step : forall B b a s p u s' j dflt, (b < B)%nat -> fits B a s p [u] ->
    update_transient_state spline Constant p u s a = Ok s' -> (j < length (rcs a))%nat ->
    let e := exp (- (ut (input_of u) - ut (input_of p)) /
                  (res_at spline (rc_r (nth j (rcs a) dflt)) b (num (soc s) b) (uT (input_of p)) *
                   sih_at spline (rc_c (nth j (rcs a) dflt)) b (num (soc s) b))) in
    row (i_rc s') b j = e * row (i_rc s) b j + (1 - e) * ui (input_of u).
  Proof.
    intros B b a s p u s' j dflt Hb F E Hj e. destruct (one_step _ _ _ _ _ _ _ _ Hb F E) as [N O].
    destruct F as (Ha & Hs & _).
    destruct O as (_ & _ & [_ C'] & _). destruct Hs as (_ & _ & [_ C] & _).
    apply (f_equal (fun st => nth j (xi st) 0)) in N. cbn [state_of xi next next_constant cell_of RC_] in N.
    rewrite C, C' in N.
    rewrite nth_indep with (d' := row (i_rc s') b 0%nat) in N by (now rewrite map_length, seq_length).
    rewrite (map_nth (row (i_rc s') b)), seq_nth in N by exact Hj. cbn [Nat.add] in N. rewrite N.
    set (f := fun x : R * ((R -> option R -> R) * (R -> R)) => _).
    set (l := combine _ _).
    assert (L : length l = length (rcs a)) by (unfold l; rewrite combine_length, !map_length, seq_length; lia).
    set (d := (row (i_rc s) b 0%nat, (res_at spline (rc_r dflt) b, sih_at spline (rc_c dflt) b))).
    rewrite nth_indep with (d' := f d) by (rewrite map_length; lia). rewrite (map_nth f).
    unfold l, d. rewrite combine_nth by (now rewrite !map_length, seq_length).
    rewrite (map_nth (row (i_rc s) b)), seq_nth by exact Hj. cbn [Nat.add].
    rewrite (map_nth (fun c => (res_at spline (rc_r c) b, sih_at spline (rc_c c) b))).
    unfold f. cbn [fst snd]. unfold rc_relax. fold e. reflexivity.
  Qed.

  (** A step of no duration changes no RC current. *)
  Theorem C24_zero_step : forall B b a s p u s' j, (b < B)%nat -> fits B a s p [u] ->
    update_transient_state spline Constant p u s a = Ok s' -> (j < length (rcs a))%nat ->
    ut (input_of u) = ut (input_of p) -> row (i_rc s') b j = row (i_rc s) b j.
  Proof.
    intros B b a s p u s' j Hb F E Hj T.
    rewrite (C24_one_step B b a s p u s' j {| rc_r := r0 a; rc_c := hys_sih (h0 a) |} Hb F E Hj), T, Rminus_diag_eq by reflexivity.
    unfold Rdiv. rewrite Ropp_0, Rmult_0_l, exp_0. ring.
  Qed.

  (** Splitting a step at an intermediate input with the same current and
      temperature, the RC parameters not depending on the SOC. *)
  Theorem C24_split : forall B b a s p m u s1 s2 s' j, (b < B)%nat -> fits B a s p [m; u] ->
    ui (input_of m) = ui (input_of u) -> uT (input_of m) = uT (input_of p) ->
    (forall c v w T, In c (rcs a) -> res_at spline (rc_r c) b v T = res_at spline (rc_r c) b w T /\
                                  sih_at spline (rc_c c) b v = sih_at spline (rc_c c) b w) ->
    update_transient_state spline Constant p m s a = Ok s1 ->
    update_transient_state spline Constant m u s1 a = Ok s2 ->
    update_transient_state spline Constant p u s a = Ok s' ->
    (j < length (rcs a))%nat -> row (i_rc s2) b j = row (i_rc s') b j.
  Proof.
    intros B b a s p m u s1 s2 s' j Hb (Ha & Hs & Hp & Hu) EI ET HC E1 E2 E3 Hj.
    inversion Hu as [|? ? Hm Hu']; subst.
    set (d := {| rc_r := r0 a; rc_c := hys_sih (h0 a) |}).
    assert (F1 : fits B a s p [m]) by (apply mk_fits; auto).
    assert (F3 : fits B a s p [u]) by (apply mk_fits; auto).
    destruct (one_step _ _ _ _ _ _ _ _ Hb F1 E1) as [_ O1].
    assert (F2 : fits B a s1 m [u]) by (apply mk_fits; auto).
    rewrite (C24_one_step B b a s1 m u s2 j d Hb F2 E2 Hj), (C24_one_step B b a s p m s1 j d Hb F1 E1 Hj),
      (C24_one_step B b a s p u s' j d Hb F3 E3 Hj), EI, ET.
    destruct (HC (nth j (rcs a) d) (num (soc s1) b) (num (soc s) b) (uT (input_of p)) (nth_In _ _ Hj)) as [-> ->].
    set (tau := res_at spline _ b _ _ * _). set (I := ui (input_of u)). set (i := row (i_rc s) b j).
    pose proof (rc_relax_split tau (ut (input_of m) - ut (input_of p)) (ut (input_of u) - ut (input_of m)) I i) as S.
    replace (ut (input_of m) - ut (input_of p) + (ut (input_of u) - ut (input_of m))) with (ut (input_of u) - ut (input_of p)) in S by ring.
    unfold rc_relax in S. symmetry. exact S.
  Qed.

  (** ** C25. RC currents in linear mode *)

  (** Whatever solves the circuit equation tau i' = I(t) - i with the ramped
      current, the model ends slope * dt * (1 - exp(-dt/tau)) above it. *)
  Theorem C25_error : forall B b a s p u s' j dflt f, (b < B)%nat -> fits B a s p [u] ->
    update_transient_state spline Linear p u s a = Ok s' -> (j < length (rcs a))%nat ->
    let d := ut (input_of u) - ut (input_of p) in
    let slope := (ui (input_of u) - ui (input_of p)) / d in
    let tau := res_at spline (rc_r (nth j (rcs a) dflt)) b (num (soc s) b) (uT (input_of p)) *
               sih_at spline (rc_c (nth j (rcs a) dflt)) b (num (soc s) b) in
    0 < d -> tau <> 0 ->
    (forall t, 0 <= t <= d -> continuity_pt f t) ->
    (forall t, 0 < t < d -> derivable_pt_lim f t ((ui (input_of p) + slope * t - f t) / tau)) ->
    f 0 = row (i_rc s) b j ->
    row (i_rc s') b j = f d + slope * d * (1 - exp (- d / tau)).
  Proof.
    intros B b a s p u s' j dflt f Hb F E Hj d slope tau Hd Ht Cf Df F0.
    destruct (one_step _ _ _ _ _ _ _ _ Hb F E) as [N O].
    destruct F as (Ha & Hs & _).
    destruct O as (_ & _ & [_ C'] & _). destruct Hs as (_ & _ & [_ C] & _).
    apply (f_equal (fun st => nth j (xi st) 0)) in N. cbn [state_of xi next next_linear cell_of RC_] in N.
    rewrite C, C' in N.
    rewrite nth_indep with (d' := row (i_rc s') b 0%nat) in N by (now rewrite map_length, seq_length).
    rewrite (map_nth (row (i_rc s') b)), seq_nth in N by exact Hj. cbn [Nat.add] in N. rewrite N.
    set (g := fun x : R * ((R -> option R -> R) * (R -> R)) => _).
    set (l := combine _ _).
    assert (L : length l = length (rcs a)) by (unfold l; rewrite combine_length, !map_length, seq_length; lia).
    set (dd := (row (i_rc s) b 0%nat, (res_at spline (rc_r dflt) b, sih_at spline (rc_c dflt) b))).
    rewrite nth_indep with (d' := g dd) by (rewrite map_length; lia). rewrite (map_nth g).
    unfold l, dd. rewrite combine_nth by (now rewrite !map_length, seq_length).
    rewrite (map_nth (row (i_rc s) b)), seq_nth by exact Hj. cbn [Nat.add].
    rewrite (map_nth (fun c => (res_at spline (rc_r c) b, sih_at spline (rc_c c) b))).
    unfold g. cbn [fst snd state_of xsoc]. fold tau d slope.
    rewrite (rc_exact_unique tau (ui (input_of p)) slope (row (i_rc s) b j) d f Ht Hd Cf Df F0).
    rewrite <- rc_ramp_error. f_equal. unfold slope. field. lra.
  Qed.
  (** The error is zero for constant current and never zero otherwise. *)
  Theorem C25_wrong_unless_constant : forall B b a s p u s' j dflt f, (b < B)%nat -> fits B a s p [u] ->
    update_transient_state spline Linear p u s a = Ok s' -> (j < length (rcs a))%nat ->
    let d := ut (input_of u) - ut (input_of p) in
    let slope := (ui (input_of u) - ui (input_of p)) / d in
    let tau := res_at spline (rc_r (nth j (rcs a) dflt)) b (num (soc s) b) (uT (input_of p)) *
               sih_at spline (rc_c (nth j (rcs a) dflt)) b (num (soc s) b) in
    0 < d -> 0 < tau ->
    (forall t, 0 <= t <= d -> continuity_pt f t) ->
    (forall t, 0 < t < d -> derivable_pt_lim f t ((ui (input_of p) + slope * t - f t) / tau)) ->
    f 0 = row (i_rc s) b j ->
    (row (i_rc s') b j = f d <-> ui (input_of u) = ui (input_of p)).
  Proof.
    intros B b a s p u s' j dflt f Hb F E Hj d slope tau Hd Ht Cf Df F0.
    rewrite (C25_error B b a s p u s' j dflt f Hb F E Hj Hd ltac:(fold tau; lra) Cf Df F0). fold d slope tau.
    assert (0 < 1 - exp (- d / tau)) as P.
    { assert (- d / tau < 0) as K.
      { replace (- d / tau) with (- (d / tau)) by (unfold Rdiv; ring). assert (0 < d / tau) by (apply Rdiv_lt_0_compat; auto). lra. }
      apply exp_increasing in K. rewrite exp_0 in K. lra. }
    assert (slope * d = ui (input_of u) - ui (input_of p)) as -> by (unfold slope; field; lra).
    split; intros K; [|rewrite K; ring]. nra.
  Qed.

  (** ** C26. The previous current moves the charge, the new one the RC branches *)
  Theorem C26_previous_current : forall B b a s p u u' s1 s2, (b < B)%nat -> fits B a s p [u; u'] ->
    ut (input_of u) = ut (input_of u') ->
    update_transient_state spline Constant p u s a = Ok s1 ->
    update_transient_state spline Constant p u' s a = Ok s2 ->
    num (soc s1) b = num (soc s2) b /\ num (hyst s1) b = num (hyst s2) b /\
    option_map (fun q => num q b) (q0 s1) = option_map (fun q => num q b) (q0 s2).
  Proof.
    intros B b a s p u u' s1 s2 Hb (Ha & Hs & Hp & Hu) ET E1 E2.
    inversion Hu as [|? ? H1 Hu']; subst. inversion Hu' as [|? ? H2 _]; subst.
    destruct (one_step Constant B b a s p u s1 Hb) as [N1 _]; [apply mk_fits; auto|auto|].
    destruct (one_step Constant B b a s p u' s2 Hb) as [N2 _]; [apply mk_fits; auto|auto|].
    unfold next, next_constant in N1, N2. rewrite <- ET in N2. injection N1 as A1 A2 _ A4. injection N2 as B1 B2 _ B4.
    rewrite A1, B1, A2, B2, A4, B4. auto.
  Qed.
  Theorem C26_new_current : forall B b a s p p' u s1 s2, (b < B)%nat ->
    fits B a s p [u] -> fits B a s p' [u] ->
    ut (input_of p) = ut (input_of p') -> uT (input_of p) = uT (input_of p') ->
    update_transient_state spline Constant p u s a = Ok s1 ->
    update_transient_state spline Constant p' u s a = Ok s2 ->
    forall j, (j < length (rcs a))%nat -> row (i_rc s1) b j = row (i_rc s2) b j.
  Proof.
    intros B b a s p p' u s1 s2 Hb F F' ET ETT E1 E2 j Hj.
    set (d := {| rc_r := r0 a; rc_c := hys_sih (h0 a) |}).
    rewrite (C24_one_step B b a s p u s1 j d Hb F E1 Hj), (C24_one_step B b a s p' u s2 j d Hb F' E2 Hj), ET, ETT.
    reflexivity.
  Qed.
  (** The step agrees with that of one current I throughout only if both are I. *)
  Theorem C26_single_current : forall B b a s p u pI uI s1 s2 I, (b < B)%nat ->
    fits B a s p [u] -> fits B a s pI [uI] ->
    ut (input_of pI) = ut (input_of p) -> ut (input_of uI) = ut (input_of u) -> uT (input_of pI) = uT (input_of p) ->
    ui (input_of pI) = I -> ui (input_of uI) = I ->
    update_transient_state spline Constant p u s a = Ok s1 ->
    update_transient_state spline Constant pI uI s a = Ok s2 ->
    ut (input_of p) < ut (input_of u) -> 0 < num (ce a) b -> 0 < num (q_base (q_t a)) b ->
    rcs a <> [] -> positive_rc (cell_of spline a b) ->
    (state_of s1 b = state_of s2 b <-> ui (input_of p) = I /\ ui (input_of u) = I).
  Proof.
    intros B b a s p u pI uI s1 s2 I Hb F F' T1 T2 T3 I1 I2 E1 E2 Hd Hce Hq Hr Hp.
    destruct (one_step _ _ _ _ _ _ _ _ Hb F E1) as [N1 _]. destruct (one_step _ _ _ _ _ _ _ _ Hb F' E2) as [N2 _].
    split.
    - intros E. rewrite N1, N2 in E. unfold next, next_constant in E. rewrite T1, T2, T3, I1, I2 in E.
      pose proof (f_equal xsoc E) as A1. pose proof (f_equal xi E) as A3. clear E. cbn [xsoc xi] in A1, A3.
      set (d := ut (input_of u) - ut (input_of p)) in *. assert (Pd : 0 < d) by (unfold d; lra).
      cbn [cell_of Qs] in A1. set (Q := 3600 * num (q_base (q_t a)) b) in *.
      assert (PQ : 0 < Q) by (unfold Q; lra). split.
      + apply Rplus_eq_reg_l in A1. unfold Rdiv in A1. apply Rmult_eq_reg_r in A1; [|apply Rinv_neq_0_compat; lra].
        rewrite <- !Rmult_assoc in A1. apply Rmult_eq_reg_r in A1; [|lra].
        unfold efficiency in A1. cbn [cell_of CE] in A1.
        destruct (Rlt_dec (ui (input_of p)) 0), (Rlt_dec I 0); [lra|exfalso; nra|exfalso; nra|].
        apply Rmult_eq_reg_l in A1; [exact A1|lra].
      + set (dflt := {| rc_r := r0 a; rc_c := hys_sih (h0 a) |}).
        assert (Hj : (0 < length (rcs a))%nat) by (destruct (rcs a); [contradiction|cbn; lia]).
        pose proof (C24_one_step B b a s p u s1 0 dflt Hb F E1 Hj) as R1.
        pose proof (C24_one_step B b a s pI uI s2 0 dflt Hb F' E2 Hj) as R2.
        rewrite T1, T2, T3, I2 in R2. cbn zeta in R1, R2. fold d in R1, R2.
        set (tau := res_at spline _ b _ _ * _) in R1, R2.
        assert (PT : 0 < tau).
        { unfold tau. unfold positive_rc in Hp. cbn [cell_of RC_] in Hp. rewrite Forall_map, Forall_forall in Hp.
          apply Hp. now apply nth_In. }
        assert (row (i_rc s1) b 0 = row (i_rc s2) b 0) as R.
        { assert (xi (state_of s1 b) = xi (state_of s2 b)) as X by (rewrite N1, N2; cbn [next next_constant xi]; rewrite T1, T2, T3, I2; exact A3).
          destruct F as (Ha & Hs & Hpp & Hu). inversion Hu as [|? ? Hu1 _]; subst.
          destruct (one_step Constant B b a s p u s1 Hb) as [_ (_ & _ & [_ C1] & _)]; [apply mk_fits; auto|auto|].
          destruct (one_step Constant B b a s pI uI s2 Hb F' E2) as [_ (_ & _ & [_ C2] & _)].
          cbn [state_of xi] in X. rewrite C1, C2 in X. destruct (length (rcs a)); [lia|]. cbn in X. now injection X. }
        assert (exp (- d / tau) < 1) as P.
        { assert (- d / tau < 0) as K.
          { replace (- d / tau) with (- (d / tau)) by (unfold Rdiv; ring). assert (0 < d / tau) by (apply Rdiv_lt_0_compat; auto). lra. }
          apply exp_increasing in K. rewrite exp_0 in K. lra. }
        rewrite R1, R2 in R. nra.
    - intros [K1 K2]. rewrite N1, N2. unfold next, next_constant. rewrite T1, T2, T3, I1, I2, K1, K2. reflexivity.
  Qed.

  (** ** C27. Hysteresis in constant mode *)
  Theorem C27_bounded : forall B b a s p us out m, (b < B)%nat -> fits B a s p us ->
    simulation Constant a s p us out -> ordered (input_of p) (map input_of us) ->
    0 <= num (ce a) b -> 0 <= num (hys_gamma (h0 a)) b -> 0 < num (q_base (q_t a)) b ->
    (forall v, 0 <= sih_at spline (hys_sih (h0 a)) b v <= m) ->
    Rabs (num (hyst s) b) <= m -> forall x, In x out -> Rabs (num (hyst (tr_of x)) b) <= m.
  Proof.
    intros B b a s p us out m Hb (Ha & Hs & Hp & Hu) H Or H1 H2 H3 HM Hh x Hx.
    destruct (trajectory_run spline Constant B b Hb us p s a out Ha Hs Hp Hu H) as (N & _ & _).
    pose proof (run_hyst_bounds (cell_of spline a b) m H1 H2 ltac:(cbn; lra) HM (map input_of us) (input_of p) (state_of s b) Or Hh) as G.
    rewrite <- N, Forall_map, Forall_forall in G. exact (G x Hx).
  Qed.
  Theorem C27_zero_current : forall B b a s p u s', (b < B)%nat -> fits B a s p [u] ->
    update_transient_state spline Constant p u s a = Ok s' ->
    ui (input_of p) = 0 -> num (hyst s') b = num (hyst s) b.
  Proof.
    intros B b a s p u s' Hb F E I0. destruct (one_step _ _ _ _ _ _ _ _ Hb F E) as [N _].
    apply (f_equal xh) in N. cbn [next next_constant state_of xh] in N. rewrite N, I0, Rabs_R0, Rmult_0_l, Rmult_0_r.
    apply approach_0.
  Qed.
  (** Charging moves it a fraction of the way to +M, discharging to -M. *)
  Theorem C27_monotone : forall B b a s p u s', (b < B)%nat -> fits B a s p [u] ->
    update_transient_state spline Constant p u s a = Ok s' -> ut (input_of p) <= ut (input_of u) ->
    0 <= num (ce a) b -> 0 <= num (hys_gamma (h0 a)) b -> 0 < num (q_base (q_t a)) b ->
    let M := sih_at spline (hys_sih (h0 a)) b (num (soc s) b) in
    exists w, 0 <= w < 1 /\
      (/ 100000000 < ui (input_of p) -> num (hyst s') b = num (hyst s) b + w * (M - num (hyst s) b)) /\
      (ui (input_of p) < - / 100000000 -> num (hyst s') b = num (hyst s) b + w * (- M - num (hyst s) b)).
  Proof.
    intros B b a s p u s' Hb F E Hd H1 H2 H3 M. destruct (one_step _ _ _ _ _ _ _ _ Hb F E) as [N _].
    apply (f_equal xh) in N. cbn [next next_constant state_of xh] in N. rewrite N. clear N.
    set (c := cell_of spline a b). change (M_ c (xsoc (state_of s b))) with M.
    set (x := efficiency _ _ * _ / _ * _).
    assert (Hx : 0 <= x).
    { apply Rmult_le_pos; [apply rate_nonneg; auto; cbn; lra|]. apply Rmult_le_pos; [apply Rabs_pos|lra]. }
    destruct (exp_neg_01 x Hx). exists (1 - exp (- x)). split; [lra|]. split; intros HI.
    - rewrite asymptote_pos by exact HI. change (M_ c (xsoc (state_of s b))) with M. unfold approach. ring.
    - rewrite asymptote_neg by exact HI. change (M_ c (xsoc (state_of s b))) with M. unfold approach. ring.
  Qed.

  (** ** C28. A positive current ramping to zero or below drives hysteresis away *)
  Theorem C28_distance_grows : forall B b a s p u s', (b < B)%nat -> fits B a s p [u] ->
    update_transient_state spline Linear p u s a = Ok s' ->
    ut (input_of p) < ut (input_of u) -> / 100000000 < ui (input_of p) -> ui (input_of u) <= 0 ->
    0 < num (ce a) b -> 0 < num (hys_gamma (h0 a)) b -> 0 < num (q_base (q_t a)) b ->
    let M := sih_at spline (hys_sih (h0 a)) b (num (soc s) b) in
    exists x mid, 0 < x /\ mid - M = exp x * (num (hyst s) b - M) /\
      (ui (input_of u) = 0 -> num (hyst s') b = mid) /\
      (ui (input_of u) < 0 -> exists y, 0 < y /\ num (hyst s') b - - M = exp (- y) * (mid - - M)).
  Proof.
    intros B b a s p u s' Hb F E Hd HI HJ H1 H2 H3 M. destruct (one_step _ _ _ _ _ _ _ _ Hb F E) as [N _].
    apply (f_equal xh) in N. cbn [next next_linear state_of xh] in N. set (c := cell_of spline a b) in *.
    set (I := ui (input_of p)) in *. set (J := ui (input_of u)) in *. set (d := ut (input_of u) - ut (input_of p)) in *.
    assert (Pd : 0 < d) by (unfold d; lra).
    rewrite efficiency_nn in N by lra. rewrite asymptote_pos in N by exact HI. change (M_ c _) with M in N.
    set (k := CE c * G_ c / Qs c) in *.
    assert (Pk : 0 < k).
    { unfold k, c. cbn. apply Rdiv_lt_0_compat; [|lra]. now apply Rmult_lt_0_compat. }
    destruct (Rle_dec 0 (I * J)) as [L|L].
    - assert (J = 0) by nra. unfold ramp_piece in N. destruct (Rlt_dec 0 J); [lra|].
      exists (k * (d * I / 2)), (num (hyst s') b). split; [|split; [rewrite N, approach_dist|split; [auto|intros; lra]]].
      + apply Rmult_lt_0_compat; [auto|]. apply Rmult_lt_0_compat; [nra|lra].
      + rewrite Ropp_involutive, H. f_equal. f_equal. f_equal. f_equal. field.
    - assert (HJ' : J < 0) by (destruct (Rle_lt_dec 0 J); [exfalso; apply L; nra|auto]).
      set (sl := (J - I) / d) in *. set (t0 := - I / sl) in *.
      assert (Hsl : sl < 0).
      { unfold sl. apply Rmult_lt_reg_r with d; [auto|]. unfold Rdiv. rewrite Rmult_assoc, Rinv_l by lra. lra. }
      assert (Et : t0 = d * I / (I - J)) by (unfold t0, sl; field; lra).
      assert (P0 : 0 < t0) by (rewrite Et; apply Rdiv_lt_0_compat; nra).
      assert (P1 : 0 < d - t0).
      { replace (d - t0) with (d * - J / (I - J)) by (rewrite Et; field; lra). apply Rdiv_lt_0_compat; nra. }
      unfold ramp_piece in N at 1. destruct (Rlt_dec 0 J); [lra|]. unfold ramp_piece in N. destruct (Rlt_dec 0 0); [lra|].
      exists (k * (t0 * I / 2)), (approach M (- (k * (t0 * I / 2))) (num (hyst s) b)). split; [|split; [|split]].
      + apply Rmult_lt_0_compat; [auto|]. apply Rmult_lt_0_compat; [nra|lra].
      + rewrite approach_dist, Ropp_involutive. reflexivity.
      + intros; lra.
      + intros _. exists (- (k * ((d - t0) * J / 2))). split.
        * assert (0 < k * ((d - t0) * - J / 2)); [|lra]. apply Rmult_lt_0_compat; [auto|]. apply Rmult_lt_0_compat; [nra|lra].
        * rewrite N, approach_dist. reflexivity.
  Qed.

  (** Repeating a pulse 0 -> I -> 0 drives it beyond every threshold. *)
  Lemma INR_unbounded x : exists n, x < INR n.
  Proof.
    destruct (archimed x) as [H _]. exists (Z.to_nat (up x)). destruct (Z_lt_le_dec (up x) 0) as [L|L].
    - apply (IZR_lt _ _) in L. pose proof (pos_INR (Z.to_nat (up x))). lra.
    - rewrite INR_IZR_INZ, Z2Nat.id by exact L. exact H.
  Qed.
  Fixpoint pulse_inputs (I d t : R) (n : nat) : list ecm_input :=
    match n with O => [] | S k => at_ (t + d) I :: at_ (t + d + d) 0 :: pulse_inputs I d (t + d + d) k end.

  Lemma pulse_inputs_of I d : forall n t, map input_of (pulse_inputs I d t n) = pulses I d t n.
  Proof. induction n as [|n IH]; intros t; [reflexivity|]. cbn. now rewrite IH. Qed.

  Theorem C28_unbounded : forall B b a s I d m, (b < B)%nat ->
    asoh_ok B a -> state_ok B (length (rcs a)) s -> / 100000000 < I -> 0 < d ->
    0 < num (ce a) b -> 0 < num (hys_gamma (h0 a)) b -> 0 < num (q_base (q_t a)) b ->
    0 < m -> (forall v, sih_at spline (hys_sih (h0 a)) b v = m) ->
    forall K, exists n, (0 < n)%nat /\ forall out dflt, simulation Linear a s (at_ 0 0) (pulse_inputs I d 0 n) out ->
      num (hyst (tr_of (last out dflt))) b < - K.
  Proof.
    intros B b a s I d m Hb Ha Hs HI Hd H1 H2 H3 Hm HM K. set (c := cell_of spline a b).
    set (x := CE c * G_ c / Qs c * (d * I / 2)).
    assert (Px : 0 < x).
    { unfold x, c. cbn. apply Rmult_lt_0_compat; [|apply Rmult_lt_0_compat; nra].
      apply Rdiv_lt_0_compat; [now apply Rmult_lt_0_compat|lra]. }
    assert (Pe : 0 < m * (exp x - 1)).
    { apply Rmult_lt_0_compat; [auto|]. apply exp_increasing in Px. rewrite exp_0 in Px. lra. }
    destruct (INR_unbounded ((num (hyst s) b + K) / (m * (exp x - 1)))) as [n0 Hn0].
    set (n := S n0).
    assert (Hn : (num (hyst s) b + K) / (m * (exp x - 1)) < INR n) by (unfold n; rewrite S_INR; lra).
    assert (Pn : (0 < n)%nat) by (unfold n; lia). clearbody n.
    exists n. split; [exact Pn|]. intros out dflt H.
    assert (Hin : Forall input_ok (pulse_inputs I d 0 n)).
    { clear. generalize 0 as t. induction n as [|n IH]; intros t; cbn; constructor; [apply at_ok|constructor; [apply at_ok|apply IH]]. }
    destruct (trajectory_run spline Linear B b Hb _ (at_ 0 0) s a out Ha Hs (at_ok 0 0) Hin H) as (N & _ & _).
    rewrite pulse_inputs_of in N. fold c in N.
    pose proof (pulses_drift c m I d HM HI n (input_of (at_ 0 0)) (state_of s b) eq_refl) as D.
    cbn [input_of at_ time a2 sc ut] in D. cbn [input_of at_ time current temperature a2 sc option_map] in N. rewrite <- N in D.
    assert (out <> []) as No.
    { intros ->. cbn in N. destruct n; [lia|]. discriminate. }
    assert (L : forall l d0, l <> [] -> last (map (fun y : ecm_state * ecm_asoh * t2 => state_of (tr_of y) b) l) (state_of s b) =
                  state_of (tr_of (last l d0)) b).
    { clear. induction l as [|y l IH]; intros d0 Hl; [contradiction|]. destruct l as [|z l]; [reflexivity|].
      change (last (y :: z :: l) d0) with (last (z :: l) d0). rewrite <- IH by discriminate. reflexivity. }
    rewrite (L out dflt No) in D. cbn [state_of xh] in D. rewrite D. fold x.
    assert (num (hyst s) b + K < INR n * (m * (exp x - 1))); [|lra].
    apply Rmult_lt_reg_r with (/ (m * (exp x - 1))); [now apply Rinv_0_lt_compat|].
    rewrite Rmult_assoc, Rinv_r by lra. rewrite Rmult_1_r. exact Hn.
  Qed.

  (** ** C29. Ramps that keep their sign *)
  Theorem C29_exact : forall B b a s p u s' f sg, (b < B)%nat -> fits B a s p [u] ->
    update_transient_state spline Linear p u s a = Ok s' ->
    let d := ut (input_of u) - ut (input_of p) in
    let I t := ui (input_of p) + (ui (input_of u) - ui (input_of p)) / d * t in
    let M := sih_at spline (hys_sih (h0 a)) b (num (soc s) b) in
    let kappa := (if Rlt_dec (ui (input_of p)) 0 then 1 else num (ce a) b) * num (hys_gamma (h0 a)) b
                 / (3600 * num (q_base (q_t a)) b) in
    0 < d ->
    (sg = 1 /\ / 100000000 < ui (input_of p) /\ 0 < ui (input_of u)) \/
    (sg = - 1 /\ ui (input_of p) < - / 100000000 /\ ui (input_of u) < 0) ->
    (forall t, 0 <= t <= d -> continuity_pt f t) ->
    (forall t, 0 < t < d -> derivable_pt_lim f t (kappa * Rabs (I t) * (M * sg - f t))) ->
    f 0 = num (hyst s) b -> num (hyst s') b = f d.
  Proof.
    intros B b a s p u s' f sg Hb F E d I M kappa Hd Hsg Cf Df F0. destruct (one_step _ _ _ _ _ _ _ _ Hb F E) as [N _].
    apply (f_equal xh) in N. cbn [next next_linear state_of xh] in N. set (c := cell_of spline a b) in *.
    change (efficiency c (ui (input_of p)) * G_ c / Qs c) with kappa in N.
    set (I0 := ui (input_of p)) in *. set (J := ui (input_of u)) in *. fold d in N.
    destruct (Rle_dec 0 (I0 * J)) as [L|L]; [|exfalso; apply L; destruct Hsg as [(_ & A & A')|(_ & A & A')]; nra].
    set (sl := (J - I0) / d) in *.
    assert (EJ : I0 + sl * d = J) by (unfold sl; field; lra).
    assert (HIt : forall t, 0 < t < d -> Rabs (I t) = sg * (I0 + sl * t)).
    { intros t Ht. unfold I. fold J I0 sl.
      assert (I0 + sl * t = I0 * (1 - t / d) + J * (t / d)) as R by (unfold sl; field; lra).
      assert (0 < t / d < 1) as K.
      { split; [apply Rdiv_lt_0_compat; lra|]. apply Rmult_lt_reg_r with d; [lra|]. unfold Rdiv. rewrite Rmult_assoc, Rinv_l; lra. }
      destruct Hsg as [(-> & A & A')|(-> & A & A')].
      - rewrite Rabs_pos_eq; [ring|]. rewrite R. nra.
      - rewrite Rabs_left1; [ring|]. rewrite R. nra. }
    assert (Df' : forall t, 0 < t < d -> derivable_pt_lim f t (kappa * (sg * (I0 + sl * t)) * (M * sg - f t))).
    { intros t Ht. rewrite <- HIt by exact Ht. now apply Df. }
    rewrite (hyst_exact_unique kappa I0 sl (M * sg) (num (hyst s) b) d f sg Hd Cf Df' F0), EJ, N.
    destruct Hsg as [(-> & A & A')|(-> & A & A')].
    - rewrite asymptote_pos by exact A. unfold ramp_piece. destruct (Rlt_dec 0 J); [|lra]. f_equal; [unfold M; cbn; ring|f_equal; field].
    - rewrite asymptote_neg by exact A. unfold ramp_piece. destruct (Rlt_dec 0 J); [lra|].
      f_equal; [unfold M; cbn; ring|]. field.
  Qed.
  Theorem C29_bounded : forall B b a s p u s', (b < B)%nat -> fits B a s p [u] ->
    update_transient_state spline Linear p u s a = Ok s' ->
    ut (input_of p) < ut (input_of u) ->
    0 < ui (input_of p) /\ 0 < ui (input_of u) \/ ui (input_of p) < 0 /\ ui (input_of u) < 0 ->
    0 <= num (ce a) b -> 0 <= num (hys_gamma (h0 a)) b -> 0 < num (q_base (q_t a)) b ->
    let M := sih_at spline (hys_sih (h0 a)) b (num (soc s) b) in
    0 <= M -> Rabs (num (hyst s) b) <= M -> Rabs (num (hyst s') b) <= M.
  Proof.
    intros B b a s p u s' Hb F E Hd Hs H1 H2 H3 M HM Hh. destruct (one_step _ _ _ _ _ _ _ _ Hb F E) as [N _].
    apply (f_equal xh) in N. cbn [next next_linear state_of xh] in N. set (c := cell_of spline a b) in *. rewrite N. clear N.
    set (I0 := ui (input_of p)) in *. set (J := ui (input_of u)) in *. set (d := _ - _).
    assert (Pd : 0 < d) by (unfold d; lra).
    pose proof (rate_nonneg c I0 H1 H2 ltac:(cbn; lra)) as Pk. set (k := efficiency c I0 * G_ c / Qs c) in *.
    pose proof (asymptote_abs c (num (soc s) b) I0 HM) as HA. change (xsoc (state_of s b)) with (num (soc s) b).
    change (M_ c (num (soc s) b)) with M in HA. set (m := asymptote c _ _) in *.
    destruct (Rle_dec 0 (I0 * J)) as [L|L]; [|exfalso; apply L; destruct Hs; nra].
    apply Rabs_le_inv in HA, Hh. apply Rabs_le. unfold ramp_piece.
    destruct Hs as [[A A']|[A A']].
    - destruct (Rlt_dec 0 J); [|lra]. apply approach_bounds; try lra. apply Rmult_le_pos; [auto|].
      apply Rmult_le_pos; [nra|lra].
    - destruct (Rlt_dec 0 J); [lra|]. apply approach_bounds; try lra.
      assert (0 <= k * (d * (- (I0 + J)) / 2)); [|lra]. apply Rmult_le_pos; [auto|]. apply Rmult_le_pos; [nra|lra].
  Qed.

  (** ** C81. In linear mode a ramp that starts at zero current relaxes hysteresis
      towards zero, whichever way the current ramps, never towards +-M. *)
  Theorem C81_start_from_zero : forall B b a s p u s', (b < B)%nat -> fits B a s p [u] ->
    update_transient_state spline Linear p u s a = Ok s' ->
    ui (input_of p) = 0 -> 
    num (hyst s') b = num (hyst s) b *
      exp (- (num (ce a) b * num (hys_gamma (h0 a)) b / (3600 * num (q_base (q_t a)) b) *
              ((ut (input_of u) - ut (input_of p)) * Rabs (ui (input_of u)) / 2))).
  Proof.
    intros B b a s p u s' Hb F E I0. destruct (one_step _ _ _ _ _ _ _ _ Hb F E) as [N _].
    apply (f_equal xh) in N. cbn [next next_linear state_of xh] in N. set (c := cell_of spline a b) in *. rewrite N. clear N.
    rewrite I0, asymptote_zero, efficiency_nn by lra. rewrite Rmult_0_l.
    destruct (Rle_dec 0 0); [|lra]. unfold ramp_piece, approach.
    destruct (Rlt_dec 0 (ui (input_of u))) as [L|L].
    - rewrite (Rabs_pos_eq (ui (input_of u))) by lra. rewrite Rmult_0_r, !Rplus_0_r, Rmult_comm. rewrite Rplus_0_l. reflexivity.
    - rewrite (Rabs_left1 (ui (input_of u))) by lra. rewrite Rmult_0_r, !Rplus_0_r, Rmult_comm, Rplus_0_l. f_equal. f_equal.
      cbn [c cell_of CE G_ Qs]. unfold c. cbn. unfold Rdiv. ring.
  Qed.

  (** ** C30. Terminal voltage *)
  Theorem C30_decomposition : forall B b a s u v dflt, (b < B)%nat ->
    asoh_ok B a -> state_ok B (length (rcs a)) s -> input_ok u ->
    calculate_terminal_voltage spline u s a = Ok v ->
    let z := num (soc s) b in let T := uT (input_of u) in
    num v b = ocv_at spline (oc a) b z T + ui (input_of u) * res_at spline (r0 a) b z T
      + match q0 s, c0 a with Some q, Some c => num q b / sih_at spline c b z | _, _ => 0 end
      + fold_right Rplus 0 (map (fun j => row (i_rc s) b j * res_at spline (rc_r (nth j (rcs a) dflt)) b z T)
                                (seq 0 (length (rcs a))))
      + num (hyst s) b.
  Proof.
    intros B b a s u v dflt Hb Ha Hs Hu E z T. destruct (voltage_rel spline B b Hb u s a v Ha Hs Hu E) as [_ N].
    rewrite N. unfold voltage. cbn [cell_of OCV_ R0_ RC_ C0_ state_of xsoc xq xi xh]. fold z. fold T.
    rewrite (rc_sum_seq spline B b Hb z T (i_rc s) (rcs a) dflt) by (apply Hs). rewrite (proj2 (proj1 (proj2 (proj2 Hs)))).
    f_equal. f_equal. f_equal.
    destruct (q0 s) as [q|] eqn:Q; [|reflexivity]. cbn [option_map].
    destruct (c0 a) as [c|] eqn:C; [reflexivity|]. exfalso.
    unfold calculate_terminal_voltage in E. rewrite Q, C in E.
    do 4 (apply bind_ok in E as (? & _ & E)). discriminate.
  Qed.
  (** A rested cell reads its open circuit voltage. *)
  Theorem C30_rested : forall B b a s u v, (b < B)%nat ->
    asoh_ok B a -> state_ok B (length (rcs a)) s -> input_ok u ->
    calculate_terminal_voltage spline u s a = Ok v ->
    ui (input_of u) = 0 -> opt (fun q => num q b = 0) (q0 s) ->
    (forall j, (j < length (rcs a))%nat -> row (i_rc s) b j = 0) -> num (hyst s) b = 0 ->
    num v b = ocv_at spline (oc a) b (num (soc s) b) (uT (input_of u)).
  Proof.
    intros B b a s u v Hb Ha Hs Hu E I0 Q0 R0 H0.
    rewrite (C30_decomposition B b a s u v {| rc_r := r0 a; rc_c := hys_sih (h0 a) |} Hb Ha Hs Hu E), I0, H0.
    assert (match q0 s, c0 a with Some q, Some c => num q b / sih_at spline c b (num (soc s) b) | _, _ => 0 end = 0) as ->.
    { destruct (q0 s); [|reflexivity]. cbn in Q0. destruct (c0 a); [|reflexivity]. rewrite Q0. unfold Rdiv. ring. }
    assert (fold_right Rplus 0 (map (fun j => row (i_rc s) b j *
       res_at spline (rc_r (nth j (rcs a) {| rc_r := r0 a; rc_c := hys_sih (h0 a) |})) b (num (soc s) b) (uT (input_of u)))
       (seq 0 (length (rcs a)))) = 0) as ->; [|ring].
    assert (G : forall l, (forall j, In j l -> row (i_rc s) b j = 0) -> forall f, fold_right Rplus 0 (map (fun j => row (i_rc s) b j * f j) l) = 0).
    { induction l as [|j l IH]; intros Hj f; [reflexivity|]. cbn. rewrite IH by (intros; apply Hj; now right).
      rewrite Hj by now left. ring. }
    apply G. intros j Hj. apply in_seq in Hj. apply R0. lia.
  Qed.
  (** Two readings of the same state at the same temperature differ by the
      difference of the currents times R0. *)
  Theorem C30_affine : forall B b a s u u' v v', (b < B)%nat ->
    asoh_ok B a -> state_ok B (length (rcs a)) s -> input_ok u -> input_ok u' ->
    calculate_terminal_voltage spline u s a = Ok v -> calculate_terminal_voltage spline u' s a = Ok v' ->
    uT (input_of u) = uT (input_of u') ->
    num v b - num v' b = (ui (input_of u) - ui (input_of u')) * res_at spline (r0 a) b (num (soc s) b) (uT (input_of u)).
  Proof.
    intros B b a s u u' v v' Hb Ha Hs Hu Hu' E E' T. set (d := {| rc_r := r0 a; rc_c := hys_sih (h0 a) |}).
    rewrite (C30_decomposition B b a s u v d Hb Ha Hs Hu E), (C30_decomposition B b a s u' v' d Hb Ha Hs Hu' E'), T. ring.
  Qed.

  (** ** C33. Batch members evolve independently *)
  Theorem C33_update : forall mode B b p u s a s', (b < B)%nat -> fits B a s p [u] ->
    update_transient_state spline mode p u s a = Ok s' ->
    exists s1, update_transient_state spline mode p u (mem_state b s) (mem_asoh b a) = Ok s1 /\
      num (soc s1) 0 = num (soc s') b /\
      option_map (fun q => num q 0) (q0 s1) = option_map (fun q => num q b) (q0 s') /\
      (forall j, (j < length (rcs a))%nat -> row (i_rc s1) 0 j = row (i_rc s') b j) /\
      num (hyst s1) 0 = num (hyst s') b.
  Proof.
    intros mode B b p u s a s' Hb (Ha & Hs & Hp & Hu) E. inversion Hu as [|? ? Hu' _]; subst.
    destruct (update_member spline mode B b p u s a s' Hb Ha Hs Hp Hu' E) as (s1 & E1 & N & O).
    destruct (one_step mode B b a s p u s' Hb) as [_ O']; [apply mk_fits; auto|auto|].
    exists s1. split; [exact E1|]. injection N as N1 N2 N3 N4. repeat split; auto.
    intros j Hj. rewrite (proj2 (proj1 (proj2 (proj2 O)))), (proj2 (proj1 (proj2 (proj2 O')))) in N3.
    apply (f_equal (fun l => nth j l (row (i_rc s1) 0%nat 0%nat))) in N3.
    rewrite (map_nth (row (i_rc s1) 0%nat)), seq_nth in N3 by exact Hj. cbn [Nat.add] in N3. rewrite N3.
    rewrite nth_indep with (d' := row (i_rc s') b 0%nat) by (now rewrite map_length, seq_length).
    now rewrite (map_nth (row (i_rc s') b)), seq_nth by exact Hj.
  Qed.
  Theorem C33_voltage : forall B b u s a v, (b < B)%nat ->
    asoh_ok B a -> state_ok B (length (rcs a)) s -> input_ok u ->
    calculate_terminal_voltage spline u s a = Ok v ->
    exists v1, calculate_terminal_voltage spline u (mem_state b s) (mem_asoh b a) = Ok v1 /\ num v1 0 = num v b.
  Proof.
    intros B b u s a v Hb Ha Hs Hu E. destruct (voltage_member spline B b u s a v Hb Ha Hs Hu E) as (v1 & E1 & N & _). eauto.
  Qed.
  (** The same along whole simulations: both follow the histories of one cell, and
      the cell, initial state and inputs of member b alone are those of member b. *)
  Theorem C33_histories : forall mode B b a s p us out out1, (b < B)%nat -> fits B a s p us ->
    simulation mode a s p us out -> simulation mode (mem_asoh b a) (mem_state b s) p us out1 ->
    map (fun x => state_of (tr_of x) 0) out1 = map (fun x => state_of (tr_of x) b) out /\
    map (fun x => num (out_of x) 0) out1 = map (fun x => num (out_of x) b) out.
  Proof.
    intros mode B b a s p us out out1 Hb (Ha & Hs & Hp & Hu) H H1.
    destruct (trajectory_run spline mode B b Hb us p s a out Ha Hs Hp Hu H) as (N & V & _).
    destruct (trajectory_run spline mode 1 0 ltac:(lia) us p (mem_state b s) (mem_asoh b a) out1) as (N1 & V1 & _); auto.
    - eapply mem_asoh_ok; eauto.
    - cbn [mem_asoh rcs]. rewrite map_length. eapply mem_state_ok; eauto.
    - now rewrite N, N1, V, V1, cell_mem, state_mem.
  Qed.

  (** ** C34. Batched currents are rejected *)
  Theorem C34_previous : forall mode p u s a, (1 < r2 (current p))%nat -> c2 (current p) = 1%nat ->
    raises (update_transient_state spline mode p u s a).
  Proof.
    intros mode p u s a H C. unfold update_transient_state.
    destruct (bin2 Rminus (time u) (time p)) as [dt|e]; [|eexists; reflexivity]. cbn [bind].
    assert (T : truth (current p) (fun c => Rltb c 0) = Err ValueError).
    { unfold truth. destruct (Nat.eqb_spec (r2 (current p) * c2 (current p)) 1); [nia|reflexivity]. }
    destruct mode; cbn [bind].
    - rewrite T. eexists; reflexivity.
    - destruct (bin2 Rminus (current u) (current p)) as [x|e]; [|eexists; reflexivity]. cbn [bind].
      destruct (bin2 Rdiv x dt) as [y|e]; [|eexists; reflexivity]. cbn [bind]. rewrite T. eexists; reflexivity.
  Qed.
  (** With unbatched times and constant mode the exception is the ambiguous truth value. *)
  Theorem C34_previous_ambiguous : forall p u s a, (1 < r2 (current p))%nat -> c2 (current p) = 1%nat ->
    single (time p) -> single (time u) ->
    update_transient_state spline Constant p u s a = Err ValueError.
  Proof.
    intros p u s a H C [T1 T2] [T3 T4]. unfold update_transient_state. unfold bin2 at 1. rewrite T1, T2, T3, T4. cbn [bdim Nat.eqb bind].
    unfold truth at 1. destruct (Nat.eqb_spec (r2 (current p) * c2 (current p)) 1); [nia|reflexivity].
  Qed.
  Lemma bdim_ge n k r : bdim n k = Ok r -> (1 < k)%nat -> (1 < r)%nat.
  Proof. unfold bdim. destruct (Nat.eqb_spec n k), (Nat.eqb_spec n 1), (Nat.eqb_spec k 1); intros [= <-]; lia. Qed.
  Theorem C34_new : forall mode p u s a, (1 < r2 (current u))%nat -> c2 (current u) = 1%nat -> c2 (current p) = 1%nat ->
    raises (update_transient_state spline mode p u s a).
  Proof.
    intros mode p u s a H C Cp.
    destruct (update_transient_state spline mode p u s a) as [s'|e] eqn:E; [|eexists; reflexivity]. exfalso.
    unfold update_transient_state in E.
    apply bind_ok in E as (dt & _ & E). apply bind_ok in E as (sl & _ & E).
    do 7 (apply bind_ok in E as (? & _ & E)). apply bind_ok in E as (? & _ & E).
    apply bind_ok in E as (? & _ & E). apply bind_ok in E as (hy & Eh & _).
    unfold update_hyst in Eh. do 5 (apply bind_ok in Eh as (? & _ & Eh)).
    apply bind_ok in Eh as (prod & Ep & Eh). apply bind_ok in Eh as (same & Es & _).
    unfold truth in Es. unfold bin2 in Ep. rewrite C, Cp in Ep. apply bind_ok in Ep as (r & Er & Ep). cbn in Ep. injection Ep as <-.
    apply bdim_ge in Er; [|exact H]. cbn [r2 c2] in Es. destruct (Nat.eqb_spec (r * 1) 1); [lia|discriminate].
  Qed.
End Dynamics.

(** ** Concrete cases *)

(** The demo circuit runs in both modes on any unbatched inputs (at distinct times
    in linear mode). *)
Example C82_case : forall mode i1 i2, exists out,
  trajectory (ecm_model no_spline mode) no_degradation demo_asoh demo_state (at_ 0 1) [at_ 10 i1; at_ 20 i2] out.
Proof.
  intros mode i1 i2. apply C82_unbatched_never_raises.
  - apply demo_fits; [apply at_ok|]. repeat constructor; apply at_ok.
  - exact demo_usable.
  - discriminate.
  - intros _. cbn. repeat split; lra.
Qed.

(** 1 A for 10 s and 2 A for 10 s: 30 As of 36000 As. *)
Example C23_case : exists out x,
  trajectory (ecm_model no_spline Constant) no_degradation demo_asoh demo_state (at_ 0 1) [at_ 10 2; at_ 20 0] out /\
  nth_error out 1 = Some x /\ num (soc (tr_of x)) 0 = / 2 + 30 / 36000.
Proof.
  destruct (C82_case Constant 2 0) as [out H]. exists out.
  assert (F : fits 1 demo_asoh demo_state (at_ 0 1) [at_ 10 2; at_ 20 0]).
  { apply demo_fits; [apply at_ok|]. repeat constructor; apply at_ok. }
  assert (exists x, nth_error out 1 = Some x) as [x E].
  { destruct F as (Ha & Hs & Hp & Hu).
    destruct (trajectory_run no_spline Constant 1 0 ltac:(lia) _ _ _ _ _ Ha Hs Hp Hu H) as (N & _ & _).
    apply (f_equal (@length _)) in N. rewrite map_length in N. cbn in N.
    destruct out as [|x0 [|x1 out]]; try discriminate. eexists; reflexivity. }
  exists x. split; [exact H|]. split; [exact E|].
  rewrite (C23_soc no_spline Constant 1 0 _ _ _ _ _ 1 x ltac:(lia) F H E).
  cbn. destruct (Rlt_dec 1 0); [lra|]. destruct (Rlt_dec 2 0); [lra|]. field.
Qed.

(** The hypotheses of C24 and C26-C29 on the parameters hold of the demo circuit. *)
Example C24_case : positive_rc (cell_of no_spline demo_asoh 0) /\
  (forall j, (j < 2)%nat -> 0 <= row (i_rc demo_state) 0 j <= 2).
Proof.
  split.
  - repeat constructor; cbn; intros v [T|]; unfold res_at; cbn; unfold sih_at; cbn; unfold num, row; cbn;
      try (rewrite Ropp_0, Rmult_0_l, exp_0); lra.
  - intros j Hj. cbn. lra.
Qed.
Example C27_case : 0 <= num (ce demo_asoh) 0 /\ 0 <= num (hys_gamma (h0 demo_asoh)) 0 /\
  0 < num (q_base (q_t demo_asoh)) 0 /\ forall v, 0 <= sih_at no_spline (hys_sih (h0 demo_asoh)) 0 v <= / 10.
Proof. cbn. repeat split; try lra; unfold sih_at; cbn; unfold num, row; cbn; lra. Qed.

(** Pulses of 1 A and 10 s: the hysteresis voltage of a circuit whose maximum is
    0.1 V drops below -1000 V. *)
Example C28_case : exists n out dflt,
  trajectory (ecm_model no_spline Linear) no_degradation demo_asoh demo_state (at_ 0 0) (pulse_inputs 1 10 0 n) out /\
  num (hyst (tr_of (last out dflt))) 0 < - 1000.
Proof.
  assert (F : fits 1 demo_asoh demo_state (at_ 0 0) []) by (apply demo_fits; [apply at_ok|constructor]).
  destruct F as (Ha & Hs & _).
  destruct (C28_unbounded no_spline 1 0 demo_asoh demo_state 1 10 (/ 10) ltac:(lia) Ha Hs ltac:(lra) ltac:(lra)
    ltac:(cbn; lra) ltac:(cbn; lra) ltac:(cbn; lra) ltac:(lra) ltac:(reflexivity) 1000) as (n & _ & Hn).
  assert (G : forall n, exists out, trajectory (ecm_model no_spline Linear) no_degradation demo_asoh demo_state (at_ 0 0) (pulse_inputs 1 10 0 n) out).
  { clear. intros n. apply C82_unbatched_never_raises.
    - apply demo_fits; [apply at_ok|]. generalize 0 as t. induction n as [|n IH]; intros t; cbn; constructor; [apply at_ok|constructor; [apply at_ok|apply IH]].
    - exact demo_usable.
    - discriminate.
    - intros _. rewrite pulse_inputs_of. assert (K : forall p, distinct_times p (pulses 1 10 (ut p) n)).
      { induction n as [|n IH]; intros p; cbn; [exact I|]. split; [lra|]. split; [lra|]. apply (IH {| ut := ut p + 10 + 10; ui := 0; uT := None |}). }
      apply (K (input_of (at_ 0 0))). }
  destruct (G n) as [out H]. exists n, out, (demo_state, demo_asoh, sc 0). split; [exact H|].
  apply Hn. exact H.
Qed.

(** Two cells with different capacities and states of charge. *)
Definition batch_asoh : ecm_asoh :=
  {| q_t := {| q_base := T2 2 1 (fun i _ => match i with 0%nat => 10 | _ => 20 end) |}; ce := ce demo_asoh;
     oc := oc demo_asoh; r0 := r0 demo_asoh; c0 := c0 demo_asoh; rcs := rcs demo_asoh; h0 := h0 demo_asoh |}.
Definition batch_state : ecm_state :=
  {| soc := T2 2 1 (fun i _ => match i with 0%nat => / 2 | _ => / 4 end); q0 := Some (sc 0);
     i_rc := T2 1 2 (fun _ _ => 0); hyst := sc 0 |}.
Example C33_case : exists s', fits 2 batch_asoh batch_state (at_ 0 1) [at_ 10 2] /\
  update_transient_state no_spline Linear (at_ 0 1) (at_ 10 2) batch_state batch_asoh = Ok s' /\
  num (soc s') 0 = / 2 + 15 / 36000 /\ num (soc s') 1 = / 4 + 15 / 72000.
Proof.
  assert (F : fits 2 batch_asoh batch_state (at_ 0 1) [at_ 10 2]).
  { apply mk_fits.
    - repeat split; cbn; auto; try (now left); try (now right). repeat constructor; cbn; auto.
    - repeat split; cbn; auto; try (now left); now right.
    - apply at_ok.
    - repeat constructor; apply at_ok. }
  destruct F as (Ha & Hs & Hp & Hu). inversion Hu as [|? ? Hu' _]; subst.
  assert (K : can_update no_spline Linear (at_ 0 1) (at_ 10 2) batch_state batch_asoh).
  { split; [eexists; reflexivity|]. split; [right; do 2 eexists; split; reflexivity|]. intros _. cbn. lra. }
  destruct (update_rel no_spline 2 0 ltac:(lia) Linear _ _ _ _ Ha Hs Hp Hu' K) as (s' & E & _ & N0).
  destruct (update_rel no_spline 2 1 ltac:(lia) Linear _ _ _ _ Ha Hs Hp Hu' K) as (s1 & E1 & _ & N1).
  rewrite E in E1. injection E1 as <-. exists s'. split; [now apply mk_fits|]. split; [exact E|].
  apply (f_equal xsoc) in N0, N1. cbn in N0, N1. unfold efficiency in *. cbn in N0, N1.
  destruct (Rlt_dec 1 0); [lra|]. unfold num, row in *. cbn in *. rewrite N0, N1. split; field.
Qed.

(** A rested demo cell at half charge reads 3.5 V. *)
Example C30_case : exists v, calculate_terminal_voltage no_spline (at_ 0 0) demo_state demo_asoh = Ok v /\
  num v 0 = 7 / 2.
Proof.
  assert (F : fits 1 demo_asoh demo_state (at_ 0 0) []) by (apply demo_fits; [apply at_ok|constructor]).
  destruct F as (Ha & Hs & Hp & _).
  destruct (voltage_total no_spline (at_ 0 0) demo_state demo_asoh Ha demo_usable Hs Hp) as [v E]; [discriminate|].
  exists v. split; [exact E|].
  rewrite (C30_rested no_spline 1 0 _ _ _ _ ltac:(lia) Ha Hs Hp E); [|reflexivity|reflexivity|reflexivity|reflexivity].
  cbn [uT input_of at_ temperature option_map]. unfold ocv_at, sih_at. set (o := ocv_ref (oc demo_asoh)).
  change (Nat.eqb (c2 (sv o)) 1) with false. cbv iota.
  assert (I : increasing (grid o)) by (apply linspace_increasing; lra).
  assert (G : forall m, (m < 3)%nat -> nth m (grid o) 0 = INR m / 2).
  { intros m Hm. unfold grid, o. cbn [demo_asoh oc ocv_ref spin sv c2]. rewrite linspace_nth by exact Hm.
    unfold linspace_at. cbn. field. }
  assert (interp_func no_spline o = Ok (linear_interp (grid o))) as ->.
  { unfold interp_func. change (length (grid o)) with 3%nat. reflexivity. }
  assert (L : length (grid o) = 3%nat) by reflexivity.
  rewrite linear_segment; [|exact I|rewrite L; reflexivity].
  assert (H : nth 0 (grid o) 0 <= num (soc demo_state) 0 <= nth 1 (grid o) 0).
  { rewrite !G by lia. unfold num, row. cbn. lra. }
  destruct (clip_inner (grid o) (num (soc demo_state) 0) 0 I ltac:(rewrite L; lia) H) as [-> | (_ & N & _)]; [|lia].
  cbn [Nat.sub]. rewrite !G by lia. unfold line, num, row. cbn. field.
Qed.

(** A batched current. *)
Example C34_case : let p := {| time := sc 0; current := T2 2 1 (fun _ _ => 1); temperature := None |} in
  update_transient_state no_spline Constant p (at_ 10 1) demo_state demo_asoh = Err ValueError /\
  raises (update_transient_state no_spline Constant (at_ (-10) 1) p demo_state demo_asoh).
Proof.
  split.
  - apply C34_previous_ambiguous; cbn; auto; split; reflexivity.
  - apply C34_new; cbn; auto.
Qed.

(** Ramps of C25, C28 and C29 exist for the demo circuit: any two unbatched inputs
    at distinct times. *)
Example C25_case : forall i j, exists s', fits 1 demo_asoh demo_state (at_ 0 i) [at_ 10 j] /\
  update_transient_state no_spline Linear (at_ 0 i) (at_ 10 j) demo_state demo_asoh = Ok s'.
Proof.
  intros i j.
  assert (F : fits 1 demo_asoh demo_state (at_ 0 i) [at_ 10 j]) by (apply demo_fits; [apply at_ok|repeat constructor; apply at_ok]).
  destruct F as (Ha & Hs & Hp & Hu). inversion Hu as [|? ? Hu' _]; subst.
  destruct (update_rel no_spline 1 0 ltac:(lia) Linear (at_ 0 i) (at_ 10 j) demo_state demo_asoh Ha Hs Hp Hu') as (s' & E & _).
  - apply can_update_total; auto; [exact demo_usable|]. intros _. cbn. lra.
  - exists s'. split; [now apply mk_fits|exact E].
Qed.
(** The equation of C25 has a solution to compare with. *)
Example C25_solution : forall tau I0 sl i t, tau <> 0 ->
  derivable_pt_lim (rc_exact tau I0 sl i) t ((I0 + sl * t - rc_exact tau I0 sl i t) / tau) /\ rc_exact tau I0 sl i 0 = i.
Proof.
  intros. split; [|apply rc_exact_0].
  replace ((I0 + sl * t - rc_exact tau I0 sl i t) / tau) with ((I0 + sl * t) / tau - / tau * rc_exact tau I0 sl i t)
    by (unfold Rdiv; ring). now apply rc_exact_derivative.
Qed.

Print Assumptions C82_unbatched_never_raises.
Print Assumptions C23_soc.
Print Assumptions C23_series_capacitor.
Print Assumptions C24_interval.
Print Assumptions C24_one_step.
Print Assumptions C24_zero_step.
Print Assumptions C24_split.
Print Assumptions C25_error.
Print Assumptions C25_wrong_unless_constant.
Print Assumptions C26_previous_current.
Print Assumptions C26_new_current.
Print Assumptions C26_single_current.
Print Assumptions C27_bounded.
Print Assumptions C27_zero_current.
Print Assumptions C27_monotone.
Print Assumptions C28_distance_grows.
Print Assumptions C28_unbounded.
Print Assumptions C29_exact.
Print Assumptions C29_bounded.
Print Assumptions C81_start_from_zero.
Print Assumptions C30_decomposition.
Print Assumptions C30_rested.
Print Assumptions C30_affine.
Print Assumptions C33_update.
Print Assumptions C33_voltage.
Print Assumptions C33_histories.
Print Assumptions C34_previous.
Print Assumptions C34_previous_ambiguous.
Print Assumptions C34_new.

(** * C05 for the arrays the circuit model stores *)

(** A row or a column of values is stored as the column of the same values in the
    same order; anything else is refused. *)
Theorem C05_stored_column : forall x : t2,
  (c2 x = 1%nat -> as_scalar x = Ok x) /\
  (r2 x = 1%nat -> exists y, as_scalar x = Ok y /\ r2 y = c2 x /\ c2 y = 1%nat /\
     forall i, (i < c2 x)%nat -> a2 y i 0%nat = a2 x 0%nat i) /\
  (r2 x <> 1%nat -> c2 x <> 1%nat -> as_scalar x = Err ValidationError).
Proof.
  intros x. unfold as_scalar. split; [|split].
  - intros ->. reflexivity.
  - intros E1. rewrite E1. destruct (Nat.eqb_spec (c2 x) 1) as [E|E]; cbn [Nat.eqb]; eexists; (split; [reflexivity|]).
    + rewrite E. repeat split; auto. intros i I. replace i with 0%nat by lia. reflexivity.
    + cbn. repeat split; auto.
  - intros A1 A2. apply Nat.eqb_neq in A1, A2. rewrite A1, A2. reflexivity.
Qed.
Print Assumptions C05_stored_column.
Example C05_stored_case : exists y, as_scalar (T2 1 3 (fun _ j => INR j)) = Ok y /\ r2 y = 3%nat /\ a2 y 2 0 = INR 2.
Proof. eexists. split; [reflexivity|]. split; reflexivity. Qed.
