(** C112, C113: cells at rest. *)
From Coq Require Import Reals List Arith Lia Lra.
Import ListNotations.
From Verif Require Import Res Container NdR Interp Spec_Interp Interp_proofs Properties_Interp Interp_slopes Simulator Spec_Simulator
  ECM Spec_ECM ECM_shapes ECM_member ECM_voltage ECM_batch ECM_total Spec_Rest Rest_proofs Properties_ECM.
Open Scope R_scope.

Section C112.
Variable spline : nat -> list R -> res (list R -> R -> R).

(** ** C112. A quantity whose values grow from each point to the next one by L to U per unit
    of the state of charge does so between any two states of charge. *)
Theorem C112_slopes : forall L U s i internal soc y, (i < r2 (sv s))%nat -> grows_between L U s i ->
  get_value spline s internal soc = Ok y ->
  forall j k j' k', a2 soc j k <= a2 soc j' k' ->
    L * (a2 soc j' k' - a2 soc j k) <= a3 y i j' k' - a3 y i j k <= U * (a2 soc j' k' - a2 soc j k).
Proof.
  intros L U s i internal soc y Hi G E j k j' k' H.
  assert (V : forall j k, a3 y i j k = sih_at spline s i (a2 soc j k)).
  { intros. assert (Bi : bix (r2 (sv s)) i = i) by (unfold bix; destruct (Nat.eqb_spec (r2 (sv s)) 1); lia).
    unfold get_value in E. unfold sih_at, num, row. rewrite Bi.
    destruct (Nat.eqb (c2 (sv s)) 1); [injection E as <-; reflexivity|].
    apply bind_ok in E as (f & Ef & E). rewrite Ef.
    destruct (Nat.eqb internal (r2 (sv s))); [|discriminate]. injection E as <-. reflexivity. }
  rewrite !V. now apply (grows_changes spline L U s i G).
Qed.

(** The same for open circuit voltages.  At temperatures other than that of the reference
    values, the entropic part adds its own slopes times the difference of temperature. *)
Definition warmer (a : ecm_asoh) (b : nat) (T : option R) : R :=
  match T with None => 0 | Some t => t - num (ocv_tref (oc a)) b end.
Lemma ocv_changes L U l h a b T : grows_between L U (ocv_ref (oc a)) b -> grows_between l h (ocv_ent (oc a)) b ->
  changes_between (L + Rmin (warmer a b T * l) (warmer a b T * h)) (U + Rmax (warmer a b T * l) (warmer a b T * h))
    (fun v => ocv_at spline (oc a) b v T).
Proof.
  intros G E v v' H. pose proof (grows_changes spline _ _ _ _ G v v' H) as A. pose proof (grows_changes spline _ _ _ _ E v v' H) as C.
  unfold ocv_at, warmer. destruct T as [t|].
  - set (d := t - num (ocv_tref (oc a)) b). set (f := sih_at spline (ocv_ref (oc a)) b) in *. set (g := sih_at spline (ocv_ent (oc a)) b) in *.
    replace (f v' + d * g v' - (f v + d * g v)) with (f v' - f v + d * (g v' - g v)) by ring.
    assert (Rmin (d * l) (d * h) * (v' - v) <= d * (g v' - g v) <= Rmax (d * l) (d * h) * (v' - v)) as [X Y]; [|lra].
    pose proof (Rmin_l (d * l) (d * h)) as Nl. pose proof (Rmin_r (d * l) (d * h)) as Nr. pose proof (Rmax_l (d * l) (d * h)) as Xl. pose proof (Rmax_r (d * l) (d * h)) as Xr.
    destruct (Rle_dec 0 d) as [D|D].
    + assert (d * (l * (v' - v)) <= d * (g v' - g v) <= d * (h * (v' - v))) by (split; apply Rmult_le_compat_l; lra).
      split.
      * apply Rle_trans with (d * l * (v' - v)); [apply Rmult_le_compat_r; lra|lra].
      * apply Rle_trans with (d * h * (v' - v)); [lra|apply Rmult_le_compat_r; lra].
    + assert (- d * (l * (v' - v)) <= - d * (g v' - g v) <= - d * (h * (v' - v))) by (split; apply Rmult_le_compat_l; lra).
      split.
      * apply Rle_trans with (d * h * (v' - v)); [apply Rmult_le_compat_r; lra|lra].
      * apply Rle_trans with (d * l * (v' - v)); [lra|apply Rmult_le_compat_r; lra].
  - rewrite !Rmult_0_l. unfold Rmin, Rmax. destruct (Rle_dec 0 0); lra.
Qed.

Section Two.
Variables (B b : nat) (a : ecm_asoh) (s s' : ecm_state) (u u' : ecm_input) (v v' : t2).
Hypothesis Hb : (b < B)%nat.
Hypothesis Ha : asoh_ok B a.
Hypothesis Hs : state_ok B (length (rcs a)) s.
Hypothesis Hs' : state_ok B (length (rcs a)) s'.
Hypothesis Hu : input_ok u.
Hypothesis Hu' : input_ok u'.
Hypothesis V : calculate_terminal_voltage spline u s a = Ok v.
Hypothesis V' : calculate_terminal_voltage spline u' s' a = Ok v'.
(** Both at rest, at the same temperature. *)
Hypothesis Rs : at_rest b (length (rcs a)) s.
Hypothesis Rs' : at_rest b (length (rcs a)) s'.
Variable T : option R.
Hypothesis Ru : resting T (input_of u).
Hypothesis Ru' : resting T (input_of u').

Lemma rested_voltages : num v b = ocv_at spline (oc a) b (num (soc s) b) T /\ num v' b = ocv_at spline (oc a) b (num (soc s') b) T.
Proof.
  destruct Rs as (A1 & A2 & A3), Rs' as (B1 & B2 & B3), Ru as [I J], Ru' as [I' J'].
  rewrite (C30_rested spline B b a s u v Hb Ha Hs Hu V I A1 A2 A3), (C30_rested spline B b a s' u' v' Hb Ha Hs' Hu' V' I' B1 B2 B3).
  now rewrite J, J'.
Qed.

Variables L U l h : R.
Hypothesis G : grows_between L U (ocv_ref (oc a)) b.
Hypothesis E : grows_between l h (ocv_ent (oc a)) b.
Let low := L + Rmin (warmer a b T * l) (warmer a b T * h).
Let high := U + Rmax (warmer a b T * l) (warmer a b T * h).

(** Resting voltages grow with the state of charge like the open circuit voltage, ... *)
Theorem C112_rest_voltages : num (soc s) b <= num (soc s') b ->
  low * (num (soc s') b - num (soc s) b) <= num v' b - num v b <= high * (num (soc s') b - num (soc s) b).
Proof.
  intros H. destruct rested_voltages as [-> ->]. exact (ocv_changes L U l h a b T G E _ _ H).
Qed.
(** ... so that, if it grows, they tell the state of charge, up to their own error. *)
Theorem C112_soc_from_voltage : 0 < low ->
  Rabs (num (soc s') b - num (soc s) b) <= Rabs (num v' b - num v b) / low /\
  (num v' b = num v b -> num (soc s') b = num (soc s) b).
Proof.
  intros P. destruct rested_voltages as [-> ->]. pose proof (ocv_changes L U l h a b T G E) as C. split.
  - exact (changes_distance low high _ (num (soc s) b) (num (soc s') b) P C).
  - exact (changes_inj low high _ (num (soc s') b) (num (soc s) b) P C).
Qed.
End Two.

(** The state at rest of a single cell at the state of charge x. *)
Definition rest_at (a : ecm_asoh) (x : R) : ecm_state :=
  {| soc := sc x; q0 := option_map (fun _ => sc 0) (c0 a); i_rc := T2 1 (length (rcs a)) (fun _ _ => 0); hyst := sc 0 |}.
(** Every voltage is that of exactly one state of charge at rest. *)
Theorem C112_every_voltage : forall a u T L U l h w,
  asoh_ok 1 a -> usable_asoh spline a -> input_ok u -> resting T (input_of u) ->
  grows_between L U (ocv_ref (oc a)) 0 -> grows_between l h (ocv_ent (oc a)) 0 ->
  0 < L + Rmin (warmer a 0 T * l) (warmer a 0 T * h) ->
  exists x, (exists v, calculate_terminal_voltage spline u (rest_at a x) a = Ok v /\ num v 0 = w) /\
    forall x' v, calculate_terminal_voltage spline u (rest_at a x') a = Ok v -> num v 0 = w -> x' = x.
Proof.
  intros a u T L U l h w Ha Ua Hu Ru G E P.
  assert (Hs : forall x, state_ok 1 (length (rcs a)) (rest_at a x)).
  { intros x. unfold rest_at, state_ok, column, rows_ok. cbn. destruct (c0 a); cbn; auto 10. }
  assert (Rs : forall x, at_rest 0 (length (rcs a)) (rest_at a x)).
  { intros x. unfold at_rest, rest_at. cbn. destruct (c0 a); cbn; auto. }
  assert (Vs : forall x, exists v, calculate_terminal_voltage spline u (rest_at a x) a = Ok v).
  { intros x. apply voltage_total; auto. cbn. destruct (c0 a); cbn; intuition congruence. }
  destruct (changes_onto _ _ _ w P (ocv_changes L U l h a 0 T G E)) as [x Hx].
  exists x. split.
  - destruct (Vs x) as [v Hv]. exists v. split; [exact Hv|].
    destruct (rested_voltages 1 0 a _ _ u u v v ltac:(lia) Ha (Hs x) (Hs x) Hu Hu Hv Hv (Rs x) (Rs x) T Ru Ru) as [-> _]. exact Hx.
  - intros x' v Hv Ev. destruct (Vs x) as [v1 Hv1].
    destruct (rested_voltages 1 0 a _ _ u u v v1 ltac:(lia) Ha (Hs x') (Hs x) Hu Hu Hv Hv1 (Rs x') (Rs x) T Ru Ru) as [E1 E2].
    apply (changes_inj _ _ _ x' x P (ocv_changes L U l h a 0 T G E)). cbn in E1. cbn beta. change (num (sc x') 0) with x' in E1. lra.
Qed.
End C112.
Print Assumptions C112_slopes.
Print Assumptions C112_rest_voltages.
Print Assumptions C112_soc_from_voltage.
Print Assumptions C112_every_voltage.

(** The demo cell of Properties_ECM.v: 1 V per unit of charge. *)
Example C112_case : grows_between 1 1 (ocv_ref (oc demo_asoh)) 0 /\ grows_between 0 0 (ocv_ent (oc demo_asoh)) 0 /\
  0 < 1 + Rmin (warmer demo_asoh 0 None * 0) (warmer demo_asoh 0 None * 0) /\
  asoh_ok 1 demo_asoh /\ usable_asoh no_spline demo_asoh /\ resting None (input_of (at_ 0 0)) /\ at_rest 0 2 demo_state.
Proof.
  set (o := ocv_ref (oc demo_asoh)).
  assert (I : increasing (grid o)) by (apply linspace_increasing; lra).
  assert (Gd : forall m, (m < 3)%nat -> nth m (grid o) 0 = INR m / 2).
  { intros m Hm. unfold grid, o. cbn [demo_asoh oc ocv_ref spin sv c2]. rewrite linspace_nth by exact Hm.
    unfold linspace_at. cbn. field. }
  split; [|split; [|split; [|split; [|split; [|split]]]]].
  - right. split; [cbn; lia|]. split; [reflexivity|]. split; [reflexivity|]. split; [exact I|].
    intros m Hm. change (length (grid o)) with 3%nat in Hm. rewrite !Gd by lia.
    unfold stored. cbn. destruct m as [|[|m]]; [| |lia]; cbn; unfold row; cbn; lra.
  - left. split; [reflexivity|lra].
  - unfold warmer. rewrite !Rmult_0_l. unfold Rmin. destruct (Rle_dec 0 0); lra.
  - apply (demo_fits [] (at_ 0 0)); [apply at_ok|constructor].
  - apply demo_usable.
  - split; reflexivity.
  - repeat split.
Qed.

Section C113.
Variable spline : nat -> list R -> res (list R -> R -> R).
Notation simulation mode := (trajectory (ecm_model spline mode) no_degradation).

(** ** C113. Without current, a simulation of any number of steps of any length keeps the
    charge and the hysteresis, and the RC currents decay with the time that has passed since
    the start, however it was divided into steps. *)
Theorem C113_decay : forall mode B b a s p us out k x u T, (b < B)%nat -> fits B a s p us ->
  simulation mode a s p us out -> resting T (input_of p) -> Forall (fun u => resting T (input_of u)) us ->
  nth_error out k = Some x -> nth_error us k = Some u ->
  num (soc (tr_of x)) b = num (soc s) b /\
  option_map (fun q => num q b) (q0 (tr_of x)) = option_map (fun q => num q b) (q0 s) /\
  num (hyst (tr_of x)) b = num (hyst s) b /\
  forall j dflt, (j < length (rcs a))%nat ->
    let tau := res_at spline (rc_r (nth j (rcs a) dflt)) b (num (soc s) b) T * sih_at spline (rc_c (nth j (rcs a) dflt)) b (num (soc s) b) in
    row (i_rc (tr_of x)) b j = exp (- (ut (input_of u) - ut (input_of p)) / tau) * row (i_rc s) b j.
Proof.
  intros mode B b a s p us out k x u T Hb F H Rp Ru E Eu.
  pose proof (at_step spline mode B b a s p us out k x Hb F H E) as N.
  destruct F as (Ha & Hs & Hp & Hu).
  destruct (trajectory_run spline mode B b Hb us p s a out Ha Hs Hp Hu H) as (_ & _ & Sh).
  assert (N' := run_rest mode (cell_of spline a b) T (map input_of us) (input_of p) (state_of s b) k (state_of (tr_of x) b) (input_of u) Rp).
  rewrite nth_error_map, Eu in N'. specialize (N' (proj2 (Forall_map _ _ _) Ru) N eq_refl).
  split; [exact (f_equal xsoc N')|]. split; [exact (f_equal xq N')|]. split; [exact (f_equal xh N')|].
  intros j dflt Hj tau.
  assert (Cs : c2 (i_rc s) = length (rcs a)) by apply Hs.
  assert (Cx : c2 (i_rc (tr_of x)) = length (rcs a)).
  { rewrite Forall_forall in Sh. apply nth_error_In in E. apply (Sh x E). }
  apply (f_equal (fun st => nth j (xi st) 0)) in N'. cbn [state_of xi decayed cell_of RC_ xsoc] in N'.
  rewrite Cs, Cx in N'.
  rewrite nth_indep with (d' := row (i_rc (tr_of x)) b 0%nat) in N' by (now rewrite map_length, seq_length).
  rewrite (map_nth (row (i_rc (tr_of x)) b)), seq_nth in N' by exact Hj. cbn [Nat.add] in N'. rewrite N'.
  set (f := fun x : R * ((R -> option R -> R) * (R -> R)) => _).
  set (g := fun c : rc => (res_at spline (rc_r c) b, sih_at spline (rc_c c) b)).
  rewrite nth_indep with (d' := f (row (i_rc s) b 0%nat, g dflt)) by (rewrite map_length, combine_length, !map_length, seq_length; lia).
  rewrite map_nth, combine_nth by (now rewrite !map_length, seq_length).
  rewrite (map_nth (row (i_rc s) b)), (map_nth g), seq_nth by exact Hj. reflexivity.
Qed.

(** The voltage approaches the one that remains without them, at least as fast as the
    slowest element. *)
Theorem C113_voltage : forall mode B b a s p us out k x u T tau, (b < B)%nat -> fits B a s p us ->
  simulation mode a s p us out -> resting T (input_of p) -> Forall (fun u => resting T (input_of u)) us ->
  nth_error out k = Some x -> nth_error us k = Some u ->
  let c := cell_of spline a b in
  time_constants_below c tau T (num (soc s) b) -> ut (input_of p) <= ut (input_of u) ->
  Rabs (num (out_of x) b - settled_voltage c T (state_of s b))
  <= exp (- (ut (input_of u) - ut (input_of p)) / tau) * rc_drop c T (state_of s b).
Proof.
  intros mode B b a s p us out k x u T tau Hb (Ha & Hs & Hp & Hu) H Rp Ru E Eu c Hc Ht.
  destruct (trajectory_run spline mode B b Hb us p s a out Ha Hs Hp Hu H) as (N & M & _).
  apply (f_equal (fun l => nth_error l k)) in N, M. rewrite nth_error_map, E in N. rewrite nth_error_map, E in M. cbn in N, M.
  symmetry in N. fold c in N, M.
  assert (N' := run_rest mode c T (map input_of us) (input_of p) (state_of s b) k _ (input_of u) Rp (proj2 (Forall_map _ _ _) Ru) N).
  rewrite nth_error_map, Eu in N'. specialize (N' eq_refl).
  assert (num (out_of x) b = voltage c (input_of u) (decayed c T (ut (input_of u) - ut (input_of p)) (state_of s b))) as ->.
  { symmetry in M. rewrite nth_error_map in M.
    assert (C : nth_error (combine (map input_of us) (run mode c (input_of p) (state_of s b) (map input_of us))) k = Some (input_of u, state_of (tr_of x) b)).
    { assert (Eu' : nth_error (map input_of us) k = Some (input_of u)) by (now rewrite nth_error_map, Eu).
      exact (nth_error_pair _ _ k _ _ Eu' N). }
    rewrite C in M. cbn in M. rewrite N' in M. congruence. }
  apply decayed_voltage; [lra| |exact Hc].
  rewrite Forall_forall in Ru. apply Ru. now apply (nth_error_In us k).
Qed.
(** After long enough a rest it is as close as one likes, whatever the steps. *)
Theorem C113_converges : forall mode B b a s p T tau eps, (b < B)%nat ->
  let c := cell_of spline a b in
  time_constants_below c tau T (num (soc s) b) -> 0 < tau -> 0 < eps -> resting T (input_of p) ->
  exists D, forall us out k x u, fits B a s p us -> simulation mode a s p us out ->
    Forall (fun u => resting T (input_of u)) us -> nth_error out k = Some x -> nth_error us k = Some u ->
    D <= ut (input_of u) - ut (input_of p) ->
    Rabs (num (out_of x) b - settled_voltage c T (state_of s b)) < eps.
Proof.
  intros mode B b a s p T tau eps Hb c Hc Ht He Rp.
  set (K := rc_drop c T (state_of s b)).
  assert (HK : 0 <= K).
  { unfold K, rc_drop. generalize (combine (xi (state_of s b)) (RC_ c)). intros l. induction l as [|y l IH]; cbn; [lra|].
    pose proof (Rabs_pos (fst y * fst (snd y) (xsoc (state_of s b)) T)). cbn in *. lra. }
  exists (tau * (K / eps)). intros us out k x u F H Ru E Eu HD.
  assert (Z : 0 <= tau * (K / eps)).
  { apply Rmult_le_pos; [lra|]. apply Rmult_le_pos; [exact HK|]. left. now apply Rinv_0_lt_compat. }
  eapply Rle_lt_trans; [apply (C113_voltage mode B b a s p us out k x u T tau Hb F H Rp Ru E Eu Hc); lra|].
  fold c K. set (d := (ut (input_of u) - ut (input_of p)) / tau).
  replace (- (ut (input_of u) - ut (input_of p)) / tau) with (- d) by (unfold d, Rdiv; ring).
  assert (Hd : K / eps <= d).
  { unfold d. apply (Rmult_le_reg_l tau); [lra|]. unfold Rdiv at 2. rewrite (Rmult_comm tau (_ * / tau)), Rmult_assoc, Rinv_l; lra. }
  (* exp d > d, so exp (-d) * K < eps *)
  assert (X : K < exp d * eps).
  { apply Rle_lt_trans with (d * eps).
    - apply (Rmult_le_compat_r eps) in Hd; [|lra]. unfold Rdiv in Hd. rewrite Rmult_assoc, Rinv_l in Hd; lra.
    - apply Rmult_lt_compat_r; [lra|]. assert (0 <= d) by (eapply Rle_trans; [|exact Hd]; apply Rmult_le_pos; [exact HK|left; now apply Rinv_0_lt_compat]).
      destruct (Req_dec d 0) as [->|Nz]; [rewrite exp_0; lra|]. pose proof (exp_ineq1 d ltac:(lra)). lra. }
  apply (Rmult_lt_reg_l (exp d)); [apply exp_pos|]. rewrite <- Rmult_assoc, <- exp_plus, Rplus_opp_r, exp_0, Rmult_1_l. exact X.
Qed.
End C113.
Print Assumptions C113_decay.
Print Assumptions C113_voltage.
Print Assumptions C113_converges.

(** The demo cell resting for three steps after a load, in either mode. *)
Example C113_case : forall mode, let s := {| soc := sc (/ 2); q0 := Some (sc 0); i_rc := T2 1 2 (fun _ j => INR (S j)); hyst := sc (/ 20) |} in
  exists out, trajectory (ecm_model no_spline mode) no_degradation demo_asoh s (at_ 0 0) [at_ 10 0; at_ 25 0; at_ 1000 0] out /\ length out = 3%nat /\
    fits 1 demo_asoh s (at_ 0 0) [at_ 10 0; at_ 25 0; at_ 1000 0] /\
    Forall (fun u => resting None (input_of u)) [at_ 0 0; at_ 10 0; at_ 25 0; at_ 1000 0] /\
    time_constants_below (cell_of no_spline demo_asoh 0) 100 None (/ 2).
Proof.
  intros mode s.
  assert (F : fits 1 demo_asoh s (at_ 0 0) [at_ 10 0; at_ 25 0; at_ 1000 0]).
  { destruct (demo_fits [at_ 10 0; at_ 25 0; at_ 1000 0] (at_ 0 0)) as (A & _ & I & J); [apply at_ok|repeat constructor|].
    split; [exact A|]. split; [|now split]. repeat split; cbn; auto; now left. }
  destruct (C82_unbatched_never_raises no_spline mode demo_asoh s (at_ 0 0) _ F demo_usable) as [out H]; [discriminate| |].
  { intros _. cbn. repeat split; lra. }
  exists out. split; [exact H|]. split.
  { inversion H as [|? ? ? ? ? ? ? ? ? ? r1 _ _ _ H1]; subst. inversion H1 as [|? ? ? ? ? ? ? ? ? ? r2 _ _ _ H2]; subst.
    inversion H2 as [|? ? ? ? ? ? ? ? ? ? r3 _ _ _ H3]; subst. inversion H3; subst. reflexivity. }
  split; [exact F|]. split; [repeat constructor|].
  repeat constructor; cbn; unfold sih_at, num, row; cbn; lra.
Qed.
