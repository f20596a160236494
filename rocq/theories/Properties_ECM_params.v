(** C35-C37: the parameters of the equivalent circuit: temperature corrections,
    capacity units, theoretical energy. *)
From Coq Require Import Reals List Arith Lia Lra Bool.
Import ListNotations.
From Verif Require Import Res Container NdR Interp Spec_Interp Interp_proofs Simulator Spec_Simulator
  ECM Spec_ECM ECM_shapes ECM_member ECM_update ECM_voltage ECM_physics ECM_energy Properties_ECM.
Open Scope R_scope.

Lemma bdim_1_r n : bdim n 1 = Ok n.
Proof. unfold bdim. destruct (Nat.eqb_spec n 1) as [e|e]; [now rewrite e|reflexivity]. Qed.
Lemma bix_lt n i : (i < n)%nat -> bix n i = i.
Proof. unfold bix. destruct (Nat.eqb_spec n 1); lia. Qed.

Section Params.
  Variable spline : nat -> list R -> res (list R -> R -> R).

  (** ** C35. Resistances: [y] is the resistance at temperature T, [ref] without
      temperature; every entry is scaled by exp(-gamma (T - Tref)). *)
  Theorem C35_resistance : forall r x T tref ref y,
    single T -> res_tref r = Some tref ->
    r_value spline r x None = Ok ref -> r_value spline r x (Some T) = Ok y ->
    d30 y = d30 ref /\ d31 y = d31 ref /\ d32 y = d32 ref /\
    forall i j k, (i < d30 ref)%nat -> (j < d31 ref)%nat -> (k < d32 ref)%nat ->
      a3 y i j k = a3 ref i j k * exp (- a2 (res_fac r) 0 0 * (a2 T 0 0 - tref)).
  Proof.
    intros r x T tref ref y [RT CT] Et H0 H. unfold r_value in *. apply bind_ok in H as (ref' & E & H).
    rewrite E in H0. injection H0 as ->. apply bind_ok in H as (z & Z & H).
    unfold truth in Z. destruct (Nat.eqb_spec (r2 (res_fac r) * c2 (res_fac r)) 1) as [e|]; [|discriminate].
    injection Z as <-. apply Nat.eq_mul_1 in e as [Rf Cf].
    unfold Reqb in H. destruct (Req_EM_T (a2 (res_fac r) 0%nat 0%nat) 0) as [g|g].
    - injection H as <-. repeat split; auto. intros i j k _ _ _. rewrite g, Ropp_0, Rmult_0_l, exp_0. ring.
    - rewrite Et in H. cbn [of_opt bind] in H. unfold bin2 in H. cbn [map2 r2 c2 a2] in H. rewrite Rf, Cf, RT, CT in H.
      cbn [bdim Nat.eqb bind bix] in H. unfold bin3 in H. cbn [up3 d30 d31 d32 a3 r2 c2 a2] in H. rewrite !bdim_1_r in H.
      cbn [bind] in H. injection H as <-. repeat split. intros i j k Hi Hj Hk. cbn [a3].
      rewrite !bix_lt by assumption. reflexivity.
  Qed.
  (** At the reference temperature, or with a zero factor, nothing changes. *)
  Theorem C35_reference_temperature : forall r x T tref ref y,
    single T -> res_tref r = Some tref -> a2 T 0%nat 0%nat = tref \/ a2 (res_fac r) 0%nat 0%nat = 0 ->
    r_value spline r x None = Ok ref -> r_value spline r x (Some T) = Ok y ->
    forall i j k, (i < d30 ref)%nat -> (j < d31 ref)%nat -> (k < d32 ref)%nat -> a3 y i j k = a3 ref i j k.
  Proof.
    intros r x T tref ref y HT Et C H0 H i j k Hi Hj Hk.
    destruct (C35_resistance r x T tref ref y HT Et H0 H) as (_ & _ & _ & E). rewrite E by assumption.
    replace (- a2 (res_fac r) 0%nat 0%nat * (a2 T 0%nat 0%nat - tref)) with 0; [rewrite exp_0; ring|].
    destruct C as [-> | ->]; ring.
  Qed.
  Theorem C35_no_temperature : forall r x, r_value spline r x None = sih_value spline (res_sih r) [res_fac r] x.
  Proof. intros. unfold r_value. destruct (sih_value spline (res_sih r) [res_fac r] x); reflexivity. Qed.
  (** Positive reference values stay positive and decrease strictly with temperature. *)
  Theorem C35_positive : forall r x T tref ref y,
    single T -> res_tref r = Some tref ->
    r_value spline r x None = Ok ref -> r_value spline r x (Some T) = Ok y ->
    forall i j k, (i < d30 ref)%nat -> (j < d31 ref)%nat -> (k < d32 ref)%nat -> 0 < a3 ref i j k -> 0 < a3 y i j k.
  Proof.
    intros r x T tref ref y HT Et H0 H i j k Hi Hj Hk P.
    destruct (C35_resistance r x T tref ref y HT Et H0 H) as (_ & _ & _ & E). rewrite E by assumption.
    apply Rmult_lt_0_compat; [exact P|apply exp_pos].
  Qed.
  Theorem C35_decreasing : forall r x T T' tref ref y y',
    single T -> single T' -> res_tref r = Some tref -> 0 < a2 (res_fac r) 0%nat 0%nat ->
    a2 T 0%nat 0%nat < a2 T' 0%nat 0%nat ->
    r_value spline r x None = Ok ref -> r_value spline r x (Some T) = Ok y -> r_value spline r x (Some T') = Ok y' ->
    forall i j k, (i < d30 ref)%nat -> (j < d31 ref)%nat -> (k < d32 ref)%nat -> 0 < a3 ref i j k ->
      a3 y' i j k < a3 y i j k.
  Proof.
    intros r x T T' tref ref y y' HT HT' Et G L H0 H H' i j k Hi Hj Hk P.
    destruct (C35_resistance r x T tref ref y HT Et H0 H) as (_ & _ & _ & E).
    destruct (C35_resistance r x T' tref ref y' HT' Et H0 H') as (_ & _ & _ & E').
    rewrite E, E' by assumption. apply Rmult_lt_compat_l; [exact P|]. apply exp_increasing. nra.
  Qed.

  (** Open circuit voltage of member b: affine in T with the entropic slope. *)
  Theorem C35_ocv : forall B b o x T v y, (b < B)%nat ->
    rows_ok B (sv (ocv_ref o)) -> column B (ocv_tref o) -> rows_ok B (sv (ocv_ent o)) -> column B x -> single T ->
    ocv_value spline o x None = Ok v -> ocv_value spline o x (Some T) = Ok y ->
    let at_member z := a3 z (bix (d30 z) b) (bix (d31 z) b) 0%nat in
    at_member v = sih_at spline (ocv_ref o) b (num x b) /\
    at_member y = at_member v + (a2 T 0 0 - num (ocv_tref o) b) * sih_at spline (ocv_ent o) b (num x b) /\
    (a2 T 0%nat 0%nat = num (ocv_tref o) b -> at_member y = at_member v).
  Proof.
    intros B b o x T v y Hb R1 R2 R3 Hx HT H0 H at_member.
    destruct (ocv_value_rel spline B b Hb o x (num x b) None v R1 R2 R3 (conj Hx eq_refl) I H0) as (_ & _ & _ & N0).
    destruct (ocv_value_rel spline B b Hb o x (num x b) (Some T) y R1 R2 R3 (conj Hx eq_refl) HT H) as (_ & _ & _ & N1).
    fold (at_member v) in N0. fold (at_member y) in N1. cbn [tval option_map ocv_at] in N0, N1.
    rewrite N1, N0. split; [reflexivity|]. split; [reflexivity|]. intros ->. ring.
  Qed.
  (** The time constant of an RC element is R * C. *)
  Theorem C35_time_constant : forall B b c x T y, (b < B)%nat ->
    res_ok B (rc_r c) -> rows_ok B (sv (rc_c c)) -> column B x -> opt single T ->
    time_constant spline c x T = Ok y ->
    exists r cap, r_value spline (rc_r c) x T = Ok r /\ c_value spline (rc_c c) x = Ok cap /\
      let at_member z := a3 z (bix (d30 z) b) (bix (d31 z) b) 0%nat in
      at_member y = at_member r * at_member cap.
  Proof.
    intros B b c x T y Hb R1 R2 Hx HT H. pose proof H as H'. unfold time_constant in H'.
    apply bind_ok in H' as (r & E & H'). apply bind_ok in H' as (cap & F & H'). exists r, cap.
    split; [exact E|]. split; [exact F|]. cbn zeta.
    destruct (time_constant_rel spline B b Hb c x (num x b) T y R1 R2 (conj Hx eq_refl) HT H) as (_ & _ & _ & ->).
    destruct (r_value_rel spline B b Hb (rc_r c) x (num x b) T r R1 (conj Hx eq_refl) HT E) as (_ & _ & _ & ->).
    unfold c_value in F.
    destruct (sih_value_rel spline B b (rc_c c) [] x (num x b) cap R2 (conj Hx eq_refl) F) as (_ & _ & _ & ->).
    reflexivity.
  Qed.

  (** ** C37. Theoretical energy; e is the energy (a column) for SOC limits [l]. *)
  Notation energy := (get_theoretical_energy spline).

  Theorem C37_symmetric : forall a l h T, energy a (l, h) T = energy a (h, l) T.
  Proof.
    intros. unfold get_theoretical_energy. cbn [fst snd]. now rewrite (Rmin_comm l h), (Rmax_comm l h).
  Qed.
  Theorem C37_equal_limits : forall B b a l T e, (b < B)%nat -> asoh_ok B a -> energy a (l, l) T = Ok e -> num e b = 0.
  Proof.
    intros B b a l T e Hb Ha H. destruct (energy_rel spline B b Hb a (l, l) T e Ha H) as [_ N]. cbn zeta in N. rewrite N.
    cbn [fst snd]. rewrite Rmin_left, Rmax_left, linspace_const by lra.
    assert (forall n ys, length ys = n -> trapezoid ys (repeat l n) = 0) as Z by (intros n ys <-; apply trapezoid_zero).
    rewrite Z by (now rewrite map_length, repeat_length). ring.
  Qed.
  (** Scaling the capacity scales the energy. *)
  Theorem C37_scales_with_capacity : forall B b a c k l T e e', (b < B)%nat -> asoh_ok B a -> column B (q_base c) ->
    num (q_base c) b = k * num (q_base (q_t a)) b ->
    let a' := {| q_t := c; ce := ce a; oc := oc a; r0 := r0 a; c0 := c0 a; rcs := rcs a; h0 := h0 a |} in
    energy a l T = Ok e -> energy a' l T = Ok e' -> num e' b = k * num e b.
  Proof.
    intros B b a c k l T e e' Hb Ha Hc Hk a' H H'.
    assert (Ha' : asoh_ok B a') by (destruct Ha as (_ & Ha); split; [exact Hc|exact Ha]).
    destruct (energy_rel spline B b Hb a l T e Ha H) as [_ ->]. destruct (energy_rel spline B b Hb a' l T e' Ha' H') as [_ ->].
    cbn zeta. cbn [a' q_t oc]. rewrite Hk. ring.
  Qed.
  (** Between capacity * range * smallest and largest OCV on the grid. *)
  Theorem C37_bounds : forall B b a l h T e vmin vmax, (b < B)%nat -> asoh_ok B a -> l <= h ->
    0 <= num (q_base (q_t a)) b ->
    (forall j, (j < 100)%nat -> vmin <= ocv_at spline (oc a) b (l + INR j * ((h - l) / 99)) T <= vmax) ->
    energy a (l, h) T = Ok e ->
    vmin * (h - l) * num (q_base (q_t a)) b <= num e b <= vmax * (h - l) * num (q_base (q_t a)) b.
  Proof.
    intros B b a l h T e vmin vmax Hb Ha L Q V H. destruct (energy_rel spline B b Hb a (l, h) T e Ha H) as [_ ->].
    cbn [fst snd]. rewrite Rmin_left, Rmax_right by lra. set (xs := linspace l h 100).
    assert (99 = INR 99) as E99 by (rewrite INR_IZR_INZ; reflexivity).
    pose proof (trapezoid_bounds vmin vmax xs (map (fun v => ocv_at spline (oc a) b v T) xs) (map_length _ _)
      (linspace_nondecreasing l h 100 L)) as Bd.
    assert (EL : last xs 0 = h) by (apply linspace_last; lia). assert (EH : hd 0 xs = l) by (apply linspace_hd; lia). rewrite EL, EH in Bd.
    destruct Bd as [B1 B2].
    { apply Forall_map, Forall_forall. intros v Hv. apply (In_nth _ _ 0) in Hv as (j & Hj & <-).
      unfold xs in *. rewrite linspace_length in Hj. rewrite linspace_nth by exact Hj. unfold linspace_at. cbn [Nat.eqb].
      change (100 - 1)%nat with 99%nat. rewrite <- E99. exact (V j Hj). }
    split; apply Rmult_le_compat_r; auto.
  Qed.
  (** Exact when the OCV is affine in the SOC. *)
  Theorem C37_affine : forall B b a l h T e al be, (b < B)%nat -> asoh_ok B a -> l <= h ->
    (forall v, ocv_at spline (oc a) b v T = al + be * v) ->
    energy a (l, h) T = Ok e ->
    num e b = num (q_base (q_t a)) b * (h - l) * (al + be * ((l + h) / 2)).
  Proof.
    intros B b a l h T e al be Hb Ha L V H. destruct (energy_rel spline B b Hb a (l, h) T e Ha H) as [_ ->].
    cbn [fst snd]. rewrite Rmin_left, Rmax_right by lra.
    rewrite (map_ext _ (fun x => al + be * x) V), trapezoid_affine, linspace_hd, linspace_last by lia. field.
  Qed.
End Params.

(** ** C36. Capacity: stored in ampere-hours, read and set in ampere-seconds. *)
Theorem C36_units : forall q i j,
  a2 (q_value q) i j = 3600 * a2 (q_amp_hour q) i j.
Proof. reflexivity. Qed.
Theorem C36_set_then_read : forall q s i j,
  a2 (q_value (q_set_value q s)) i j = a2 s i j /\ a2 (q_amp_hour (q_set_value q s)) i j = a2 s i j / 3600 /\
  r2 (q_value (q_set_value q s)) = r2 s /\ c2 (q_value (q_set_value q s)) = c2 s.
Proof. intros. cbn. repeat split. field. Qed.
Theorem C36_read_then_set : forall q i j, a2 (q_base (q_set_value q (q_value q))) i j = a2 (q_base q) i j.
Proof. intros. cbn. field. Qed.

(** ** Concrete cases *)

(** A resistance of 0.01 to 0.02 ohm with factor 0.01 around 25 degrees. *)
Definition warm : resistance :=
  {| res_sih := {| sv := T2 1 2 (fun _ j => match j with 0%nat => / 100 | _ => / 50 end); spin := None; sstyle := None |};
     res_tref := Some 25; res_fac := sc (/ 100) |}.
Example C35_case : exists ref y, r_value no_spline warm (sc (/ 2)) None = Ok ref /\
  r_value no_spline warm (sc (/ 2)) (Some (sc 35)) = Ok y /\ d30 ref = 1%nat /\ d31 ref = 1%nat /\ d32 ref = 1%nat /\
  a3 y 0%nat 0%nat 0%nat = a3 ref 0%nat 0%nat 0%nat * exp (- (/ 10)).
Proof.
  assert (exists ref, r_value no_spline warm (sc (/ 2)) None = Ok ref /\ d30 ref = 1%nat /\ d31 ref = 1%nat /\ d32 ref = 1%nat)
    as (ref & E & D0 & D1 & D2) by (eexists; repeat split; reflexivity).
  assert (exists y, r_value no_spline warm (sc (/ 2)) (Some (sc 35)) = Ok y) as [y F].
  { unfold r_value in *. apply bind_ok in E as (z & E & K). rewrite E. cbn [bind]. unfold truth. cbn [warm res_fac sc r2 c2 Nat.mul Nat.add Nat.eqb bind a2].
    unfold Reqb. destruct (Req_EM_T (/ 100) 0); [lra|]. cbn [res_tref of_opt bind]. injection K as ->.
    unfold bin3, bin2. cbn. rewrite D0, D1, D2. eexists; reflexivity. }
  exists ref, y. repeat split; auto.
  destruct (C35_resistance no_spline warm (sc (/ 2)) (sc 35) 25 ref y) as (_ & _ & _ & V); auto; [split; reflexivity|].
  rewrite V by lia. cbn. f_equal. f_equal. field.
Qed.

(** A 10 Ah circuit whose OCV goes from 3 V to 4 V: 35 Wh from empty to full. *)
Definition ramp_asoh : ecm_asoh :=
  {| q_t := {| q_base := sc 10 |}; ce := sc 1;
     oc := {| ocv_ref := {| sv := T2 1 2 (fun _ j => match j with 0%nat => 3 | _ => 4 end); spin := None; sstyle := None |};
              ocv_tref := sc 25; ocv_ent := one_value 0 |};
     r0 := ohms (/ 100); c0 := None; rcs := []; h0 := {| hys_sih := one_value (/ 10); hys_gamma := sc 50 |} |}.
Lemma ramp_ocv v : ocv_at no_spline (oc ramp_asoh) 0 v None = 3 + 1 * v.
Proof.
  unfold ocv_at, sih_at, interp_func, grid. cbn [ramp_asoh oc ocv_ref sv c2 r2 spin sstyle Nat.eqb].
  rewrite linspace_length. cbn [Nat.eqb negb].
  assert (I : increasing (linspace 0 1 2)) by (apply linspace_increasing; lra || lia).
  rewrite (linear_segment _ _ _ I) by reflexivity. rewrite linspace_length.
  pose proof (searchsorted_le (linspace 0 1 2) v) as L. rewrite linspace_length in L.
  assert (C : clip (searchsorted (linspace 0 1 2) v) 2 = 1%nat) by (unfold clip; lia). rewrite C.
  rewrite !linspace_nth by lia. unfold linspace_at, line, vrow. cbn. field.
Qed.
Example C37_case : exists e, get_theoretical_energy no_spline ramp_asoh (0, 1) None = Ok e /\ num e 0 = 35.
Proof.
  assert (exists e, get_theoretical_energy no_spline ramp_asoh (0, 1) None = Ok e) as [e E].
  { unfold get_theoretical_energy. cbn [fst snd option_map]. unfold ocv_value, sih_value, get_value. cbn. eexists; reflexivity. }
  exists e. split; [exact E|].
  rewrite (C37_affine no_spline 1 0 ramp_asoh 0 1 None e 3 1); auto; try lra; try lia.
  - cbn. unfold num, row. cbn. field.
  - repeat split; cbn; auto; now left.
  - exact ramp_ocv.
Qed.

Print Assumptions C35_resistance.
Print Assumptions C35_ocv.
Print Assumptions C35_time_constant.
Print Assumptions C36_set_then_read.
Print Assumptions C37_symmetric.
Print Assumptions C37_equal_limits.
Print Assumptions C37_scales_with_capacity.
Print Assumptions C37_bounds.
Print Assumptions C37_affine.
