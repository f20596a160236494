(** C31, C32: SOC-dependent parameters (moirae/models/ecm/utils.py). *)
From Coq Require Import Reals List Arith Lia Lra.
Import ListNotations.
From Verif Require Import Res NdR Interp Spec_Interp Interp_proofs.
Open Scope R_scope.

Section Props.
  Variable spline : nat -> list R -> res (list R -> R -> R).

  Lemma value_inv (s : sih) internal soc y : sstyle s = None -> c2 (sv s) <> 1%nat ->
    get_value spline s internal soc = Ok y ->
    length (grid s) = c2 (sv s) /\
    forall i j k, a3 y i j k = linear_interp (grid s) (vrow (sv s) i) (a2 soc j k).
  Proof.
    intros St N H. unfold get_value in H. apply Nat.eqb_neq in N. rewrite N in H.
    apply bind_ok in H as (f & F & H). unfold interp_func in F.
    destruct (Nat.eqb_spec (length (grid s)) (c2 (sv s))) as [e|]; [|discriminate]. cbn in F. rewrite St in F.
    destruct (Nat.eqb (length (grid s)) 0); [discriminate|]. injection F as <-.
    destruct (Nat.eqb internal (r2 (sv s))); [|discriminate]. injection H as <-. auto.
  Qed.

  (** ** C31 *)

  (** A single stored value is returned for every SOC. *)
  Theorem C31_single_value : forall (s : sih) internal soc,
    c2 (sv s) = 1%nat ->
    exists y, get_value spline s internal soc = Ok y /\
      d30 y = r2 (sv s) /\ d31 y = r2 soc /\ d32 y = c2 soc /\
      forall i j k, a3 y i j k = a2 (sv s) i 0%nat.
  Proof. intros s internal soc E. unfold get_value. rewrite E. eexists; split; [reflexivity|]. auto. Qed.

  (** Between two neighbouring pinpoints the value is on the straight line
      through their stored values (so it depends on these two only). *)
  Theorem C31_on_segment : forall (s : sih) internal soc y,
    sstyle s = None -> increasing (grid s) -> (1 < c2 (sv s))%nat ->
    get_value spline s internal soc = Ok y ->
    forall m i j k, (S m < c2 (sv s))%nat ->
      nth m (grid s) 0 <= a2 soc j k <= nth (S m) (grid s) 0 ->
      a3 y i j k = line (nth m (grid s) 0) (a2 (sv s) i m)
                        (nth (S m) (grid s) 0) (a2 (sv s) i (S m)) (a2 soc j k).
  Proof.
    intros s internal soc y St Inc W H m i j k Hm Hv. apply value_inv in H as [L V]; [|auto|lia].
    rewrite V, linear_segment by (auto; rewrite vrow_length; auto). cbn zeta.
    destruct (clip_inner (grid s) (a2 soc j k) m Inc ltac:(lia) Hv) as [E|(E & Hm0 & Ec)].
    - rewrite E. cbn. rewrite Nat.sub_0_r, !nth_vrow by lia. reflexivity.
    - rewrite Ec, !nth_vrow by lia. rewrite E, line_left, line_right; [reflexivity|].
      apply Inc; lia.
  Qed.

  (** At a pinpoint: the stored value. *)
  Theorem C31_at_pinpoint : forall (s : sih) internal soc y,
    sstyle s = None -> increasing (grid s) -> (1 < c2 (sv s))%nat ->
    get_value spline s internal soc = Ok y ->
    forall m i j k, (m < c2 (sv s))%nat -> a2 soc j k = nth m (grid s) 0 -> a3 y i j k = a2 (sv s) i m.
  Proof.
    intros s internal soc y St Inc W H m i j k Hm E.
    pose proof (value_inv _ _ _ _ St ltac:(lia) H) as [L _].
    destruct (Nat.eq_dec (S m) (c2 (sv s))) as [e|e].
    - destruct m as [|m]; [lia|].
      rewrite (C31_on_segment s internal soc y St Inc W H m i j k); [|lia|].
      + rewrite E, line_right; [reflexivity|]. apply Inc; lia.
      + rewrite E. split; [|lra]. left. apply Inc; lia.
    - rewrite (C31_on_segment s internal soc y St Inc W H m i j k); [|lia|].
      + now rewrite E, line_left.
      + rewrite E. split; [lra|]. left. apply Inc; lia.
  Qed.

  (** Inside the grid: between the two neighbouring stored values. *)
  Theorem C31_between_neighbours : forall (s : sih) internal soc y,
    sstyle s = None -> increasing (grid s) -> (1 < c2 (sv s))%nat ->
    get_value spline s internal soc = Ok y ->
    forall m i j k, (S m < c2 (sv s))%nat ->
      nth m (grid s) 0 <= a2 soc j k <= nth (S m) (grid s) 0 ->
      Rmin (a2 (sv s) i m) (a2 (sv s) i (S m)) <= a3 y i j k <= Rmax (a2 (sv s) i m) (a2 (sv s) i (S m)).
  Proof.
    intros s internal soc y St Inc W H m i j k Hm Hv.
    pose proof (value_inv _ _ _ _ St ltac:(lia) H) as [L _].
    rewrite (C31_on_segment s internal soc y St Inc W H m i j k Hm Hv).
    apply line_between; [apply Inc; lia|exact Hv].
  Qed.

  (** Outside the grid: the first and the last segment, extended. *)
  Theorem C31_extrapolation : forall (s : sih) internal soc y,
    sstyle s = None -> increasing (grid s) -> (1 < c2 (sv s))%nat ->
    get_value spline s internal soc = Ok y ->
    forall i j k,
      (a2 soc j k <= nth 0 (grid s) 0 ->
       a3 y i j k = line (nth 0 (grid s) 0) (a2 (sv s) i 0) (nth 1 (grid s) 0) (a2 (sv s) i 1) (a2 soc j k)) /\
      (nth (c2 (sv s) - 1) (grid s) 0 <= a2 soc j k ->
       a3 y i j k = line (nth (c2 (sv s) - 2) (grid s) 0) (a2 (sv s) i (c2 (sv s) - 2))
                         (nth (c2 (sv s) - 1) (grid s) 0) (a2 (sv s) i (c2 (sv s) - 1)) (a2 soc j k)).
  Proof.
    intros s internal soc y St Inc W H i j k.
    pose proof (value_inv _ _ _ _ St ltac:(lia) H) as [L V]. split; intros Hv.
    - rewrite V, linear_segment by (auto; rewrite vrow_length; auto). cbn zeta.
      rewrite (searchsorted_unique (grid s) (a2 soc j k) 0) by (auto; lia).
      replace (clip 0 (length (grid s))) with 1%nat by (unfold clip; lia).
      cbn [Nat.sub]. rewrite !nth_vrow by lia. reflexivity.
    - destruct (Req_EM_T (a2 soc j k) (nth (c2 (sv s) - 1) (grid s) 0)) as [E|NE].
      + rewrite (C31_at_pinpoint s internal soc y St Inc W H (c2 (sv s) - 1) i j k) by (auto; lia).
        rewrite E, line_right; [reflexivity|]. apply Inc; lia.
      + rewrite V, linear_segment by (auto; rewrite vrow_length; auto). cbn zeta.
        rewrite (searchsorted_unique (grid s) (a2 soc j k) (length (grid s))); auto; try lia.
        * replace (clip (length (grid s)) (length (grid s))) with (c2 (sv s) - 1)%nat by (unfold clip; lia).
          rewrite !nth_vrow by lia. replace (c2 (sv s) - 1 - 1)%nat with (c2 (sv s) - 2)%nat by lia. reflexivity.
        * intros q Hq. destruct (Nat.eq_dec q (c2 (sv s) - 1)) as [->|]; [lra|].
          pose proof (Inc q (c2 (sv s) - 1)%nat ltac:(lia) ltac:(lia)). lra.
  Qed.

  (** Without pinpoints the grid is evenly spaced on [0, 1], hence increasing. *)
  Theorem C31_default_grid : forall (s : sih), spin s = None ->
    increasing (grid s) /\ length (grid s) = c2 (sv s) /\
    forall m, (1 < c2 (sv s))%nat -> (m < c2 (sv s))%nat ->
      nth m (grid s) 0 = INR m / INR (c2 (sv s) - 1).
  Proof.
    intros s E. unfold grid. rewrite E. split; [apply linspace_increasing; lra|].
    split; [apply linspace_length|]. intros m W Hm. rewrite linspace_nth by auto. unfold linspace_at.
    destruct (Nat.eqb_spec (c2 (sv s)) 1); [lia|]. unfold Rdiv. ring.
  Qed.

  (** ** C32 *)

  (** Storing the grid changes no later value, and happens once. *)
  Theorem C32_values_unaffected : forall (s : sih) internal soc,
    get_value spline (after_value s) internal soc = get_value spline s internal soc /\
    after_value (after_value s) = after_value s /\ sv (after_value s) = sv s.
  Proof.
    intros s internal soc. unfold after_value. destruct (Nat.eqb (c2 (sv s)) 1) eqn:E.
    - rewrite E. auto.
    - cbn [sv]. rewrite E. unfold get_value. cbn [sv]. rewrite E. repeat split.
  Qed.

  (** After an evaluation without pinpoints, values of another width (more than
      one) raise whatever the SOC; before it they would have been accepted. *)
  Theorem C32_width_frozen : forall (s : sih) (x : t2),
    spin s = None -> sstyle s = None -> c2 (sv s) <> 1%nat -> (1 < c2 x)%nat -> c2 x <> c2 (sv s) ->
    let before := {| sv := x; spin := spin s; sstyle := sstyle s |} in
    let after := {| sv := x; spin := spin (after_value s); sstyle := sstyle s |} in
    (forall internal soc, get_value spline after internal soc = Err ValueError) /\
    (forall soc, exists y, get_value spline before (r2 x) soc = Ok y).
  Proof.
    intros s x E St N W D before after. split.
    - intros internal soc. unfold get_value, after. cbn [sv].
      destruct (Nat.eqb_spec (c2 x) 1); [lia|]. unfold interp_func. cbn [sv sstyle]. unfold grid. cbn [spin].
      unfold after_value. apply Nat.eqb_neq in N. rewrite N. cbn [spin]. unfold grid. rewrite E, linspace_length.
      destruct (Nat.eqb_spec (c2 (sv s)) (c2 x)); [lia|]. reflexivity.
    - intros soc. unfold get_value, before. cbn [sv]. destruct (Nat.eqb_spec (c2 x) 1); [lia|].
      unfold interp_func, grid. cbn [sv spin sstyle]. rewrite E, linspace_length, Nat.eqb_refl, St. cbn [negb].
      destruct (Nat.eqb_spec (c2 x) 0); [lia|]. cbn [bind]. rewrite Nat.eqb_refl. eexists; reflexivity.
  Qed.
End Props.

(** ** Concrete cases *)

(** Values 1, 3, 7 on the default grid 0, 1/2, 1. *)
Definition demo : sih := {| sv := T2 1 3 (fun _ j => match j with 0%nat => 1 | 1%nat => 3 | _ => 7 end);
                            spin := None; sstyle := None |}.
Definition demo_soc : t2 := T2 1 2 (fun _ k => match k with 0%nat => 3 / 4 | _ => 1 / 2 end).

Example C31_case : exists y, get_value (fun _ _ => Err ValueError) demo 1 demo_soc = Ok y /\
  sstyle demo = None /\ increasing (grid demo) /\ (1 < c2 (sv demo))%nat /\
  nth 1 (grid demo) 0 <= a2 demo_soc 0 0 <= nth 2 (grid demo) 0 /\ a3 y 0%nat 0%nat 0%nat = 5.
Proof.
  assert (exists y, get_value (fun _ _ => Err ValueError) demo 1 demo_soc = Ok y) as [y H]
    by (eexists; reflexivity).
  assert (I : increasing (grid demo)) by (apply C31_default_grid; reflexivity).
  assert (G : forall m, (m < 3)%nat -> nth m (grid demo) 0 = INR m / INR 2).
  { intros m Hm. apply (C31_default_grid demo eq_refl); cbn; lia. }
  assert (W : (1 < c2 (sv demo))%nat) by (cbn; lia).
  assert (Hv : nth 1 (grid demo) 0 <= a2 demo_soc 0 0 <= nth 2 (grid demo) 0).
  { rewrite !G by lia. cbn. lra. }
  exists y. repeat split; try assumption; try apply Hv.
  rewrite (C31_on_segment _ demo 1 demo_soc y eq_refl I W H 1 0 0 0); [|cbn; lia|exact Hv].
  rewrite !G by lia. unfold line. cbn. field.
Qed.

(** Four values replace three: accepted before the first evaluation only. *)
Example C32_case :
  let x := T2 1 4 (fun _ _ => 2) in
  spin demo = None /\ c2 (sv demo) <> 1%nat /\ (1 < c2 x)%nat /\ c2 x <> c2 (sv demo).
Proof. cbn. repeat split; lia. Qed.

Print Assumptions C31_single_value.
Print Assumptions C31_on_segment.
Print Assumptions C31_at_pinpoint.
Print Assumptions C31_between_neighbours.
Print Assumptions C31_extrapolation.
Print Assumptions C31_default_grid.
Print Assumptions C32_values_unaffected.
Print Assumptions C32_width_frozen.
