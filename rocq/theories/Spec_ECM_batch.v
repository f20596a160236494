(** Which batches of circuits can be evaluated at once: conditions on the numbers of rows
    of the parameters. *)
From Coq Require Import Reals List Arith.
Import ListNotations.
From Verif Require Import Res NdR Interp ECM Spec_ECM.
Local Open Scope nat_scope.

(** Number of members for which an interpolated parameter has its own values. *)
Definition members (s : sih) : nat := r2 (sv s).

(** A parameter with a companion in the same component: the companion may vary over the
    batch only if the parameter does, unless the parameter is a single value. *)
Definition together (s : sih) (companion : t2) : Prop :=
  c2 (sv s) = 1 \/ r2 companion = 1 \/ r2 companion = members s.

(** A resistance: if temperatures are given, its temperature factor does not vary. *)
Definition resistance_evaluable (temp : bool) (r : resistance) : Prop :=
  together (res_sih r) (res_fac r) /\ (temp = true -> r2 (res_fac r) = 1).

(** The open circuit voltage at [rows] states of charge: if temperatures are given, the
    entropic part varies only with the reference part, and the reference temperature only
    with the states of charge. *)
Definition ocv_evaluable (temp : bool) (rows : nat) (o : ocv) : Prop :=
  together (ocv_ref o) (ocv_tref o) /\
  (temp = true -> (members (ocv_ent o) = 1 \/ members (ocv_ent o) = members (ocv_ref o)) /\
                  (r2 (ocv_tref o) = 1 \/ r2 (ocv_tref o) = rows)).

(** The same number for all elements. *)
Definition all_same {A} (f : A -> nat) (l : list A) : Prop := forall x y, In x l -> In y l -> f x = f y.
Definition rc_members (c : rc) : nat := Nat.max (members (res_sih (rc_r c))) (members (rc_c c)).

(** What an update evaluates: the hysteresis, and the time constants of the RC elements,
    which all or none vary over the batch. *)
Definition update_evaluable (temp : bool) (a : ecm_asoh) : Prop :=
  together (hys_sih (h0 a)) (hys_gamma (h0 a)) /\
  Forall (fun c => resistance_evaluable temp (rc_r c)) (rcs a) /\ all_same rc_members (rcs a).
(** What a voltage evaluates: open circuit voltage, resistance, and the resistances of
    the RC elements, which all or none vary. *)
Definition voltage_evaluable (temp : bool) (rows : nat) (a : ecm_asoh) : Prop :=
  ocv_evaluable temp rows (oc a) /\ resistance_evaluable temp (r0 a) /\
  Forall (fun c => resistance_evaluable temp (rc_r c)) (rcs a) /\
  all_same (fun c => members (res_sih (rc_r c))) (rcs a).

Definition given {A} (o : option A) : bool := match o with None => false | Some _ => true end.
