(** What a missing temperature should mean. *)
From Coq Require Import Reals List.
Import ListNotations.
From Verif Require Import NdR Interp ECM Spec_ECM.
Local Open Scope list_scope.

(** The parameters of a circuit were measured at the temperature T: it is the reference
    temperature of the open-circuit voltage, and of all resistances that have one. *)
Definition measured_at (T : R) (e : ecm_asoh) : Prop :=
  num (ocv_tref (oc e)) 0 = T /\ (forall x, res_tref (r0 e) = Some x -> x = T) /\
  forall c x, In c (rcs e) -> res_tref (rc_r c) = Some x -> x = T.
(** An input with the temperature T unless it has one. *)
Definition at_least (T : R) (u : cinput) : cinput :=
  {| ut := ut u; ui := ui u; uT := Some (match uT u with Some x => x | None => T end) |}.
