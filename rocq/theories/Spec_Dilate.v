(** Changing the unit of time. *)
From Coq Require Import Reals List Arith.
Import ListNotations.
From Verif Require Import NdR Interp ECM Spec_ECM Spec_Pack.
Open Scope R_scope.

(** A circuit that is k times slower: k times the capacity and the capacitances, and the same
    resistances and voltages. *)
Definition slower (k : R) (a : ecm_asoh) : ecm_asoh :=
  {| q_t := {| q_base := times k (q_base (q_t a)) |}; ce := ce a; oc := oc a; r0 := r0 a;
     c0 := option_map (values_times k) (c0 a);
     rcs := map (fun e => {| rc_r := rc_r e; rc_c := values_times k (rc_c e) |}) (rcs a); h0 := h0 a |}.
Definition slower_state (k : R) (s : ecm_state) : ecm_state :=
  {| soc := soc s; q0 := option_map (times k) (q0 s); i_rc := i_rc s; hyst := hyst s |}.
(** The same currents and temperatures at k times the times. *)
Definition slower_input (k : R) (u : ecm_input) : ecm_input :=
  {| time := times k (time u); current := current u; temperature := temperature u |}.
(** Capacitances that are single values or interpolated linearly. *)
Definition linear_capacitances (a : ecm_asoh) : Prop :=
  opt piecewise_linear (c0 a) /\ Forall (fun e => piecewise_linear (rc_c e)) (rcs a).
