(** Vocabulary for runs of an estimator around the equivalent circuit model. *)
From Coq Require Import Reals String List Arith.
Import ListNotations.
From Verif Require Import Res Arr NdArray Container Spec_Container Health Spec_Health NdR Interp Simulator ECM Spec_ECM ECM_objects
  Wrappers Spec_Wrappers Spec_ECM_objects.
Local Open Scope string_scope.
Local Open Scope list_scope.
Local Open Scope nat_scope.

(** The health variable, transient state and inputs of one cell, with or without series
    capacitor, and with or without a temperature among the inputs: well-formed and not
    batched, with the circuit e in the health variable, each of whose quantities has a
    usable grid of states of charge, and with the values p in the inputs. *)
Record one_cell (spline : nat -> list R -> res (list R -> R -> R)) (X : settings) (capacitor temp : bool) (a : hv R) (t u : container R) (e : ecm_asoh) (p : cinput) : Prop := OneCell {
  on_tree : well_formed_tree a;
  on_unbatched : unbatched a;
  on_circuit : circuit_of X a e;
  on_usable : usable_asoh spline e;
  on_shape : asoh_ok 1 e;
  on_capacitor : capacitor = true -> c0 e <> None;
  on_state : well_formed t /\ has_batch t 1 /\ layout R t = state_layout capacitor (List.length (rcs e));
  on_inputs : well_formed u /\ has_batch u 1 /\ layout R u = input_layout temp;
  on_values : input_fits temp p /\ to_numpy u = Ok (one_row (input_values p)) }.

(** Inputs and measured voltages that can follow the given input: with or without
    temperatures like it, one number for each quantity, and, if the inputs are taken to vary
    linearly between the steps, no two consecutive ones at the same time. *)
Fixpoint usable_history (mode : behavior) (temp : bool) (previous : cinput) (hist : list (container R * container R)) : Prop :=
  match hist with
  | [] => True
  | (i, m) :: rest => exists u v,
      to_numpy i = Ok (one_row (input_values u)) /\ input_fits temp u /\ to_numpy m = Ok (one_row [v]) /\
      (mode = Linear -> ut u <> ut previous) /\ usable_history mode temp u rest
  end.
