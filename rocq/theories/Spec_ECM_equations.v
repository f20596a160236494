(** The equations that a filter around the equivalent circuit model of one cell has to use:
    how the numbers in its vectors evolve and which voltage they predict.  Written in terms
    of one cell only (Spec_ECM.v), without arrays, wrappers or filters. *)
From Coq Require Import Reals String List Arith.
Import ListNotations.
From Verif Require Import Res Arr Container Health Spec_Health NdR Interp Simulator ECM Spec_ECM Wrappers ECM_objects Spec_ECM_objects.
Local Open Scope string_scope.
Local Open Scope list_scope.
Local Open Scope nat_scope.

(** The state whose values are the given numbers: state of charge, charge of the series
    capacitor (if any), RC currents, hysteresis. *)
Definition read_values (capacitor : bool) (l : list R) : cstate :=
  {| xsoc := nth 0 l 0%R;
     xq := if capacitor then Some (nth 1 l 0%R) else None;
     xi := removelast (skipn (if capacitor then 2 else 1) l);
     xh := last l 0%R |}.

(** The circuit that the health variable describes once the parameters of the given names
    have the given numbers. *)
Definition circuit_with (spline : nat -> list R -> res (list R -> R -> R)) (X : settings)
  (a : hv R) (names : list string) (theta : list R) (c : cell) : Prop :=
  exists h e, snd (hv_make_copy a (V2 (one_row theta)) names) = Ok h /\ circuit_of X h e /\ c = Spec_ECM.cell_of spline e 0.

Section Equations.
Variables (mode : behavior) (capacitor : bool).

(** * One filter for the transient state and the health parameters

    The first [nt] numbers are those of the transient state, the others the parameters. *)
Definition joint_next (circuit : list R -> cell) (nt : nat) (p u : cinput) (x : list R) : list R :=
  values (next mode (circuit (skipn nt x)) p u (read_values capacitor (firstn nt x))) ++ skipn nt x.
Definition joint_voltage (circuit : list R -> cell) (nt : nat) (u : cinput) (x : list R) : list R :=
  [voltage (circuit (skipn nt x)) u (read_values capacitor (firstn nt x))].

(** * One filter for each

    That of the transient state, for a known circuit. *)
Definition transient_next (c : cell) (p u : cinput) (x : list R) : list R := values (next mode c p u (read_values capacitor x)).
Definition transient_voltage (c : cell) (u : cinput) (x : list R) : list R := [voltage c u (read_values capacitor x)].
(** That of the parameters, for a known transient state before the step: the parameters do
    not change, and the voltage is that of the state which the circuit reaches. *)
Definition health_next (theta : list R) : list R := theta.
Definition health_voltage (circuit : list R -> cell) (x : list R) (p u : cinput) (theta : list R) : list R :=
  [voltage (circuit theta) u (next mode (circuit theta) p u (read_values capacitor x))].
End Equations.

(** A history of inputs and voltages, as containers and as numbers. *)
Definition records (hist : list (container R * container R)) (l : list (cinput * R)) : Prop :=
  Forall2 (fun im uv => to_numpy (fst im) = Ok (one_row (input_values (fst uv))) /\
                        to_numpy (snd im) = Ok (one_row [snd uv])) hist l.
(** Inputs with or without temperature, like the first, and, if they are taken to vary
    linearly between the steps, no two consecutive ones at the same time. *)
Fixpoint usable_inputs (mode : behavior) (temp : bool) (previous : cinput) (l : list (cinput * R)) : Prop :=
  match l with
  | [] => True
  | (u, _) :: rest => input_fits temp u /\ (mode = Linear -> ut u <> ut previous) /\ usable_inputs mode temp u rest
  end.
