(** Circuits whose state and voltage depend on state and estimated parameters by affine maps,
    and the data which such a cell produces.  Written in terms of one cell (Spec_ECM.v). *)
From Coq Require Import Reals List Arith.
Import ListNotations.
From Verif Require Import ECM Spec_ECM.
Local Open Scope list_scope.
Local Open Scope R_scope.

(** The combination of numbers with coefficients. *)
Fixpoint dot (a x : list R) : R :=
  match a, x with
  | k :: a', v :: x' => k * v + dot a' x'
  | _, _ => 0
  end.

(** Resistances, capacitances and hysteresis do not depend on the state of charge, the open
    circuit voltage by an affine map.  Only open circuit voltage, series resistance and maximum
    hysteresis depend on the [m] estimated parameters, again by affine maps, with coefficients
    that may depend on the temperature. *)
Definition affine_circuits (m : nat) (circuit : list R -> cell) : Prop :=
  exists (c : cell) (ocv slope r0 : option R -> R) (maxh : R) (ocv_by r0_by : option R -> list R) (maxh_by : list R),
    Forall (fun rc : (R -> option R -> R) * (R -> R) => forall v T, fst rc v T = fst rc 0 T /\ snd rc v = snd rc 0) (RC_ c) /\
    forall theta, length theta = m ->
      Qs (circuit theta) = Qs c /\ CE (circuit theta) = CE c /\ G_ (circuit theta) = G_ c /\
      RC_ (circuit theta) = RC_ c /\ (forall v, C0_ (circuit theta) v = C0_ c 0) /\
      (forall v T, OCV_ (circuit theta) v T = ocv T + slope T * v + dot (ocv_by T) theta) /\
      (forall v T, R0_ (circuit theta) v T = r0 T + dot (r0_by T) theta) /\
      (forall v, M_ (circuit theta) v = maxh + dot maxh_by theta).

(** The voltages measured at a cell in state [s] after input [p], with errors. *)
Fixpoint measured (mode : behavior) (c : cell) (p : cinput) (s : cstate) (l : list (cinput * R)) : list (cinput * R) :=
  match l with
  | [] => []
  | (u, err) :: rest => let s' := next mode c p u s in (u, voltage c u s' + err) :: measured mode c u s' rest
  end.

(** The state of the cell after inputs. *)
Fixpoint state_after (mode : behavior) (c : cell) (p : cinput) (s : cstate) (l : list (cinput * R)) : cstate :=
  match l with
  | [] => s
  | (u, _) :: rest => state_after mode c u (next mode c p u s) rest
  end.
