(** Cells at rest: how much a quantity changes with the state of charge, and what rest is. *)
From Coq Require Import Reals List Arith.
Import ListNotations.
From Verif Require Import NdR Interp ECM Spec_ECM.
Open Scope R_scope.

(** From each point to the next one, the values grow by at least L and at most U times the
    distance of the points. *)
Definition steps_between (L U : R) (xs ys : list R) : Prop :=
  forall m, (S m < length xs)%nat ->
    L * (nth (S m) xs 0 - nth m xs 0) <= nth (S m) ys 0 - nth m ys 0 <= U * (nth (S m) xs 0 - nth m xs 0).
(** The same between any two arguments of a function. *)
Definition changes_between (L U : R) (f : R -> R) : Prop :=
  forall v v', v <= v' -> L * (v' - v) <= f v' - f v <= U * (v' - v).

(** The values of member b of a quantity given at several states of charge. *)
Definition stored (s : sih) (b : nat) : list R := map (row (sv s) b) (seq 0 (c2 (sv s))).
(** Linear interpolation through an increasing grid, the values of member b growing by L to
    U per unit of the state of charge; or a single value. *)
Definition grows_between (L U : R) (s : sih) (b : nat) : Prop :=
  (c2 (sv s) = 1%nat /\ L <= 0 <= U) \/
  ((1 < c2 (sv s))%nat /\ length (grid s) = c2 (sv s) /\ sstyle s = None /\
   (forall i j, (i < j)%nat -> (j < length (grid s))%nat -> nth i (grid s) 0 < nth j (grid s) 0) /\
   steps_between L U (grid s) (stored s b)).

(** Member b is at rest: no currents, no charge on the series capacitor, no hysteresis. *)
Definition at_rest (b n : nat) (s : ecm_state) : Prop :=
  opt (fun q => num q b = 0) (q0 s) /\ (forall j, (j < n)%nat -> row (i_rc s) b j = 0) /\ num (hyst s) b = 0.

(** The voltage that remains when the RC currents have died away. *)
Definition settled_voltage (c : cell) (T : option R) (s : cstate) : R :=
  OCV_ c (xsoc s) T + match xq s with None => 0 | Some q => q / C0_ c (xsoc s) end + xh s.
(** The size of the voltages over the RC elements. *)
Definition rc_drop (c : cell) (T : option R) (s : cstate) : R :=
  fold_right Rplus 0 (map (fun x => Rabs (fst x * fst (snd x) (xsoc s) T)) (combine (xi s) (RC_ c))).
(** No element is slower than tau. *)
Definition time_constants_below (c : cell) (tau : R) (T : option R) (v : R) : Prop :=
  Forall (fun x => 0 < fst x v T * snd x v <= tau) (RC_ c).
(** Inputs without current at the temperature T. *)
Definition resting (T : option R) (u : cinput) : Prop := ui u = 0 /\ uT u = T.
