(** Adding currents. *)
From Coq Require Import Reals List Arith.
Import ListNotations.
From Verif Require Import NdR Interp ECM Spec_ECM.
Open Scope R_scope.

Section Mixture.
Variables al be : R.
(** The same time and temperature, and al times the first current and be times the second. *)
Definition mixed_input (u1 u2 u : cinput) : Prop :=
  ut u1 = ut u /\ ut u2 = ut u /\ uT u1 = uT u /\ uT u2 = uT u /\ ui u = al * ui u1 + be * ui u2.
(** The same of all elements of lists of inputs, and of lists of numbers. *)
Inductive all3 {A} (P : A -> A -> A -> Prop) : list A -> list A -> list A -> Prop :=
| all3_nil : all3 P [] [] []
| all3_cons x y z l1 l2 l3 : P x y z -> all3 P l1 l2 l3 -> all3 P (x :: l1) (y :: l2) (z :: l3).
Definition mixed (x y z : R) : Prop := z = al * x + be * y.
(** The charge on the series capacitor and the currents of the RC elements are so mixed. *)
Definition mixed_circuit (s1 s2 s : cstate) : Prop :=
  match xq s1, xq s2, xq s with Some x, Some y, Some z => mixed x y z | None, None, None => True | _, _, _ => False end /\
  all3 mixed (xi s1) (xi s2) (xi s).
End Mixture.

(** Resistances and capacitances that do not depend on the state of charge. *)
Record flat_circuit (c : cell) : Prop := {
  flat_r0 : forall T v v', R0_ c v T = R0_ c v' T;
  flat_c0 : forall v v', C0_ c v = C0_ c v';
  flat_rc : Forall (fun e => forall v v' T, fst e v T = fst e v' T /\ snd e v = snd e v') (RC_ c) }.
(** The part of a terminal voltage that is neither the open circuit voltage nor hysteresis. *)
Definition drop (c : cell) (u : cinput) (s : cstate) (v : R) : R := v - OCV_ c (xsoc s) (uT u) - xh s.
