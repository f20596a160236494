(** Piecewise linear interpolation, in words: strictly increasing abscissas, and
    the straight line through two points. *)
From Coq Require Import Reals List Arith.
Import ListNotations.
Open Scope R_scope.

Definition increasing (xs : list R) : Prop :=
  forall i j, (i < j)%nat -> (j < length xs)%nat -> nth i xs 0 < nth j xs 0.

(** The straight line through two points. *)
Definition line (x0 y0 x1 y1 v : R) : R := y0 + (y1 - y0) * ((v - x0) / (x1 - x0)).
