(** Comparing currents and cells. *)
From Coq Require Import Reals List Arith.
Import ListNotations.
From Verif Require Import NdR Interp ECM Spec_ECM.
Open Scope R_scope.

(** The same time and temperature, and at least as much (charging) current. *)
Definition more_current (u u' : cinput) : Prop := ut u' = ut u /\ uT u' = uT u /\ ui u <= ui u'.
(** No current at all, or one that does not count as zero. *)
Definition plain_current (u : cinput) : Prop := ui u = 0 \/ / 100000000 < Rabs (ui u).

(** At a higher state of charge the open circuit voltage is not lower; the resistances, the
    capacitances and the hysteresis do not depend on the state of charge and are not
    negative. *)
Record plain_cell (c : cell) : Prop := {
  plain_charge : 0 < Qs c /\ 0 <= CE c;
  plain_ocv : forall T v v', v <= v' -> OCV_ c v T <= OCV_ c v' T;
  plain_r0 : forall T v v', R0_ c v T = R0_ c v' T /\ 0 <= R0_ c v T;
  plain_c0 : forall v v', C0_ c v = C0_ c v' /\ 0 <= C0_ c v;
  plain_rc : Forall (fun e => forall v v' T, fst e v T = fst e v' T /\ snd e v = snd e v' /\ 0 < fst e v T /\ 0 < snd e v) (RC_ c);
  plain_hysteresis : forall v v', M_ c v = M_ c v' /\ 0 <= M_ c v /\ 0 <= G_ c }.

(** No quantity of the first state is larger. *)
Definition below (s s' : cstate) : Prop :=
  xsoc s <= xsoc s' /\
  match xq s, xq s' with Some q, Some q' => q <= q' | None, None => True | _, _ => False end /\
  Forall2 Rle (xi s) (xi s') /\ xh s <= xh s'.
