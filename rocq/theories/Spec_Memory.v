(** What a cell remembers of the state it started from. *)
From Coq Require Import Reals List Arith.
Import ListNotations.
From Verif Require Import NdR Interp ECM Spec_ECM.
Open Scope R_scope.

(** The differences between the RC currents of two states. *)
Definition current_differences (s s' : cstate) : list R := map (fun x => snd x - fst x) (combine (xi s) (xi s')).
(** The charge moved in either direction from the input p to the last one of us, each piece
    times the efficiency that applies to it. *)
Fixpoint throughput (c : cell) (p : cinput) (us : list cinput) : R :=
  match us with
  | [] => 0
  | u :: us' => efficiency c (ui p) * (Rabs (ui p) * (ut u - ut p)) + throughput c u us'
  end.
(** Two states with the same state of charge and the same charge on the series capacitor. *)
Definition same_charge (s s' : cstate) : Prop := xsoc s' = xsoc s /\ xq s' = xq s.
