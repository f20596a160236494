(** States made for a circuit: what they should hold. *)
From Coq Require Import Reals String List Arith.
Import ListNotations.
From Verif Require Import Res Container ECM Spec_ECM ECM_objects Spec_ECM_objects.
Local Open Scope list_scope.

(** The currents asked for: none, one for all elements, or one for each. *)
Definition currents_of (n : nat) (i : currents) : list R :=
  match i with
  | NoCurrents => repeat 0%R n
  | OneCurrent x => repeat x n
  | Currents l => l
  end.
Definition currents_fit (n : nat) (i : currents) : Prop := match i with Currents l => List.length l = n | _ => True end.
Definition template_state (has_C0 : bool) (n : nat) (s q : R) (i : currents) (h : R) : cstate :=
  {| xsoc := s; xq := if has_C0 then Some q else None; xi := currents_of n i; xh := h |}.
