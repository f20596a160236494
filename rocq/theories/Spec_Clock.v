(** Inputs at other times. *)
From Coq Require Import Reals List.
Import ListNotations.
From Verif Require Import ECM Spec_ECM.
Local Open Scope R_scope.

(** The clock shows D more. *)
Definition delayed (D : R) (u : cinput) : cinput := {| ut := ut u + D; ui := ui u; uT := uT u |}.
Definition all_delayed (D : R) (l : list (cinput * R)) : list (cinput * R) := map (fun x => (delayed D (fst x), snd x)) l.
