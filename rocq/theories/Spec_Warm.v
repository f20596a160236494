(** Inputs with temperatures instead of missing ones. *)
From Coq Require Import Reals List.
Import ListNotations.
From Verif Require Import ECM Spec_ECM Spec_Temperature.

(** Inputs and measurements, with the temperature T wherever an input has none. *)
Definition warm (T : R) (l : list (cinput * R)) : list (cinput * R) := map (fun x => (at_least T (fst x), snd x)) l.
