(** What simulating a cell means: a trajectory of transient states, health
    values and outputs, one triple per input, without reference to the simulator
    object. *)
From Coq Require Import List.
Import ListNotations.
From Verif Require Import Res Simulator.

Section Spec.
  Context {In Tr As Out : Type} (M : cell_model In Tr As Out) (D : degradation_model In Tr As Out).

  (** From health [a], state [t] and previous input [p], the inputs lead to the
      listed states. *)
  Inductive trajectory : As -> Tr -> In -> list In -> list (Tr * As * Out) -> Prop :=
  | traj_nil a t p : trajectory a t p [] []
  | traj_cons a t p u us t' a1 a2 a3 y rest :
      cm_update M p u t a = (a1, Ok t') ->
      cm_voltage M u t' a1 = (a2, Ok y) ->
      D a2 u t' y = Ok a3 ->
      trajectory a3 t' u us rest ->
      trajectory a t p (u :: us) ((t', a3, y) :: rest).
End Spec.

Definition tr_of {Tr As Out} (x : Tr * As * Out) : Tr := fst (fst x).
Definition as_of {Tr As Out} (x : Tr * As * Out) : As := snd (fst x).
Definition out_of {Tr As Out} (x : Tr * As * Out) : Out := snd x.
