(** What the file of a run of an estimator around the equivalent circuit model should hold. *)
From Coq Require Import Reals String List.
From mathcomp Require Import all_ssreflect all_algebra.
From Verif Require Import Res Arr Container HDF5 Spec_HDF5 Interface Spec_Interface Spec_ECM Spec_ECM_objects UKF JointUKF RealField.
Set Implicit Arguments.
Unset Strict Implicit.
Unset Printing Implicit Defensive.
Local Open Scope ring_scope.

(** The cycle numbers of all rows of a table but the first. *)
Definition numbered (cycle_of : R -> res nat) (f : frame R) (cycles : list nat) : Prop :=
  List.Forall2 (fun row n => exists c, reads R (f_columns R f) row "cycle_number"%string c /\ cycle_of c = Ok n) (behead (f_rows R f)) cycles.
(** The steps to be stored: times, cycle numbers and estimates. *)
Fixpoint steps_of n (l : list (cinput * R)) (cycles : list nat) (outs : seq (gaussian reals n * gaussian reals 1)) : list (Spec_HDF5.step R) :=
  match l, cycles, outs with
  | uv :: l, c :: cycles, o :: outs => Spec_HDF5.Step (ut uv.1) c (gaussian_of o.1) (gaussian_of o.2) :: steps_of l cycles outs
  | _, _, _ => [::]
  end.
(** Cycle numbers that grow by at most one at a time, apart from those the file has space for
    from the beginning (0 to 128). *)
Definition steadily (cycles : list nat) : Prop :=
  forall l1 c l2, cycles = (l1 ++ c :: l2)%list -> (c <= 128)%coq_nat \/ exists y, List.In y l1 /\ (c <= y.+1)%coq_nat.
