(** How far a cell is from the estimates and predictions of a filter. *)
From Coq Require Import Reals List.
From mathcomp Require Import all_ssreflect all_algebra.
From Verif Require Import Cholesky UKF Spec_UKF Spec_Track JointUKF RealField ECM Spec_ECM Spec_ECM_objects.
Set Implicit Arguments.
Unset Strict Implicit.
Unset Printing Implicit Defensive.
Local Open Scope ring_scope.

(** After every step, the estimates are within a squared distance of the state and the
    parameters of the cell, and the predicted voltages within the same distance of the measured
    ones: the initial squared distance [b] plus the squares of the errors of the measurements
    so far, relative to the variance [V].  The cell [c] with parameters [theta] is in state [s]
    after input [p]; the errors are those of [Spec_ECM_track.measured]. *)
Fixpoint tracked (n : nat) (mode : behavior) (c : cell) (theta : list R) (V : reals) (b : reals) (p : cinput) (s : cstate)
  (errors : list (cinput * R)) (outs : seq (gaussian reals n * gaussian reals 1)) : Prop :=
  match errors, outs with
  | [::], [::] => True
  | (u, err) :: errors', (x, y) :: outs' =>
    let s' := next mode c p u s in
    let b' := b + (err : reals) ^+ 2 / V in
    [/\ posdef (covariance x), distance (covariance x) (vec_of (R := reals) n (values s' ++ theta) - mean x) <= b',
        posdef (covariance y), distance (covariance y) (vec_of (R := reals) 1 [:: (voltage c u s' + err)%Re] - mean y) <= b' &
        tracked mode c theta V b' u s' errors' outs']
  | _, _ => False
  end.
