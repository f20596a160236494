(** Vocabulary for the properties of the dual estimator with unscented Kalman filters. *)
From Coq Require Import List.
From mathcomp Require Import all_ssreflect all_algebra.
From Verif Require Import Res Arr Wrappers Spec_Wrappers Estimators Spec_UKF UKF Properties_UKF_runs JointUKF Spec_JointUKF DualUKF.
Set Implicit Arguments.
Unset Strict Implicit.
Unset Printing Implicit Defensive.
Local Open Scope ring_scope.

Section Spec.
Variable R : rcfType.

(** Two independent Gaussian vectors as one: the means after each other, the covariances in
    blocks. *)
Definition joined n m (x : gaussian R n) (y : gaussian R m) : gaussian R (n + m) :=
  Gauss (row_mx (mean x) (mean y)) (block_mx (covariance x) 0 0 (covariance y)).

(** Both filters start with positive definite covariances, and with a tuning that keeps them
    so. *)
Definition dual_starts_healthy (e : dual R (any_ukf R) (any_ukf R * Container.container R)) : Prop :=
  healthy (the_ukf (d_tfilter R _ _ e)) /\ healthy (the_ukf (d_afilter R _ _ e).1).
End Spec.
