(** Vocabulary for the properties of the joint estimator with the unscented Kalman
    filter. *)
From Coq Require Import List.
From mathcomp Require Import all_ssreflect all_algebra.
From Verif Require Import Res Arr Wrappers Spec_Wrappers Estimators Spec_UKF UKF Properties_UKF_runs JointUKF.
Set Implicit Arguments.
Unset Strict Implicit.
Unset Printing Implicit Defensive.
Local Open Scope ring_scope.

Section Spec.
Variable R : rcfType.

(** A function on batches with n columns that treats the rows of batches of two or more
    separately, giving m columns; or else raises the same exception for all of them
    (because it does not like its other arguments).  The filter works with three or more
    hidden states at once. *)
Definition separately (n m : nat) (F : arr R -> res (arr R)) : Prop :=
  (exists e, forall x, batch_of R n x -> (1 < anrows x)%N -> F x = Err e) \/
  (exists g : list R -> list R, forall x, batch_of R n x -> (1 < anrows x)%N -> F x = Ok (mkArr m (List.map g (arows x)))).

(** The model of the wrapper does, whatever the controls. *)
Definition separates (w : wrapper R) : Prop :=
  let n := num_hidden_dimensions R w in
  (forall u u', separately n n (fun x => joint_update R w x u u')) /\
  (forall u, separately n (num_outputs R w) (fun x => joint_predict R w x u)).

(** An estimator that starts with positive definite covariances, and with a tuning that
    keeps them so. *)
Definition starts_healthy (e : joint R (any_ukf R)) : Prop := healthy (the_ukf (j_filter R (any_ukf R) e)).

(** The array is a symmetric positive definite matrix. *)
Definition posdef_array (x : arr R) : Prop := exists n (P : 'M[R]_n), posdef P /\ x = arr_of P.

(** Initial covariances of this kind, and noise of this kind if it is given. *)
Definition posdef_initial (cov : initial_covariance R) : Prop :=
  match cov with CovJoint s => posdef_array s | CovParts t a => posdef_array t /\ posdef_array a end.
Definition posdef_given (o : option (arr R)) : Prop := match o with None => True | Some x => posdef_array x end.

(** A tuning of the filter for which the weight of the central sigma point does no harm. *)
Definition safe_tuning (alpha : R) (kappa : option R) (beta : R) : Prop :=
  alpha ^+ 2 <= beta \/ exists k, kappa = Some k /\ 0 <= k.

(** Process noise was specified: for the joint state, or for both of its parts. *)
Definition noise_given (joint_noise transient_noise asoh_noise : option (arr R)) : Prop :=
  joint_noise <> None \/ (transient_noise <> None /\ asoh_noise <> None).
End Spec.
