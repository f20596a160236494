(** Specification vocabulary for conversions. *)
From mathcomp Require Import all_ssreflect all_algebra.
From Verif Require Import Res UKF Conversions.
Set Implicit Arguments.
Unset Strict Implicit.
Unset Printing Implicit Defensive.
Import Order.Theory GRing.Theory Num.Theory.
Local Open Scope ring_scope.

Section Spec.
Variable R : rcfType.

(** The four Penrose conditions, which characterise the pseudo-inverse. *)
Definition pinv_contract (pinv : forall n d, 'M[R]_(n, d) -> 'M[R]_(d, n)) : Prop :=
  forall n d (M : 'M[R]_(n, d)), let P := pinv n d M in
  [/\ M *m P *m M = M, P *m M *m P = P, (M *m P)^T = M *m P & (P *m M)^T = P *m M].

(** Additive arrays that can be added to samples with d coordinates. *)
Definition fits (b : seq R) (d : nat) : Prop := size b = 1%N \/ size b = d.

(** Factors that can be inverted, for n coordinates. *)
Definition invertible (n : nat) (multi : ndarray R) : Prop :=
  match multi with
  | Scalar m => m != 0
  | Vector v => size v = n /\ forall i, (i < n)%N -> nth 0 v i != 0
  | Table a => exists M, of_shape n n a = Some M /\ M \in unitmx
  | Deeper => False
  end.

(** The inverse methods undo the forward methods. *)
Definition undoes (n d : nat) (c : conversion R n d) : Prop :=
  (forall k (X : 'M[R]_(k, n)), exists Y, transform_samples c X = Ok Y /\ inverse_transform_samples c Y = Ok X) /\
  (forall S p q, exists T, transform_covariance c S p = Ok T /\ inverse_transform_covariance c T q = Ok S).
(** The forward methods undo the inverse methods. *)
Definition redoes (n d : nat) (c : conversion R n d) : Prop :=
  (forall k (Y : 'M[R]_(k, d)), exists X, inverse_transform_samples c Y = Ok X /\ transform_samples c X = Ok Y) /\
  (forall T p q, exists S, inverse_transform_covariance c T q = Ok S /\ transform_covariance c S p = Ok T).

(** Mean and covariance of weighted samples (the rows of X). *)
Definition weighted_mean (k n : nat) (w : 'rV[R]_k) (X : 'M[R]_(k, n)) : 'rV[R]_n := \sum_i w 0 i *: row i X.
Definition weighted_covariance (k n : nat) (w : 'rV[R]_k) (X : 'M[R]_(k, n)) : 'M[R]_n :=
  let mu := weighted_mean w X in \sum_i w 0 i *: ((row i X - mu)^T *m (row i X - mu)).
End Spec.
