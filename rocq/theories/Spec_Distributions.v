(** What it means to combine independent random vectors. *)
From Coq Require Import List Arith Reals.
Import ListNotations.
From Verif Require Import Res Arr NdArray Distributions.

(** A Gaussian with an n-dimensional mean (n >= 1) and an n by n covariance. *)
Definition valid {A} (n : nat) (d : dist A) : Prop :=
  1 <= n /\ length (d_mean d) = n /\ acols (d_cov d) = n /\ length (arows (d_cov d)) = n /\
  Forall (fun r => length r = n) (arows (d_cov d)).

(** Entry (i, j) of a matrix. *)
Definition at_ {A} (z : A) (m : arr A) (i j : nat) : A := nth j (nth i (arows m) []) z.

(** Where the coordinates of the p-th distribution start in the combination. *)
Definition offset {A} (l : list (dist A)) (p : nat) : nat :=
  list_sum (map (fun d => length (d_mean d)) (firstn p l)).

Definition symmetric {A} (z : A) (m : arr A) : Prop :=
  forall i j, i < acols m -> j < acols m -> at_ z m i j = at_ z m j i.

(** Non-negative quadratic form. *)
Fixpoint total (n : nat) (f : nat -> R) : R :=
  match n with 0 => 0%R | S k => (total k f + f k)%R end.
Definition psd (m : arr R) : Prop :=
  forall x : nat -> R,
  (0 <= total (acols m) (fun i => total (acols m) (fun j => x i * at_ 0 m i j * x j)))%R.
