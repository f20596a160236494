(** Two-dimensional NumPy arrays, as used for every stored quantity. *)
From Coq Require Import List Arith Lia.
Import ListNotations.
From Verif Require Import Res.

(** A 2-D array of shape (length arows, acols); the number of columns is kept
    explicitly so that arrays without rows still have a width. *)
Record arr (A : Type) : Type := mkArr { acols : nat; arows : list (list A) }.
Arguments mkArr {A} _ _.
Arguments acols {A} _.
Arguments arows {A} _.

Definition anrows {A} (m : arr A) : nat := length (arows m).

(** Every row has the declared width: what makes the record an array. *)
Definition wf_arr {A} (m : arr A) : Prop :=
  Forall (fun r => length r = acols m) (arows m).

(** [values[:, b:e]] for 0 <= b <= e (NumPy clips both bounds to the width). *)
Definition slice_cols {A} (b e : nat) (m : arr A) : arr A :=
  mkArr (Nat.min e (acols m) - b)
        (map (fun r => firstn (e - b) (skipn b r)) (arows m)).

(** Row-wise concatenation of two lists of rows. *)
Fixpoint zip_app {A} (xs ys : list (list A)) : list (list A) :=
  match xs, ys with
  | x :: xs', y :: ys' => (x ++ y) :: zip_app xs' ys'
  | _, _ => []
  end.

(** [np.concatenate(l, axis=1)]: an error for an empty list or when the numbers
    of rows differ. *)
Fixpoint hcat_from {A} (m : arr A) (l : list (arr A)) : res (arr A) :=
  match l with
  | [] => Ok m
  | x :: t =>
    if Nat.eqb (anrows m) (anrows x)
    then hcat_from (mkArr (acols m + acols x) (zip_app (arows m) (arows x))) t
    else Err ValueError
  end.

Definition hconcat {A} (l : list (arr A)) : res (arr A) :=
  match l with
  | [] => Err ValueError
  | m :: t => hcat_from m t
  end.

(** [np.concatenate(l, axis=0)]: an error for an empty list or different widths. *)
Fixpoint vcat_from {A} (m : arr A) (l : list (arr A)) : res (arr A) :=
  match l with
  | [] => Ok m
  | x :: t =>
    if Nat.eqb (acols m) (acols x)
    then vcat_from (mkArr (acols m) (arows m ++ arows x)) t
    else Err ValueError
  end.

Definition vconcat {A} (l : list (arr A)) : res (arr A) :=
  match l with
  | [] => Err ValueError
  | m :: t => vcat_from m t
  end.

(** [np.repeat(m, n, axis=0)]: every row n times, consecutively. *)
Definition repeat_rows {A} (n : nat) (m : arr A) : arr A :=
  mkArr (acols m) (flat_map (fun r => repeat r n) (arows m)).

(** The result of broadcasting an array with batch dimension 1 (or already n)
    to n rows, the row count written independently of [repeat_rows]. *)
Definition broadcast_rows {A} (n : nat) (m : arr A) : arr A :=
  match arows m with
  | [r] => mkArr (acols m) (repeat r n)
  | _ => m
  end.

(** [m[i]] as a list of row values. *)
Definition row {A} (i : nat) (m : arr A) : option (list A) := nth_error (arows m) i.

(** [m[i, j]]. *)
Definition entry {A} (i j : nat) (m : arr A) : option A :=
  match nth_error (arows m) i with
  | Some r => nth_error r j
  | None => None
  end.

(** Column j as a list, [m[:, j]]. *)
Definition column {A} (j : nat) (m : arr A) : list (option A) :=
  map (fun r => nth_error r j) (arows m).

(** An array given either as a vector or as a 2-D array (the two kinds of
    argument accepted by the value setters). *)
Inductive vals (A : Type) : Type := V1 (v : list A) | V2 (m : arr A).
Arguments V1 {A} _.
Arguments V2 {A} _.

(** [if values.ndim == 1: values = values[None, :]]. *)
Definition as2d {A} (v : vals A) : arr A :=
  match v with V1 l => mkArr (length l) [l] | V2 m => m end.

Definition wf_vals {A} (v : vals A) : Prop :=
  match v with V1 _ => True | V2 m => wf_arr m end.
