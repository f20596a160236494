(** N-dimensional arrays with row-major data, and [enforce_dimensions]. *)
From Coq Require Import List Arith Bool.
Import ListNotations.
From Verif Require Import Res Arr.

(** A NumPy array: its shape and its values in row-major (C) order. *)
Record nd (A : Type) : Type := mkNd { nshape : list nat; ndata : list A }.
Arguments mkNd {A} _ _.
Arguments nshape {A} _.
Arguments ndata {A} _.

Definition size_of (shape : list nat) : nat := fold_right Nat.mul 1 shape.
Definition wf_nd {A} (x : nd A) : Prop := length (ndata x) = size_of (nshape x).

(** [np.squeeze(x)]: drops every axis of length one; values unchanged. *)
Definition squeeze {A} (x : nd A) : nd A :=
  mkNd (filter (fun n => negb (Nat.eqb n 1)) (nshape x)) (ndata x).

(** [np.atleast_1d(x)]. *)
Definition atleast_1d {A} (x : nd A) : nd A :=
  match nshape x with [] => mkNd [1] (ndata x) | _ => x end.

(** [np.atleast_2d(x)]. *)
Definition atleast_2d {A} (x : nd A) : nd A :=
  match nshape x with
  | [] => mkNd [1; 1] (ndata x)
  | [n] => mkNd [1; n] (ndata x)
  | _ => x
  end.

(** [x[:, None]]: a new axis of length one after the first axis; IndexError if
    there is no axis. *)
Definition add_axis_1 {A} (x : nd A) : res (nd A) :=
  match nshape x with
  | [] => Err IndexError
  | n :: rest => Ok (mkNd (n :: 1 :: rest) (ndata x))
  end.

(** base.py lines 16-39, [enforce_dimensions].  The conversion [np.array(x)] of
    nested Python lists is not modelled: the argument is already an array. *)
Definition enforce_dimensions {A} (x : nd A) (dim : nat) : res (nd A) :=
  match dim with
  | 0 =>
    let x := squeeze x in
    if Nat.ltb 1 (length (nshape x)) then Err ValueError
    else add_axis_1 (atleast_1d x)
  | 1 => Ok (atleast_2d x)
  | _ => Err ValueError
  end.

(** The argument of a setter: a number, a vector or a matrix. *)
Inductive arg (A : Type) : Type := ANum (a : A) | AVec (v : list A) | AMat (m : arr A).
Arguments ANum {A} _.
Arguments AVec {A} _.
Arguments AMat {A} _.

Definition arg_nd {A} (x : arg A) : nd A :=
  match x with
  | ANum a => mkNd [] [a]
  | AVec v => mkNd [length v] v
  | AMat m => mkNd [anrows m; acols m] (concat (arows m))
  end.

(** Rows of width [c] cut from row-major data. *)
Fixpoint rows_of {A} (r c : nat) (d : list A) : list (list A) :=
  match r with
  | 0 => []
  | S r' => firstn c d :: rows_of r' c (skipn c d)
  end.

(** The 2-D view; [None] for other dimensionalities. *)
Definition nd_arr {A} (x : nd A) : option (arr A) :=
  match nshape x with
  | [r; c] => Some (mkArr c (rows_of r c (ndata x)))
  | _ => None
  end.
