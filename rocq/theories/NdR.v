(** Real-valued NumPy arrays of two, three and four axes, with broadcasting. *)
From Coq Require Import Reals List Arith.
Import ListNotations.
From Verif Require Import Res.

(** An array is its lengths and its entries (only entries in range matter).
    Floating point numbers are modelled by real numbers. *)
Record t2 := T2 { r2 : nat; c2 : nat; a2 : nat -> nat -> R }.
Record t3 := T3 { d30 : nat; d31 : nat; d32 : nat; a3 : nat -> nat -> nat -> R }.
Record t4 := T4 { d40 : nat; d41 : nat; d42 : nat; d43 : nat; a4 : nat -> nat -> nat -> nat -> R }.

(** A 2-D array with one entry. *)
Definition sc (x : R) : t2 := T2 1 1 (fun _ _ => x).

(** Broadcasting of two axis lengths: equal, or one of them 1. *)
Definition bdim (m n : nat) : res nat :=
  if Nat.eqb m n then Ok m
  else if Nat.eqb m 1 then Ok n
  else if Nat.eqb n 1 then Ok m
  else Err ValueError.
(** The index used along an axis of length n. *)
Definition bix (n i : nat) : nat := if Nat.eqb n 1 then 0 else i.

(** Element-wise operations with broadcasting. *)
Definition bin2 (f : R -> R -> R) (x y : t2) : res t2 :=
  let! r := bdim (r2 x) (r2 y) in
  let! c := bdim (c2 x) (c2 y) in
  Ok (T2 r c (fun i j => f (a2 x (bix (r2 x) i) (bix (c2 x) j)) (a2 y (bix (r2 y) i) (bix (c2 y) j)))).
Definition bin3 (f : R -> R -> R) (x y : t3) : res t3 :=
  let! p := bdim (d30 x) (d30 y) in
  let! q := bdim (d31 x) (d31 y) in
  let! r := bdim (d32 x) (d32 y) in
  Ok (T3 p q r (fun i j k =>
    f (a3 x (bix (d30 x) i) (bix (d31 x) j) (bix (d32 x) k))
      (a3 y (bix (d30 y) i) (bix (d31 y) j) (bix (d32 y) k)))).
Definition bin4 (f : R -> R -> R) (x y : t4) : res t4 :=
  let! o := bdim (d40 x) (d40 y) in
  let! p := bdim (d41 x) (d41 y) in
  let! q := bdim (d42 x) (d42 y) in
  let! r := bdim (d43 x) (d43 y) in
  Ok (T4 o p q r (fun h i j k =>
    f (a4 x (bix (d40 x) h) (bix (d41 x) i) (bix (d42 x) j) (bix (d43 x) k))
      (a4 y (bix (d40 y) h) (bix (d41 y) i) (bix (d42 y) j) (bix (d43 y) k)))).

Definition map2 (f : R -> R) (x : t2) : t2 := T2 (r2 x) (c2 x) (fun i j => f (a2 x i j)).
Definition map3 (f : R -> R) (x : t3) : t3 := T3 (d30 x) (d31 x) (d32 x) (fun i j k => f (a3 x i j k)).

(** An array seen with a new leading axis of length one, as broadcasting does. *)
Definition up3 (x : t2) : t3 := T3 1 (r2 x) (c2 x) (fun _ i j => a2 x i j).
Definition up4 (x : t3) : t4 := T4 1 (d30 x) (d31 x) (d32 x) (fun _ i j k => a3 x i j k).

(** [np.array([...])] of a list of 3-D arrays: the shapes have to agree; the
    empty list gives a one-dimensional array, [None] here. *)
Fixpoint same_dims (x : t3) (l : list t3) : bool :=
  match l with
  | [] => true
  | y :: t => andb (andb (Nat.eqb (d30 x) (d30 y)) (andb (Nat.eqb (d31 x) (d31 y)) (Nat.eqb (d32 x) (d32 y))))
                   (same_dims x t)
  end.
Definition stack (l : list t3) : res (option t4) :=
  match l with
  | [] => Ok None
  | x :: t => if same_dims x t
              then Ok (Some (T4 (length l) (d30 x) (d31 x) (d32 x)
                               (fun h i j k => a3 (nth h l x) i j k)))
              else Err ValueError
  end.

(** [x.reshape((-1, 1))] of a 3-D array (row-major order). *)
Definition flat3 (x : t3) : t2 :=
  T2 (d30 x * d31 x * d32 x) 1
     (fun i _ => a3 x (i / (d31 x * d32 x)) ((i / d32 x) mod d31 x) (i mod d32 x)).

(** [bool(p(x))] for an array: ambiguous (ValueError) unless it has one entry. *)
Definition truth (x : t2) (p : R -> bool) : res bool :=
  if Nat.eqb (r2 x * c2 x) 1 then Ok (p (a2 x 0 0)) else Err ValueError.
Definition truth3 (x : t3) (p : R -> bool) : res bool :=
  if Nat.eqb (d30 x * d31 x * d32 x) 1 then Ok (p (a3 x 0 0 0)) else Err ValueError.

Definition Rltb (x y : R) : bool := if Rlt_dec x y then true else false.
Definition Rleb (x y : R) : bool := if Rle_dec x y then true else false.
Definition Reqb (x y : R) : bool := if Req_EM_T x y then true else false.
