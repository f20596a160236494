(** Probability distributions over vectors (moirae/estimators/online/filters/
    distributions.py), as NumPy arrays with shapes.  The values can be of any type
    with a zero. *)
From Coq Require Import List Arith Bool.
Import ListNotations.
From Verif Require Import Res Arr NdArray.

Section Dist.
Variable A : Type.
Variable zero : A.

(** * Values *)

(** Lines 110-124: the data of a [MultivariateGaussian]. *)
Record dist : Type := Dist { d_mean : list A; d_cov : arr A }.

(** [Field(min_length=1)] (lines 119-124) on an array: pydantic calls [len], which
    raises TypeError for an array without axes. *)
Definition min_length_1 (x : nd A) : res (nd A) :=
  match nshape x with
  | [] => Err TypeError
  | 0 :: _ => Err ValidationError
  | _ :: _ => Ok x
  end.

(** Lines 74-87 and 126-139, [mean_1d]: a ValueError in a validator reaches the
    caller as ValidationError. *)
Definition mean_1d (mu : nd A) : res (list A) :=
  match nshape mu with
  | [] => Err ValidationError
  | [_] => Ok (ndata mu)
  | [r; c] => Err ValidationError
  | _ => Err ValidationError
  end.

(** Lines 141-148, [cov_2d]. *)
Definition cov_2d (sigma : nd A) : res (arr A) :=
  match nshape sigma with
  | [r; c] => Ok (mkArr c (rows_of r c (ndata sigma)))
  | _ => Err ValidationError
  end.

(** Lines 150-158, [fields_dim]. *)
Definition fields_dim (d : dist) : res dist :=
  let dim := length (d_mean d) in
  if Nat.eqb (anrows (d_cov d)) dim && Nat.eqb (acols (d_cov d)) dim then Ok d
  else Err ValidationError.

(** [MultivariateGaussian(mean=mu, covariance=sigma)].  pydantic validates both
    fields and reports their errors together, except that a TypeError escapes at
    once; then the model validator runs. *)
Definition new_gaussian (mu sigma : nd A) : res dist :=
  let m := let! mu := min_length_1 mu in mean_1d mu in
  let s := let! sigma := min_length_1 sigma in cov_2d sigma in
  match m, s with
  | Err TypeError, _ => Err TypeError
  | _, Err TypeError => Err TypeError
  | Err e, _ => Err e
  | _, Err e => Err e
  | Ok m, Ok s => fields_dim (Dist m s)
  end.

(** [DeltaDistribution(mean=mu)] (lines 63-87): no minimum length. *)
Definition new_delta (mu : nd A) : res (list A) := mean_1d mu.

(** Lines 92-94, [DeltaDistribution.get_covariance]. *)
Definition delta_covariance (mu : list A) : arr A :=
  mkArr (length mu) (repeat (repeat zero (length mu)) (length mu)).

(** Lines 96-100, [DeltaDistribution.combine_with]. *)
Definition combine_deltas (x : list A) (l : list (list A)) : res (list A) :=
  let combined := concat (x :: l) in
  new_delta (mkNd [length combined] combined).

(** [scipy.linalg.block_diag]: a zero matrix as tall and wide as the blocks
    together, into which the blocks are written one after the other below and to
    the right of the previous one. *)
Fixpoint block_rows (left width : nat) (l : list (arr A)) : list (list A) :=
  match l with
  | [] => []
  | m :: l' =>
    map (fun r => repeat zero left ++ r ++ repeat zero (width - (left + acols m))) (arows m) ++
    block_rows (left + acols m) width l'
  end.
Definition block_diag (l : list (arr A)) : nd A :=
  let width := list_sum (map acols l) in
  mkNd [list_sum (map anrows l); width] (concat (block_rows 0 width l)).

(** Lines 166-173, [MultivariateGaussian.combine_with]. *)
Definition combine_gaussians (x : dist) (l : list dist) : res dist :=
  let means := concat (map d_mean (x :: l)) in
  new_gaussian (mkNd [length means] means) (block_diag (map d_cov (x :: l))).

(** * Objects

    The same operations on a heap of arrays: a distribution object holds
    references to its mean and covariance. *)
Definition heap := list (nd A).
Record gref : Type := GRef { ref_mean : nat; ref_cov : nat }.
Definition read (h : heap) (a : nat) : nd A := nth a h (mkNd [] []).
Definition alloc (v : nd A) (h : heap) : nat * heap := (length h, h ++ [v]).

(** Lines 160-164, [get_mean] and [get_covariance]: copies. *)
Definition get_mean (h : heap) (x : gref) : nat * heap := alloc (read h (ref_mean x)) h.
Definition get_covariance (h : heap) (x : gref) : nat * heap := alloc (read h (ref_cov x)) h.
Fixpoint get_all (get : heap -> gref -> nat * heap) (l : list gref) (h : heap) : list nat * heap :=
  match l with
  | [] => ([], h)
  | x :: l' => let (a, h1) := get h x in let (t, h2) := get_all get l' h1 in (a :: t, h2)
  end.

(** The value of an object. *)
Definition as_matrix (x : nd A) : arr A :=
  match nshape x with [r; c] => mkArr c (rows_of r c (ndata x)) | _ => mkArr 0 [] end.
Definition value_of (h : heap) (x : gref) : dist :=
  Dist (ndata (read h (ref_mean x))) (as_matrix (read h (ref_cov x))).

(** The constructor: [mean_1d] stores [mu.flatten()], a copy (line 139), and
    [cov_2d] stores the array it was given (line 148). *)
Definition construct (mu sigma : nat) (h : heap) : res gref * heap :=
  match new_gaussian (read h mu) (read h sigma) with
  | Err e => (Err e, h)
  | Ok d => let (a, h1) := alloc (mkNd [length (d_mean d)] (d_mean d)) h in (Ok (GRef a sigma), h1)
  end.

(** Lines 166-173 on the heap. *)
Definition combine_with (x : gref) (l : list gref) (h : heap) : res gref * heap :=
  let (ms, h1) := get_all get_mean (x :: l) h in
  let (cs, h2) := get_all get_covariance (x :: l) h1 in
  let joined := concat (map (fun a => ndata (read h2 a)) ms) in
  let (m, h3) := alloc (mkNd [length joined] joined) h2 in
  let (c, h4) := alloc (block_diag (map (fun a => as_matrix (read h3 a)) cs)) h3 in
  construct m c h4.

(** An in-place change of an array, as a user might make ([x[...] = v]). *)
Fixpoint write (a : nat) (v : nd A) (h : heap) : heap :=
  match h, a with
  | [], _ => []
  | _ :: t, 0 => v :: t
  | y :: t, S a' => y :: write a' v t
  end.
End Dist.
Arguments Dist {A} _ _.
Arguments d_mean {A} _.
Arguments d_cov {A} _.
