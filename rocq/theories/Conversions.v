(** Coordinate conversions: moirae/estimators/online/filters/conversions.py, over an
    arbitrary real closed field.  A batch of samples is a matrix whose rows are the
    samples; a single sample (one axis) is a batch with one row. *)
From mathcomp Require Import all_ssreflect all_algebra.
From Verif Require Import Res UKF.
Set Implicit Arguments.
Unset Strict Implicit.
Unset Printing Implicit Defensive.
Import Order.Theory GRing.Theory Num.Theory.
Local Open Scope ring_scope.

Section Conversions.
Variable R : rcfType.

(** Lines 10-81: the methods of a [ConversionOperator] from n to d coordinates. *)
Record conversion (n d : nat) : Type := Conversion {
  transform_samples : forall k, 'M[R]_(k, n) -> res 'M[R]_(k, d);
  transform_covariance : 'M[R]_n -> 'rV[R]_n -> res 'M[R]_d;
  inverse_transform_samples : forall k, 'M[R]_(k, d) -> res 'M[R]_(k, n);
  inverse_transform_covariance : 'M[R]_d -> 'rV[R]_d -> res 'M[R]_n }.

(** Lines 84-100. *)
Definition identity_conversion (n : nat) : conversion n n :=
  @Conversion n n (fun k X => Ok X) (fun S _ => Ok S) (fun k Y => Ok Y) (fun S _ => Ok S).

(** [np.linalg.pinv], a parameter. *)
Variable pinv : forall n d, 'M[R]_(n, d) -> 'M[R]_(d, n).

(** Arrays with no, one, or two axes, or more. *)
Inductive ndarray : Type :=
| Scalar (m : R)
| Vector (v : seq R)
| Table (a : array2 R)
| Deeper.

Definition of_list (l : seq R) : 'rV[R]_(size l) := \row_i nth 0 l i.

(** Lines 116-124, [additive_1d]: the validator flattens scalars. *)
Definition additive_1d (bias : ndarray) : res (seq R) :=
  match bias with
  | Scalar m => Ok [:: m]
  | Vector v => Ok v
  | _ => Err ValidationError
  end.

(** Lines 126-136, [multiplicative_2d]: vectors become diagonal matrices. *)
Definition multiplicative_2d (multi : ndarray) : res (R + array2 R) :=
  match multi with
  | Scalar m => Ok (inl m)
  | Vector v => Ok (inr (Array2 (diag_mx (of_list v))))
  | Table a => Ok (inr a)
  | Deeper => Err ValidationError
  end.

(** Adding the additive array to samples with d coordinates: numpy repeats an array
    of length 1; other lengths than d raise.  (Not modelled: d = 1 with a longer
    additive array, where numpy repeats the samples instead.) *)
Definition add_bias (k d : nat) (b : seq R) (X : 'M[R]_(k, d)) : res 'M[R]_(k, d) :=
  if size b == 1%N then Ok (X + \matrix_(i, j) b`_0)
  else if size b == d then Ok (X + \matrix_(i, j) b`_j)
  else Err ValueError.

(** Lines 143-184, a [LinearConversionOperator] with a scalar factor.  The inverse is
    1 / m; for m = 0 numpy gives infinities, which are not modelled (0^-1 = 0 here). *)
Definition scalar_conversion (n : nat) (m : R) (b : seq R) : conversion n n :=
  @Conversion n n
    (fun k X => add_bias b (m *: X))
    (fun S _ => Ok ((m * m) *: S))
    (fun k Y => let! Z := add_bias [seq - x | x <- b] Y in Ok (m^-1 *: Z))
    (fun S _ => Ok ((m^-1 * m^-1) *: S)).

(** The same with a matrix of factors. *)
Definition matrix_conversion (n d : nat) (M : 'M[R]_(n, d)) (b : seq R) : conversion n d :=
  Conversion
    (fun k X => add_bias b (X *m M))
    (fun S _ => Ok (M^T *m S *m M))
    (fun k Y => let! Z := add_bias [seq - x | x <- b] Y in Ok (Z *m pinv M))
    (fun S _ => Ok ((pinv M)^T *m S *m pinv M)).

(** Construction from arrays, as used on samples with n and d coordinates; a matrix
    of another shape raises when it is used. *)
Definition linear_conversion (n : nat) (multi additive : ndarray) : res (conversion n n) :=
  let! b := additive_1d additive in
  let! m := multiplicative_2d multi in
  match m with
  | inl m => Ok (scalar_conversion n m b)
  | inr a => match of_shape n n a with Some M => Ok (matrix_conversion M b) | None => Err ValueError end
  end.

(** Python indexing: negative indices count from the end. *)
Definition py_index (n : nat) (i : int) : option 'I_n :=
  match i with
  | Posz k => insub k
  | Negz k => if (k < n)%N then insub (n - k.+1)%N else None
  end.

Fixpoint py_indices (n : nat) (l : seq int) : res (seq 'I_n) :=
  match l with
  | [::] => Ok [::]
  | i :: l' =>
    let! j := of_opt IndexError (py_index n i) in
    let! js := py_indices n l' in
    Ok (j :: js)
  end.

(** The coordinates that an [AbsoluteValueConversionOperator] changes (line 249). *)
Definition selected (n : nat) (indices : option (seq int)) : res (seq 'I_n) :=
  match indices with
  | None => Ok (enum 'I_n)
  | Some l => py_indices n l
  end.

(** Lines 251-258, [get_jacobian]. *)
Definition abs_jacobian (n : nat) (indices : option (seq int)) (pivot : 'rV[R]_n) : res 'M[R]_n :=
  let! js := selected n indices in
  Ok (diag_mx (\row_j (if j \in js then (if 0 <= pivot 0 j then 1 else -1) else 1))).

(** Lines 187-233 (the first-order Taylor operators) and 236-278
    ([AbsoluteValueConversionOperator]). *)
Definition taylor_covariance (n d : nat) (J : 'M[R]_(n, d)) (S : 'M[R]_n) : 'M[R]_d := J^T *m S *m J.
Definition abs_conversion (n : nat) (indices : option (seq int)) : conversion n n :=
  @Conversion n n
    (fun k X => let! js := selected n indices in
       Ok (\matrix_(i, j) (if j \in js then `|X i j| else X i j)))
    (fun S pivot => let! J := abs_jacobian indices pivot in Ok (taylor_covariance J S))
    (fun k Y => Ok Y)
    (fun S _ => Ok (taylor_covariance 1%:M S)).

(** distributions.py lines 175-185, [MultivariateGaussian.convert]. *)
Definition gaussian_convert (n d : nat) (c : conversion n d) (x : gaussian R n) : res (gaussian R d) :=
  let! mu := transform_samples c (mean x) in
  let! Sig := transform_covariance c (covariance x) (mean x) in
  mk_gaussian mu Sig.
Definition gaussian_convert_inverse (n d : nat) (c : conversion n d) (x : gaussian R d) : res (gaussian R n) :=
  let! mu := inverse_transform_samples c (mean x) in
  let! Sig := inverse_transform_covariance c (covariance x) (mean x) in
  mk_gaussian mu Sig.

(** distributions.py lines 102-107, [DeltaDistribution.convert]; a delta is its mean. *)
Definition delta_convert (n d : nat) (c : conversion n d) (x : 'rV[R]_n) : res 'rV[R]_d := transform_samples c x.
Definition delta_convert_inverse (n d : nat) (c : conversion n d) (x : 'rV[R]_d) : res 'rV[R]_n :=
  inverse_transform_samples c x.

(** The cached inverse, lines 143-156: an operator object with a matrix of factors.
    [cached_property] stores the first result in the instance. *)
Record linear_object (n d : nat) : Type := LinearObject {
  multiplicative_array : 'M[R]_(n, d);
  additive_array : seq R;
  cached_inverse : option 'M[R]_(d, n) }.
Definition new_object (n d : nat) (M : 'M[R]_(n, d)) (b : seq R) : linear_object n d := LinearObject M b None.
Definition inv_multi (n d : nat) (o : linear_object n d) : linear_object n d * 'M[R]_(d, n) :=
  match cached_inverse o with
  | Some P => (o, P)
  | None => let P := pinv (multiplicative_array o) in
            (LinearObject (multiplicative_array o) (additive_array o) (Some P), P)
  end.
(** Assigning to the attribute (pydantic validates no assignments here). *)
Definition set_multiplicative (n d : nat) (M : 'M[R]_(n, d)) (o : linear_object n d) : linear_object n d :=
  LinearObject M (additive_array o) (cached_inverse o).
(** Lines 158-162 and 171-176 on the object. *)
Definition object_transform (n d k : nat) (o : linear_object n d) (X : 'M[R]_(k, n)) : res 'M[R]_(k, d) :=
  add_bias (additive_array o) (X *m multiplicative_array o).
Definition object_inverse (n d k : nat) (o : linear_object n d) (Y : 'M[R]_(k, d)) : linear_object n d * res 'M[R]_(k, n) :=
  match add_bias [seq - x | x <- additive_array o] Y with
  | Err e => (o, Err e)
  | Ok Z => let (o', P) := inv_multi o in (o', Ok (Z *m P))
  end.
End Conversions.
