(** The joint estimator with the unscented Kalman filter as its filter: moirae/
    estimators/online/joint.py lines 72-237.  It puts together the wrapper
    (Wrappers.v), the estimator (Estimators.v), the filter (UKF.v) and the conversions
    (Conversions.v, Normalize.v).  The filter and the conversions work on matrices, the
    rest on arrays as lists of rows. *)
From Coq Require Import String List.
From mathcomp Require Import all_ssreflect all_algebra.
From Verif Require Import Res Arr NdArray Container Health Simulator Distributions Wrappers Estimators
  Cholesky UKF Conversions Normalize.
Set Implicit Arguments.
Unset Strict Implicit.
Unset Printing Implicit Defensive.
Import Order.Theory GRing.Theory Num.Theory.
Local Open Scope ring_scope.

Section JointUKF.
Variable R : rcfType.
(** [np.linalg.svd] and [np.linalg.pinv]. *)
Variable svd : forall n, 'M[R]_n -> option ('rV[R]_n * 'M[R]_n).
Variable pinv : forall n d, 'M[R]_(n, d) -> 'M[R]_(d, n).

(** Between lists of rows and matrices. *)
Definition vec_of (n : nat) (l : list R) : 'rV[R]_n := \row_j nth 0 l j.
Definition mx_of (k n : nat) (rows : list (list R)) : 'M[R]_(k, n) := \matrix_(i, j) nth 0 (nth [::] rows i) j.
Definition list_of (n : nat) (v : 'rV[R]_n) : list R := [seq v 0 j | j <- enum 'I_n].
Definition arr_of (k n : nat) (X : 'M[R]_(k, n)) : arr R := mkArr n [seq list_of (matrix.row i X) | i <- enum 'I_k].

(** A conversion with n coordinates as an operator on arrays; arrays of other shapes
    raise in the matrix product. *)
Definition on_rows (n : nat) (f : forall k, 'M[R]_(k, n) -> res 'M[R]_(k, n)) (a : arr R) : res (arr R) :=
  if acols a == n then let! Y := f (anrows a) (mx_of (anrows a) n (arows a)) in Ok (arr_of Y)
  else Err ValueError.
Definition on_square (n : nat) (f : 'M[R]_n -> 'rV[R]_n -> res 'M[R]_n) (a : arr R) (pivot : list R) : res (arr R) :=
  if (acols a == n) && (anrows a == n)
  then let! Y := f (mx_of n n (arows a)) (vec_of n pivot) in Ok (arr_of Y)
  else Err ValueError.
Definition operator_of (n : nat) (c : conversion R n n) : operator R :=
  Operator R (on_rows (transform_samples c)) (on_square (transform_covariance c))
    (on_rows (inverse_transform_samples c)) (on_square (inverse_transform_covariance c)).

(** What the filter does with the arrays the model returns: it adds noise with k rows
    and n columns to them, which repeats single rows and columns (arrays that would
    repeat the noise instead are not modelled: the noise has at least three rows, and
    the widths come from the same cell model). *)
Definition to_mx (k n : nat) (y : arr R) : res 'M[R]_(k, n) :=
  let! y := broadcast_to R k n y in Ok (mx_of k n (arows y)).

(** The means of controls are vectors (one row for the wrapper). *)
Definition one_row (v : list R) : arr R := mkArr (List.length v) [:: v].

(** utils/model.py lines 356-404: the wrapper as the model of the filter.  Both methods
    accept keyword arguments and do not look at them. *)
Definition wrapped (w : wrapper R) (n p : nat) : model R (list R) unit n p :=
  Model
    (fun _ u u' k X => let! y := joint_update R w (arr_of X) (one_row u) (one_row u') in to_mx k n y)
    (fun _ u k X => let! y := joint_predict R w (arr_of X) (one_row u) in to_mx k p y).

(** A filter for a model of some dimensions. *)
Record any_ukf : Type := AnyUkf { dim_hidden : nat; dim_output : nat; the_ukf : ukf R (list R) dim_hidden dim_output }.

(** distributions.py lines 110-117, and back. *)
Definition gaussian_of (n : nat) (x : gaussian R n) : rv R := RGauss R (Dist (list_of (mean x)) (arr_of (covariance x))).
Definition of_rv (n : nat) (x : rv R) : gaussian R n :=
  Gauss (vec_of n (mean_of R x)) (mx_of n n (arows (cov_of R 0 x))).

(** unscented.py lines 163-188 for the estimator.  The health variable of the wrapper is
    not written into (each evaluation works on a copy).  The measurement is checked
    first here; the code finds that it does not fit after evaluating the model. *)
Definition ukf_step (w : wrapper R) (F : any_ukf) (u y : rv R) : hv R * any_ukf * res (rv R * rv R) :=
  match (let! y := stretch (dim_output F) (mean_of R y) in
         UKF.step svd (wrapped w (dim_hidden F) (dim_output F)) (the_ukf F) nil (mean_of R u) (vec_of (dim_output F) y)) with
  | Ok (f, y_hat) => (w_asoh R w, AnyUkf f, Ok (gaussian_of (hidden f), gaussian_of y_hat))
  | Err e => (w_asoh R w, F, Err e)
  end.
Definition ukf_filter : Estimators.filter R any_ukf :=
  Filter R any_ukf (fun F => gaussian_of (hidden (the_ukf F))) ukf_step.

Definition array2_of (a : arr R) : array2 R := Array2 (mx_of (anrows a) (acols a) (arows a)).

(** joint.py lines 155-237, [initialize_ukf_from_wrapper].  [kappa = None] stands for
    'automatic'. *)
Definition joint_ukf_from_wrapper (w : wrapper R) (cov : initial_covariance R)
  (inputs_uncertainty joint_noise transient_noise asoh_noise sensor_noise : option (arr R))
  (alpha : R) (kappa : option R) (beta : R) : res (joint R any_ukf) :=
  let! (h, c, q, v) := joint_ukf_setup R 0 w cov inputs_uncertainty joint_noise transient_noise asoh_noise sensor_noise in
  let d := List.length (mean_of R h) in
  let! f := @ukf_init R (list R) (num_hidden_dimensions R w) (num_outputs R w) d (of_rv d h) (mean_of R c)
              (option_map array2_of q) (option_map array2_of v) alpha kappa beta in
  joint_estimator R any_ukf w (AnyUkf f).

(** joint.py lines 122-131: the conversion of the hidden state. *)
Definition asoh_normalizer (a : hv R) (t : container R) (normalize_asoh : bool) : res (operator R) :=
  if normalize_asoh then
    let! am := get_parameters a (updatable_names a) in
    let! tm := to_numpy t in
    let! c := normalizer pinv (acols tm) (List.concat (arows am)) in
    Ok (operator_of c)
  else Ok (identity_operator R).

(** joint.py lines 72-153, [initialize_unscented_kalman_filter]. *)
Definition joint_ukf (M : cell_model (container R) (container R) (hv R) (container R))
  (a : hv R) (t u : container R) (cov : initial_covariance R)
  (inputs_uncertainty joint_noise transient_noise asoh_noise sensor_noise : option (arr R))
  (normalize_asoh : bool) (alpha : R) (kappa : option R) (beta : R) : res (joint R any_ukf) :=
  let! op := asoh_normalizer a t normalize_asoh in
  let! w := joint_init R M no_degradation a t u None op (identity_operator R) (identity_operator R) in
  joint_ukf_from_wrapper w cov inputs_uncertainty joint_noise transient_noise asoh_noise sensor_noise alpha kappa beta.

(** The results of successive steps; a step that raises does not end the run. *)
Fixpoint joint_results (e : joint R any_ukf) (hist : list (container R * container R)) : list (res (rv R * rv R)) :=
  match hist with
  | [::] => [::]
  | (u, y) :: rest => let '(e', r) := joint_step R any_ukf ukf_filter e u y in r :: joint_results e' rest
  end.
Fixpoint joint_after (e : joint R any_ukf) (hist : list (container R * container R)) : joint R any_ukf :=
  match hist with
  | [::] => e
  | (u, y) :: rest => joint_after (fst (joint_step R any_ukf ukf_filter e u y)) rest
  end.
End JointUKF.
