(** The unscented Kalman filter: moirae/estimators/online/filters/kalman/unscented.py,
    over an arbitrary real closed field.  Batches of vectors are matrices whose
    rows are the vectors, as in the code. *)
From mathcomp Require Import all_ssreflect all_algebra.
From Verif Require Import Res Cholesky.
Set Implicit Arguments.
Unset Strict Implicit.
Unset Printing Implicit Defensive.
Import Order.Theory GRing.Theory Num.Theory.
Local Open Scope ring_scope.

Section UKF.
Variable R : rcfType.
(** [np.linalg.svd]; used by the repair of covariances only. *)
Variable svd : forall n, 'M[R]_n -> option ('rV[R]_n * 'M[R]_n).
(** Means of control distributions, and keyword arguments of [step]. *)
Variables U K : Type.

(** distributions.py lines 110-117: the data of a [MultivariateGaussian]. *)
Record gaussian (n : nat) : Type := Gauss { mean : 'rV[R]_n; covariance : 'M[R]_n }.

(** distributions.py lines 118-153, validation: fields have [min_length=1].  Shapes
    agree here because matrices carry their dimensions (shapes are the subject of
    Distributions.v). *)
Definition mk_gaussian (n : nat) (mu : 'rV[R]_n) (Sig : 'M[R]_n) : res (gaussian n) :=
  if n is 0 then Err ValidationError else Ok (Gauss mu Sig).

(** filters/base.py lines 24-93: what a [ModelWrapper] offers to a filter.  The
    methods take a batch and may raise; keyword arguments are passed on. *)
Record model (n p : nat) : Type := Model {
  update_hidden_states : list K -> U -> U -> forall k, 'M[R]_(k, n) -> res 'M[R]_(k, n);
  predict_measurement : list K -> U -> forall k, 'M[R]_(k, n) -> res 'M[R]_(k, p) }.

(** unscented.py lines 54-66. *)
Record tuning : Type := Tuning { alpha_param : R; kappa_param : R; beta_param : R }.

(** unscented.py lines 91-140, the attributes of a constructed filter. *)
Record ukf (n p : nat) : Type := Ukf {
  hidden : gaussian n;
  controls : U;
  tune : tuning;
  cov_w : 'M[R]_n;
  cov_v : 'M[R]_p }.

(** A numpy array with two axes of any lengths. *)
Record array2 : Type := Array2 { nrows : nat; ncols : nat; entries : 'M[R]_(nrows, ncols) }.

(** The array, if it has the given shape. *)
Definition of_shape (n m : nat) (a : array2) : option 'M[R]_(n, m) :=
  match nrows a =P n, ncols a =P m with
  | ReflectT e, ReflectT f => Some (castmx (e, f) (entries a))
  | _, _ => None
  end.

Definition check (b : bool) : res unit := if b then Ok tt else Err AssertionError.

(** unscented.py line 109. *)
Definition aug_len (n p : nat) : nat := n + (n + p).

(** unscented.py lines 91-140, [UnscentedKalmanFilter.__init__] for a model with n
    hidden and p output dimensions and an initial state with h dimensions.
    [kappa = None] stands for 'automatic', [None] covariances for the defaults. *)
Definition ukf_init (n p h : nat) (initial_hidden : gaussian h) (initial_controls : U)
  (process_noise sensor_noise : option array2) (alpha : R) (kappa : option R) (beta : R)
  : res (ukf n p) :=
  match n =P h with
  | ReflectT e =>
    let! _ := check (1000%:R^-1 <= alpha) in
    let! _ := check (alpha <= 1) in
    let! _ := check (0 <= beta) in
    let! kap := match kappa with
                | None => Ok (3%:R - (aug_len n p)%:R)
                | Some k => let! _ := check (0 < (aug_len n p)%:R + k) in Ok k
                end in
    let Q := odflt (Array2 (10%:R ^- 8 *: (1%:M : 'M_n))) process_noise in
    let V := odflt (Array2 (10%:R ^- 8 *: (1%:M : 'M_p))) sensor_noise in
    let! _ := check (nrows Q == ncols Q) in
    let! _ := check (nrows V == ncols V) in
    let! q := of_opt AssertionError (of_shape n n Q) in
    let! v := of_opt AssertionError (of_shape p p V) in
    let h0 := Gauss (castmx (erefl 1%N, esym e) (mean initial_hidden))
                    (castmx (esym e, esym e) (covariance initial_hidden)) in
    Ok (Ukf h0 initial_controls (Tuning alpha kap beta) q v)
  | _ => Err AssertionError
  end.

Section Tuned.
Variables (t : tuning) (L : nat).
(** The denominator in unscented.py line 154. *)
Definition spread : R := alpha_param t * alpha_param t * (L%:R + kappa_param t).
(** Lines 142-148. *)
Definition gamma_param : R := alpha_param t * Num.sqrt (L%:R + kappa_param t).
Definition lambda_param : R := spread - L%:R.
(** Lines 150-161: one central weight and 2 L others. *)
Definition mean_weights : 'rV[R]_(1 + (L + L)) :=
  row_mx (lambda_param / spread)%:M (const_mx (2%:R^-1 / spread)).
Definition cov_weights : 'rV[R]_(1 + (L + L)) :=
  row_mx (lambda_param / spread + (1 - alpha_param t * alpha_param t + beta_param t))%:M
         (const_mx (2%:R^-1 / spread)).
End Tuned.

(** A vector repeated as the rows of a batch (numpy broadcasting). *)
Definition repeat_row (k n : nat) (x : 'rV[R]_n) : 'M[R]_(k, n) := \matrix_(i, j) x 0 j.

(** [np.average(samples, axis=0, weights=w)] divides by the sum of the weights and
    raises if that is zero. *)
Definition average (k n : nat) (w : 'rV[R]_k) (X : 'M[R]_(k, n)) : res 'rV[R]_n :=
  let s := \sum_i w 0 i in
  if s == 0 then Err ZeroDivErr else Ok (s^-1 *: (w *m X)).

(** Lines 40-51, [compute_unscented_covariance]. *)
Definition unscented_covariance (k n m : nat) (w : 'rV[R]_k) (D : 'M[R]_(k, n)) (E : 'M[R]_(k, m))
  : 'M[R]_(n, m) := D^T *m (diag_mx w *m E).

(** Lines 16-37 and 258-272, followed by [MultivariateGaussian.model_validate]. *)
Definition assemble (k n : nat) (wm wc : 'rV[R]_k) (X : 'M[R]_(k, n)) : res (gaussian n) :=
  let! mu := average wm X in
  let D := X - repeat_row k mu in
  mk_gaussian mu (unscented_covariance wc D D).

Section Filter.
Variables n p : nat.
Variable md : model n p.
Let L := aug_len n p.

(** Lines 190-214, [build_sigma_points]. *)
Definition build_sigma_points (f : ukf n p) : res 'M[R]_(1 + (L + L), L) :=
  let x_aug : 'rV[R]_L := row_mx (mean (hidden f)) 0 in
  let cov_aug : 'M[R]_L := block_mx (covariance (hidden f)) 0 0 (block_mx (cov_w f) 0 0 (cov_v f)) in
  let! cov_aug := ensure_psd svd cov_aug in
  let! C := of_opt LinAlgError (cholesky cov_aug) in
  let g := gamma_param (tune f) L in
  Ok (repeat_row (1 + (L + L)) x_aug + col_mx 0 (col_mx (g *: C^T) (- g *: C^T))).

(** Lines 293-333, [estimation_update], with 216-232 (breaking the sigma points),
    234-256 and 274-291 (calling the model). *)
Definition estimation_update (f : ukf n p) (kw : list K) (sigma : 'M[R]_(1 + (L + L), L)) (new_controls : U)
  : res (gaussian n * gaussian p * 'M[R]_(n, p)) :=
  let x_hid : 'M_(_, n) := lsubmx sigma in
  let w_hid : 'M_(_, n) := lsubmx (rsubmx sigma) in
  let v_hid : 'M_(_, p) := rsubmx (rsubmx sigma) in
  let wm := mean_weights (tune f) L in
  let wc := cov_weights (tune f) L in
  let! x := update_hidden_states md kw (controls f) new_controls x_hid in
  let x := x + w_hid in
  let! x_minus := assemble wm wc x in
  let! y := predict_measurement md kw new_controls x in
  let y := y + v_hid in
  let! y_hat := assemble wm wc y in
  Ok (x_minus, y_hat, unscented_covariance wc (x - repeat_row _ (mean x_minus)) (y - repeat_row _ (mean y_hat))).

(** Lines 335-362, [correction_update]; vectors are rows here, so the product with
    the gain is transposed.  It accepts no further keyword arguments. *)
Definition correction_update (kw : list K) (x_minus : gaussian n) (y_hat : gaussian p) (cov_xy : 'M[R]_(n, p))
  (y : 'rV[R]_p) : res (gaussian n) :=
  match kw with
  | cons _ _ => Err TypeError
  | nil =>
    let! l := calculate_gain_matrix cov_xy (covariance y_hat) in
    let innovation := y - mean y_hat in
    let mu := mean x_minus + innovation *m l^T in
    let! Sig := ensure_psd svd (covariance x_minus - l *m (covariance y_hat *m l^T)) in
    mk_gaussian mu Sig
  end.

(** Lines 163-188, [step]: returns the new filter and the predicted output; the
    estimate that the method also returns is [hidden] of the new filter.  The only
    assignments to the filter come last, so a step that raises leaves it as it was.
    Measurements have the output dimension p. *)
Definition step (f : ukf n p) (kw : list K) (new_controls : U) (measurements : 'rV[R]_p)
  : res (ukf n p * gaussian p) :=
  let! sigma := build_sigma_points f in
  let! (x_minus, y_hat, cov_xy) := estimation_update f kw sigma new_controls in
  let! h := correction_update kw x_minus y_hat cov_xy measurements in
  Ok (Ukf h new_controls (tune f) (cov_w f) (cov_v f), y_hat).

(** A run of the filter over a history of controls and measurements, collecting
    the predicted outputs (the loop in moirae/interface/__init__.py lines 109-143
    calls [step] once per row). *)
Fixpoint run (f : ukf n p) (hist : seq (U * 'rV[R]_p)) : res (ukf n p * seq (gaussian p)) :=
  match hist with
  | [::] => Ok (f, [::])
  | (u, y) :: rest =>
    let! (f', y_hat) := step f nil u y in
    let! (f'', ys) := run f' rest in
    Ok (f'', y_hat :: ys)
  end.
End Filter.
End UKF.
