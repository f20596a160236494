(** The dual estimator with two unscented Kalman filters: moirae/estimators/online/dual.py
    lines 139-296.  As JointUKF.v for the joint estimator, it puts together the wrappers
    (Wrappers.v), the estimator (Estimators.v), the filters (UKF.v) and the conversions. *)
From Coq Require Import String List.
From mathcomp Require Import all_ssreflect all_algebra.
From Verif Require Import Res Arr NdArray Container Health Simulator Distributions Wrappers Estimators
  Cholesky UKF Conversions Normalize JointUKF.
Set Implicit Arguments.
Unset Strict Implicit.
Unset Printing Implicit Defensive.
Import Order.Theory GRing.Theory Num.Theory.
Local Open Scope ring_scope.

Section DualUKF.
Variable R : rcfType.
(** [np.linalg.svd] and [np.linalg.pinv]. *)
Variable svd : forall n, 'M[R]_n -> option ('rV[R]_n * 'M[R]_n).
Variable pinv : forall n d, 'M[R]_(n, d) -> 'M[R]_(d, n).

(** utils/model.py lines 84-100, [CellModelWrapper.__init__]. *)
Definition cell_init (M : cell_model (container R) (container R) (hv R) (container R)) (a : hv R) (t u : container R)
  (hidden control output : operator R) : res (wrapper R) :=
  let! (a, p) := base_init R M a t u in
  let! tm := to_numpy t in
  Ok (Wrapper R M a t u [::] no_degradation hidden control output (acols tm) 0%N p).

(** A step of a filter (unscented.py lines 163-188) with the given model; see
    [JointUKF.ukf_step]. *)
Definition run_ukf (md : forall n p, model R (list R) unit n p) (F : any_ukf R) (u y : rv R) : any_ukf R * res (rv R * rv R) :=
  match (let! y := stretch (dim_output F) (mean_of R y) in
         UKF.step svd (md (dim_hidden F) (dim_output F)) (the_ukf F) nil (mean_of R u) (vec_of (dim_output F) y)) with
  | Ok (f, y_hat) => (AnyUkf f, Ok (gaussian_of (hidden f), gaussian_of y_hat))
  | Err e => (F, Err e)
  end.
(** The hidden states for which the model is evaluated, if it comes to that: the first
    columns of the sigma points (unscented.py lines 216-232). *)
Definition hidden_points (F : any_ukf R) : res (arr R) :=
  let! sigma := build_sigma_points svd (the_ukf F) in Ok (arr_of (lsubmx sigma)).

(** utils/model.py lines 102-143, [CellModelWrapper] as the model of a filter: the
    propagation with w, the prediction with w1, which is w after the propagation has
    written into its health variable. *)
Definition cell_wrapped (w w1 : wrapper R) (n p : nat) : model R (list R) unit n p :=
  Model
    (fun _ u u' k X => let! y := snd (cell_update R w (arr_of X) (one_row u) (one_row u')) in to_mx k n y)
    (fun _ u k X => let! y := snd (cell_predict R w1 (arr_of X) (one_row u)) in to_mx k p y).
(** The health variable after the step is the one after the propagation (the prediction
    may write into it once more, but [DualEstimator.step] replaces it before it is used
    again, lines 115-117). *)
Definition transient_step (w : wrapper R) (F : any_ukf R) (u y : rv R) : hv R * any_ukf R * res (rv R * rv R) :=
  let w1 := match hidden_points F with
            | Ok x => fst (cell_update R w x (one_row (controls (the_ukf F))) (one_row (mean_of R u)))
            | Err _ => w
            end in
  let (F', r) := run_ukf (cell_wrapped w w1) F u y in (w_asoh R w1, F', r).
Definition transient_filter : Estimators.filter R (any_ukf R) :=
  Filter R (any_ukf R) (fun F => gaussian_of (hidden (the_ukf F))) transient_step.

(** utils/model.py lines 203-263, [DegradationModelWrapper] as the model of a filter:
    with the previous inputs before the step, and the ones it has stored when the
    measurements are predicted.  The health variables evaluated are copies. *)
Definition asoh_wrapped (w : wrapper R) (previous stored : container R) (n p : nat) : model R (list R) unit n p :=
  Model
    (fun _ u u' k X => let! y := snd (degradation_update R w previous (arr_of X) (one_row u) (one_row u')) in to_mx k n y)
    (fun _ u k X => let! y := degradation_predict R w stored (arr_of X) (one_row u) in to_mx k p y).
(** The filter and the previous inputs kept by its wrapper. *)
Definition asoh_step (w : wrapper R) (Fp : any_ukf R * container R) (u y : rv R)
  : hv R * (any_ukf R * container R) * res (rv R * rv R) :=
  let (F, previous) := Fp in
  let stored := match hidden_points F with
                | Ok x => fst (degradation_update R w previous x (one_row (controls (the_ukf F))) (one_row (mean_of R u)))
                | Err _ => previous
                end in
  let (F', r) := run_ukf (asoh_wrapped w previous stored) F u y in (w_asoh R w, (F', stored), r).
Definition asoh_filter : Estimators.filter R (any_ukf R * container R) :=
  Filter R (any_ukf R * container R) (fun F => gaussian_of (hidden (the_ukf F.1))) asoh_step.

(** [np.allclose] with its default tolerances. *)
Definition close (x y : R) : bool := `|x - y| <= 10%:R ^- 8 + 10%:R ^- 5 * `|y|.
Definition allclose (x y : arr R) : res bool :=
  let r := if anrows x == 1%N then anrows y else anrows x in
  let c := if acols x == 1%N then acols y else acols x in
  let! x := broadcast_to R r c x in
  let! y := broadcast_to R r c y in
  Ok (all2 (all2 close) (arows x) (arows y)).

(** Lines 271-294: one of the two filters, with n hidden dimensions.  A tuning is given by
    alpha, kappa ([None] for 'automatic') and beta. *)
Record ukf_tuning : Type := UkfTuning { u_alpha : R; u_kappa : option R; u_beta : R }.
(** unscented.py lines 68-70, the defaults. *)
Definition default_ukf_tuning : ukf_tuning := UkfTuning 1 (Some 0) 2%:R.
Definition dual_ukf_filter (w : wrapper R) (n : nat) (controls hidden : rv R) (noise sensor_noise : option (arr R))
  (tn : ukf_tuning) : res (any_ukf R) :=
  let! (h, c, q, v) := dual_ukf_setup R 0 w controls hidden noise sensor_noise in
  let d := List.length (mean_of R h) in
  let! f := @ukf_init R (list R) n (num_outputs R w) d (of_rv d h) (mean_of R c)
              (option_map (@array2_of R) q) (option_map (@array2_of R) v) (u_alpha tn) (u_kappa tn) (u_beta tn) in
  Ok (AnyUkf f).

Notation dual_est := (dual R (any_ukf R) (any_ukf R * container R)).

(** Lines 213-296, [initialize_ukf_from_wrappers].  [None] stands for a tuning that is not
    in the dictionary (line 294). *)
Definition dual_ukf_from_wrappers (wc wd : wrapper R) (cov_transient cov_asoh : arr R)
  (inputs_uncertainty transient_noise asoh_noise sensor_noise : option (arr R))
  (tt ta : option ukf_tuning) : res dual_est :=
  let! uc := to_numpy (w_inputs R wc) in
  let! ud := to_numpy (w_inputs R wd) in
  let! same := allclose uc ud in
  if negb same then Err AssertionError else
  let! controls := convert_vals_model_to_filter R (w_inputs R wc) inputs_uncertainty in
  let! ht := dual_hidden_transient R wc cov_transient in
  let! ha := dual_hidden_asoh R wd cov_asoh in
  let! ft := dual_ukf_filter wc (num_transients R wc) controls ht transient_noise sensor_noise (odflt default_ukf_tuning tt) in
  let! fa := dual_ukf_filter wd (num_asoh R wd) controls ha asoh_noise sensor_noise (odflt default_ukf_tuning ta) in
  dual_estimator R (any_ukf R) (any_ukf R * container R) wc wd ft (fa, w_inputs R wd).

(** Lines 182-188: the conversion of the health parameters. *)
Definition dual_asoh_normalizer (a : hv R) (normalize_asoh : bool) : res (operator R) :=
  if normalize_asoh then
    let! am := get_parameters a (updatable_names a) in
    let! c := normalizer pinv 0 (List.concat (arows am)) in
    Ok (operator_of c)
  else Ok (identity_operator R).

(** Lines 139-211, [initialize_unscented_kalman_filter].  Both wrappers hold the health
    variable given, so both see what the constructor of the second one writes into it. *)
Definition dual_ukf (M : cell_model (container R) (container R) (hv R) (container R))
  (a : hv R) (t u : container R) (cov_transient cov_asoh : arr R)
  (inputs_uncertainty transient_noise asoh_noise sensor_noise : option (arr R))
  (normalize_asoh : bool) (tt ta : option ukf_tuning) : res dual_est :=
  let! op := dual_asoh_normalizer a normalize_asoh in
  let! wc := cell_init M a t u (identity_operator R) (identity_operator R) (identity_operator R) in
  let! wd := joint_init R M no_degradation (w_asoh R wc) t u None op (identity_operator R) (identity_operator R) in
  dual_ukf_from_wrappers (with_asoh R wc (w_asoh R wd)) wd cov_transient cov_asoh
    inputs_uncertainty transient_noise asoh_noise sensor_noise tt ta.

(** The results of successive steps; a step that raises does not end the run. *)
Fixpoint dual_results (e : dual_est) (hist : list (container R * container R)) : list (res (rv R * rv R)) :=
  match hist with
  | [::] => [::]
  | (u, y) :: rest =>
    let '(e', r) := dual_step R 0 (any_ukf R) (any_ukf R * container R) transient_filter asoh_filter e u y in r :: dual_results e' rest
  end.
End DualUKF.
