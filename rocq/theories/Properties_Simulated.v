(** C117: estimates from simulated data. *)
From Coq Require Import Reals String List Lia.
From mathcomp Require Import all_ssreflect all_algebra.
From Verif Require Import Res Arr NdArray Container Spec_Container Health Spec_Health Simulator Distributions Wrappers Spec_Wrappers
  Estimators Interface Spec_Interface Properties_Interface Cholesky Cholesky_proofs Spec_UKF UKF Spec_Filter Conversions Spec_Conversions Normalize Properties_UKF_runs UKF_conj
  Properties_Conversions JointUKF Spec_JointUKF JointUKF_proofs JointUKF_init RealField JointRuns DualUKF Spec_DualUKF DualRuns DualBuilt.
From Verif Require Import NdR Interp ECM Spec_ECM ECM_objects Spec_ECM_objects Spec_ECM_select Spec_ECM_run Spec_ECM_equations Spec_ECM_filter
  ECM_circuit ECM_built ECM_settled ECM_dual ECM_explicit Properties_ECM_joint ECM_run_case Pinv JointHealthy Properties_JointUKF Properties_ECM_run Properties_ECM_dual
  Properties_ECM_filter Interface_ECM Spec_Interface_ECM Interface_ECM_names Interface_ECM_case Properties_ECM_data Spec_Fit Properties_Fit Spec_Simulated Simulated_data.
Set Implicit Arguments.
Unset Strict Implicit.
Unset Printing Implicit Defensive.
Import Order.Theory GRing.Theory Num.Theory.
Local Open Scope ring_scope.
Arguments convert : simpl never.
Arguments gaussian_of : simpl never.


Section C117.
(** The cell that is simulated: its health, its circuit, its state at the first input, and the
    inputs.  Numbers that stand for missing values, if any, are those of the data. *)
Variables (nan : R) (is_nan is_finite : R -> bool) (cycle_of : R -> res nat).
Variable spline : nat -> list R -> res (list R -> R -> R).
Variables (X0 : settings) (mode0 : behavior) (a0 : hv R) (cell0 : ecm_asoh) (s0 : cstate).
Variables (first : R * R * option R) (later : list (R * R * option R)).
Hypothesis circuit0 : circuit_of X0 a0 cell0.
Hypothesis batch0 : asoh_ok 1 cell0.
Hypothesis usable0 : usable_asoh spline cell0.
Hypothesis elements0 : List.length (xi s0) = List.length (rcs cell0).
Hypothesis capacitor0 : xq s0 <> None -> c0 cell0 <> None.
Hypothesis temperatures : tempered is_finite (first :: later).
Hypothesis times0 : mode0 = Linear -> distinct_times (numbers first) (List.map numbers later).
(** The circuit that is simulated, and the inputs and voltages to learn from. *)
Notation truth := (Spec_ECM.cell_of spline cell0 0).
Notation l := (simulated mode0 truth s0 first later).

(** Simulations can be exported, and every table that is exported is a dataset whose rows read
    the inputs and the voltages of the equations of the circuit. *)
Theorem C117_data : (exists d, exported nan spline X0 mode0 a0 s0 first later d) /\
  forall d, exported nan spline X0 mode0 a0 s0 first later d ->
    open_dataset R cycle_of (DataSet R (Some d)) = Ok (d, Some 0%N) /\ logged is_finite 25%Re d l.
Proof.
split; first exact: (@exported_exists is_finite nan spline X0 mode0 a0 cell0 s0 first later circuit0 batch0 usable0 elements0 capacitor0 temperatures times0).
exact: (@exported_logged is_finite nan spline X0 mode0 a0 cell0 s0 first later circuit0 batch0 usable0 elements0 capacitor0 temperatures times0 cycle_of).
Qed.

(** There are no cycle numbers in it, so that no estimates can be stored in a file: a run of
    any estimator with a file raises as soon as there is a row to estimate. *)
Theorem C117_not_stored E (O : online R E) room d e states file : exported nan spline X0 mode0 a0 s0 first later d -> later <> [::] ->
  exists e' file' err, Interface.run R 0%Re nan is_nan is_finite cycle_of room E O (DataSet R (Some d)) e states (Some file) = (e', file', Err err).
Proof.
move=> D l0; have [od _] := C117_data.2 _ D.
have [nc] := @exported_columns is_finite nan spline X0 mode0 a0 cell0 s0 first later circuit0 batch0 usable0 elements0 capacitor0 temperatures times0 d D.
case: later l0 => [//|x xs] _; case er: (f_rows R d) => [|row [|row' rows]] // _.
apply: (@C92_without_cycle_numbers R 0%Re nan is_nan is_finite cycle_of room E O (DataSet R (Some d)) d _ row row' rows e states file od er).
by move=> /nc.
Qed.

(** The cell that is estimated, which need not be the one that was simulated. *)
Variable svd : forall n, 'M[reals]_n -> option ('rV[reals]_n * 'M[reals]_n).
Variable pinv : forall n d, 'M[reals]_(n, d) -> 'M[reals]_(d, n).
Hypothesis pinvP : pinv_contract pinv.
Variable X : settings.
Variables (mode : behavior) (capacitor : bool) (a : hv R) (t u : container R) (cell : ecm_asoh) (p : cinput).
Hypothesis cellP : one_cell spline X capacitor true a t u cell p.
Hypothesis times : mode = Linear -> distinct_times p (List.map numbers later).
Notation M := (ecm_cell spline X mode).
Variable circuit : list R -> Spec_ECM.cell.
Variable cell_name : string.
Notation run_joint := (run_joint svd nan 25%Re is_nan is_finite cycle_of cell_name).
Notation run_dual := (run_dual svd nan 25%Re is_nan is_finite cycle_of cell_name).

Lemma size_simulated : size l = size later.
Proof.
rewrite /simulated -[LHS]/(List.length _) List.combine_length List.map_length.
have := voltages_length mode0 truth s0 (numbers first) (List.map numbers later); rewrite /circuit_voltages List.map_length /= => -[->].
by rewrite PeanoNat.Nat.min_id.
Qed.

(** Running a joint estimator over the data of a simulation never raises, and the table has
    the estimates of the unscented Kalman filter of the equations of its circuit for the
    simulated inputs and the voltages of the true circuit. *)
Theorem C117_joint x0 theta0 d : to_numpy t = Ok (one_row x0) -> get_parameters a (updatable_names a) = Ok (one_row theta0) ->
  (forall theta, size theta = size theta0 -> circuit_with spline X a (updatable_names a) theta (circuit theta)) ->
  exported nan spline X0 mode0 a0 s0 first later d ->
  forall (P : 'M[reals]_(size x0 + size theta0)) (Q : option 'M[reals]_(size x0 + size theta0)) (V : option 'M[reals]_1) normalize alpha kappa beta E,
  joint_ukf pinv M a t u (CovJoint reals (arr_of P)) None (omap (fun Q => arr_of Q) Q) None None (omap (fun V => arr_of V) V)
    normalize alpha kappa beta = Ok E ->
  (normalize = true -> Q <> None) ->
  posdef P -> (forall A, Q = Some A -> posdef A) -> (forall A, V = Some A -> posdef A) -> safe_tuning alpha kappa beta ->
  estimable true (j_wrapper reals (any_ukf reals) E) cell ->
  exists filter (outs : seq (gaussian reals (size x0 + size theta0) * gaussian reals 1)) E' ts hs,
    [/\ ukf_init (size x0 + size theta0) 1 (Gauss (vec_of (R := reals) _ (x0 ++ theta0)) P) (input_values p)
          (omap (fun Q => Array2 Q) Q) (omap (fun V => Array2 V) V) alpha kappa beta = Ok filter,
        joint_filter svd mode capacitor circuit (size x0) filter p l = [seq Ok (gaussian_of o.1, gaussian_of o.2) | o <- outs],
        List.Forall (fun o : gaussian reals (size x0 + size theta0) * gaussian reals 1 => posdef (covariance o.1) /\ posdef (covariance o.2)) outs &
        [/\ all_names t = Ok ts, hv_expand_names a (updatable_names a) = Ok hs, size outs = size later &
            run_joint (DataSet R (Some d)) E = (E', None, Ok (Some (Frame R (estimate_columns (ts ++ hs))
              ([seq estimate_line o | o <- outs] ++ [:: nseq (2 * (size x0 + size theta0) + 2) 0%Re]))))]].
Proof.
move=> ex et cP D P Q V normalize alpha kappa beta E kE nQ pP pQ pV st es.
have [od lg] := C117_data.2 _ D.
have us := @simulated_usable spline mode0 cell0 s0 first later mode p times.
have [filter [outs [E' [ts [hs [h1 h2 h3 [h4 h5 h6 h7]]]]]]] := @C111_joint svd pinv pinvP spline X mode capacitor a t u cell p cellP circuit nan 25%Re is_nan is_finite cycle_of cell_name x0 theta0 _ _ _ _ ex et cP od lg us P Q V normalize alpha kappa beta E kE nQ pP pQ pV st es.
exists filter, outs, E', ts, hs; split=> //; split=> //; rewrite h6; exact: size_simulated.
Qed.

(** Likewise for a dual estimator. *)
Theorem C117_dual x0 theta0 d : to_numpy t = Ok (one_row x0) -> get_parameters a (updatable_names a) = Ok (one_row theta0) ->
  (forall theta, size theta = size theta0 -> circuit_with spline X a (updatable_names a) theta (circuit theta)) ->
  exported nan spline X0 mode0 a0 s0 first later d ->
  forall (P : 'M[reals]_(size x0)) (S : 'M[reals]_(size theta0)) (tn : option 'M[reals]_(size x0)) (an : option 'M[reals]_(size theta0))
    (V : option 'M[reals]_1) normalize tt ta E,
  dual_ukf pinv M a t u (arr_of P) (arr_of S) None (omap (fun Q => arr_of Q) tn) (omap (fun Q => arr_of Q) an) (omap (fun V => arr_of V) V)
    normalize tt ta = Ok E ->
  (normalize = true -> an <> None) ->
  posdef P -> posdef S -> (forall A, tn = Some A -> posdef A) -> (forall A, an = Some A -> posdef A) -> (forall A, V = Some A -> posdef A) ->
  (forall x, tt = Some x -> safe_tuning (u_alpha x) (u_kappa x) (u_beta x)) ->
  (forall x, ta = Some x -> safe_tuning (u_alpha x) (u_kappa x) (u_beta x)) ->
  estimable true (d_asoh reals (any_ukf reals) (any_ukf reals * container reals) E) cell ->
  ~ selected (d_asoh reals (any_ukf reals) (any_ukf reals * container reals) E) "ocv.ocv_ref.reference_temperature"%string ->
  let tuning o := odflt (default_ukf_tuning reals) o in
  exists filter filter' (outs : seq (gaussian reals (size x0 + size theta0) * gaussian reals 1)) E' ts hs,
    [/\ ukf_init (size x0) 1 (Gauss (vec_of (R := reals) _ x0) P) (input_values p)
          (omap (fun Q => Array2 Q) tn) (omap (fun V => Array2 V) V) (u_alpha (tuning tt)) (u_kappa (tuning tt)) (u_beta (tuning tt)) = Ok filter,
        ukf_init (size theta0) 1 (Gauss (vec_of (R := reals) _ theta0) S) (input_values p)
          (omap (fun Q => Array2 Q) an) (omap (fun V => Array2 V) V) (u_alpha (tuning ta)) (u_kappa (tuning ta)) (u_beta (tuning ta)) = Ok filter',
        dual_filter svd mode capacitor circuit filter filter' p l = [seq Ok (gaussian_of o.1, gaussian_of o.2) | o <- outs],
        List.Forall (fun o : gaussian reals (size x0 + size theta0) * gaussian reals 1 => posdef (covariance o.1) /\ posdef (covariance o.2)) outs &
        [/\ all_names t = Ok ts, hv_expand_names a (updatable_names a) = Ok hs, size outs = size later &
            run_dual (DataSet R (Some d)) E = (E', None, Ok (Some (Frame R (estimate_columns (ts ++ hs))
              ([seq estimate_line o | o <- outs] ++ [:: nseq (2 * (size x0 + size theta0) + 2) 0%Re]))))]].
Proof.
move=> ex et cP D P S tn an V normalize tt ta E kE nQ pP pS ptn pan pV stt sta es er tuning.
have [od lg] := C117_data.2 _ D.
have us := @simulated_usable spline mode0 cell0 s0 first later mode p times.
have [filter [filter' [outs [E' [ts [hs [h0 h1 h2 h3 [h4 h5 h6 h7]]]]]]]] := @C111_dual svd pinv pinvP spline X mode capacitor a t u cell p cellP circuit nan 25%Re is_nan is_finite cycle_of cell_name x0 theta0 _ _ _ _ ex et cP od lg us P S tn an V normalize tt ta E kE nQ pP pS ptn pan pV stt sta es er.
exists filter, filter', outs, E', ts, hs; split=> //; split=> //; rewrite h6; exact: size_simulated.
Qed.
End C117.
Print Assumptions C117_data.
Print Assumptions C117_not_stored.
Print Assumptions C117_joint.
Print Assumptions C117_dual.

(** * A case: the cell of [Properties_Fit.Concrete] is simulated from the state of charge 1/4,
    and estimated by a filter that starts from its own guess. *)
Section Case.
Notation a := Concrete.tree.
Notation t := Concrete.transients.
Notation u := warm_inputs.
Notation M := (ecm_cell Concrete.no_spline Concrete.X Constant).
Notation first := (0, 1, Some 25)%Re.
Notation later := [:: (60, 1, Some 26); (120, 1, Some 27)]%Re.
Example C117_case svd nan is_nan cycle_of cell_name : exists cell0 d E E' columns lines,
  circuit_of Concrete.X a cell0 /\
  exported nan Concrete.no_spline Concrete.X Constant a Properties_Fit.Concrete.true_state first later d /\
  logged (fun _ => true) 25%Re d (simulated Constant (Spec_ECM.cell_of Concrete.no_spline cell0 0) Properties_Fit.Concrete.true_state first later) /\
  joint_ukf (@the_pinv reals) M a t u (CovJoint reals (@arr_of reals (size case_x0 + size case_theta0) (size case_x0 + size case_theta0) 1%:M)) None
    (Some (@arr_of reals (size case_x0 + size case_theta0) (size case_x0 + size case_theta0) 1%:M)) None None None true 1 (Some 0) 2%:R = Ok E /\
  run_joint svd nan 25%Re is_nan (fun _ => true) cycle_of cell_name (DataSet R (Some d)) E = (E', None, Ok (Some (Frame R columns lines))) /\
  size lines = 3%N.
Proof.
have [cell0 [C0 [O0 [U0 [L0 [c0 [T0 [D0 _]]]]]]]] := Properties_Fit.Concrete.C114_case.
have [cell [circuit [E1 [E2 [oc [ex [ea [cP [_ [_ [_ [k1 [es _]]]]]]]]]]]]] := C111_case.
have [[d ed] dP] := @C117_data nan (fun _ => true) cycle_of Concrete.no_spline Concrete.X Constant a cell0 Properties_Fit.Concrete.true_state first later
  C0 O0 U0 L0 c0 (or_introl T0) (fun _ => D0).
have st : safe_tuning (R := reals) 1 (Some 0) 2%:R by right; exists 0; split; [|apply: lexx].
have p1 : posdef (1%:M : 'M[reals]_(size case_x0 + size case_theta0)) by apply: posdef_scalar; apply: ltr01.
have pQ : forall A : 'M[reals]_(size case_x0 + size case_theta0), Some 1%:M = Some A -> posdef A by move=> A [<-]; exact: p1.
have cl : Constant = Linear -> distinct_times warm_input (List.map numbers later) by [].
have nQ : true = true -> Some (1%:M : 'M[reals]_(size case_x0 + size case_theta0)) <> None by [].
have pV : forall A : 'M[reals]_1, None = Some A -> posdef A by [].
have [filter [outs [E' [ts [hs [_ _ _ [_ _ so rE]]]]]]] := @C117_joint nan is_nan (fun _ => true) cycle_of Concrete.no_spline Concrete.X Constant a cell0
  Properties_Fit.Concrete.true_state first later C0 O0 U0 L0 c0 (or_introl T0) (fun _ => D0) svd _ (@the_pinvP reals) Concrete.X Constant false a t u cell warm_input oc
  cl circuit cell_name case_x0 case_theta0 d ex ea cP ed 1%:M (Some 1%:M) None true 1 (Some 0) 2%:R E1 k1
  nQ p1 pQ pV st es.
exists cell0, d, E1, E', (estimate_columns (ts ++ hs)), ([seq estimate_line o | o <- outs] ++ [:: nseq (2 * (size case_x0 + size case_theta0) + 2) 0%Re]).
split; first exact: C0.
split; first exact: ed.
split; first exact: (dP d ed).2.
split; first exact: k1.
split; first exact: rE.
by rewrite size_cat size_map so.
Qed.
End Case.
