# Design of the formal model of ROVI-org/auto-soh (`moirae`)

## 1. Approach

The model is a shallow embedding in Gallina: each Python function of interest
becomes one Coq function with the same branches, and a Python exception is a
value (`Err kind` of the type `res`).  Model files contain definitions only;
proofs are in `*_proofs.v` files (and in `ECM_*.v`, `Health_*.v`,
`UKF_linear.v`); the property theorems are in `Properties_*.v` files, each with
`Print Assumptions` and a case that meets its hypotheses (an `Example`, or the
plain module `Concrete` of the file).  Small independent specifications live in
`Spec_*.v`.

Number systems:

* **data plumbing** (containers, health-variable trees, simulator, wrappers,
  estimators, HDF5 files, data frames) is polymorphic in the element type and
  fully computable;
* **circuit physics** (ECM, Thevenin, offline loss, extractors) uses the
  standard library's real numbers `R`, because it needs `exp`;
* **linear algebra** (Kalman filter, conversions) uses MathComp matrices over
  an arbitrary real closed field `R : rcfType` (so no axioms);
* **floating point** rounding is *not* modelled, except in C38, which uses the
  standard library's executable specification of IEEE binary64 (`SpecFloat`).

Mutation is modelled in two ways.  Where only values matter, a method that
changes an object returns the new object.  Where the property is about sharing
(C17, C22, C79, C87, and the loss of C72), there is an explicit store of
objects: `TemplateHeap.v`, `SimHeap.v`, `Distributions.v` (second half),
`LossHeap.v`.

Properties whose natural reading is false of the code are stated as what
actually happens and proved together with a `_refuted` theorem giving a witness
against the natural reading.

## 2. Per property: what is modelled and how it is proved

| id | modelled by | proof idea |
|----|-------------|-----------|
| C01-C04 | `Container.v`: containers as lists of (name, optional 2-D array) | induction over fields, list lemmas on `firstn/skipn/++` |
| C05 | `NdArray.v`: arrays as shape + flat data; `enforce_dimensions` | case analysis on shapes |
| C06-C16, C80, C83, C84 | `Health.v`, `Names.v`: health variables as finite trees, names as real strings, dot splitting, decimal indices | structural induction on trees with a hand-written induction principle |
| C17 | `TemplateHeap.v`: explicit object store | invariants over the store |
| C18-C21, C79 | `Simulator.v`: simulator over arbitrary cell/degradation models | induction over input lists |
| C22 | `SimHeap.v`: simulator over a store of objects | frame invariant over any sequence of calls |
| C23-C30, C35-C37, C81 | `ECM.v`: the ECM step and voltage over `R` | real analysis: `exp` monotonicity, convexity; induction over input sequences; `derivable_pt_lim` |
| C31, C32 | `Interp.v`: interpolation | induction over grids |
| C33, C34, C82 | `ECM.v` over `NdR.v`: n-d arrays with NumPy broadcasting and errors | index calculations, batch member projections |
| C38 | `ECM_float.v`: the assertion in binary64 | evaluation of a witness, exact real proof, case analysis on all doubles |
| C39-C47, C85 | `UKF.v`, `Cholesky.v`: UKF with an executable Cholesky factorisation | block-matrix induction, Schur complements, induction over histories |
| C48-C50, C53, C86 | `Conversions.v` | matrix algebra |
| C51, C52, C87 | `Distributions.v` | list and block lemmas; store invariants |
| C54, C55, C88 | `Wrappers.v` | reuse of the C01/C10 round trips |
| C56-C60, C62, C89, C90 | `Estimators.v` over any filter | case analysis of steps, round trips |
| C61 | `Normalize.v` | matrix algebra |
| C63-C66, C92, C97 | `Interface.v` over any estimator | induction over rows |
| C67-C71, C91 | `HDF5.v`: groups of growable datasets | invariants over append sequences |
| C72-C74 | `Offline.v`, `LossHeap.v` | refinement to a specification over the simulator |
| C75-C77 | `Thevenin.v` with an arbitrary backend | parametricity in the unused field, induction over members |
| C78 | `Extractors.v` with any spline | finite sums, sorting |
| C93-C96 | `Json.v`, `Json_classes.v`: class declarations as trees of fields, JSON texts as trees | mutual induction over declarations and instances |
| C98 | `JointUKF.v`: wrapper, estimator, filter and conversions put together | filters in two coordinate systems simulate each other: conjugation of the UKF by a diagonal conversion (`UKF_conj.v`), induction over histories |
| C99 | `Wrappers.v` | the round trips of C01/C10 applied to the decoded arguments of the models |
| C100 | `Batdata.v`: export of a simulation, read by `Interface.v` | row arithmetic of C20, induction over rows |
| C101 | `Estimators.v` | conversions undo each other on one row; the rest is the order of the steps |
| C102 | `ECM_objects.v`: the circuit model reading and writing the containers and the health variable of the wrappers; `Wrappers.v` | every array of the copies is related row by row to one cell; `ECM_update.v`, `ECM_voltage.v` per row; the circuit is specified by the places of the parameters (`circuit_of`, `Spec_ECM_objects.v`), and `C102_circuit` shows the reading to be exactly that |
| C103 | the same | success of every broadcast characterised by numbers of rows (`ECM_batch_total.v`), numbers of rows by the selection (`ECM_select_proofs.v`) |
| C104 | `JointUKF.v` around `ECM_objects.v`, with the scalars instantiated with the real numbers (`RealField.v`) | C103 says when the model can be evaluated for all sigma points at once, C102 that it treats each of them by itself; the invariant of C31/C98 (positive definite covariance) then carries every run (`JointRuns.v`), and `JointHealthy.v` shows that it holds after construction. Numbers are reals here: a division by zero (a capacity of zero among the sigma points, say) gives some number and not `inf` or `nan` as in numpy |
| C105 | `Health.v`: `get_parameters`, `get_model_chain` | a relation `leads` (`Spec_Names.v`) says where the pieces of a name lead; induction over the pieces shows the model follows it; concatenation by rows |
| C106 | `DualUKF.v` (the constructors of dual.py lines 139-296 and the two filters run by `Estimators.dual_step`) around `ECM_objects.v` | the transient wrapper evaluates any batch for the health parameters handed to it, the health wrapper any batch of an estimable selection for the transient state handed to it (C102, C103, `ECM_dual.v`); an invariant over the pair of filters (both healthy, same controls, wrappers around one cell) is kept by every step (`DualRuns.v`) and holds after construction (`DualBuilt.v`); a diagonal change of coordinates of the second filter commutes with every step. Real numbers as for C104 |
| C107 | as C104 and C106; the specification (`Spec_ECM_equations.v`, `Spec_ECM_filter.v`) writes the equations of one cell as functions on lists of numbers and runs the filter of `UKF.v` on them, with no array, container or wrapper in between | refinement, step by step: what the wrappers compute on a batch is the list of what the equations give for its rows (`ECM_explicit.v`, from C102), for circuits that do not depend on what evaluations have written into the health variable (`ECM_settled.v`), so each step of the estimator is a step of the filter of the equations; the constructors build that filter (or its image under the normalisation, C104 and C106) |
| C108 | the filter of `UKF.v` around any affine system, and the joint estimator of C107 around cells with affine equations; the specification (`Spec_Track.v`, `Spec_ECM_track.v`, `Spec_ECM_tracked.v`) has the true system, its disturbances and the distance relative to a covariance | the distance is the least bound on all linear functionals (Cauchy-Schwarz); prediction adds independent parts, and the correction, written in Joseph's form, is a sum of two such parts (`Track.v`), then induction over the run; for the circuit the equations are shown affine (`ECM_affine.v`) and the filter of C107 is that of the matrices (`ECM_track.v`); `C108_square_refuted` shows that the claim does not extend to other systems |
| C109 | `provide_template` and `from_asoh` (`ECM_objects.v`; a matrix of currents is not modelled); the specification (`Spec_ECM_template.v`) has the state that is asked for | case analysis on the currents; the state meets the hypotheses `one_cell` of C104, C106, C107 and C108, and its voltage follows from C27 by the rules of reading and writing containers |
| C110 | `ECMASOH.provide_template` and `realistic_fake_ocv` (`ECM_templates.v`, through the coercions of `NdArray.v`; cubic interpolation is an uninterpreted function of the points, sharing of default elements is in `TemplateHeap.v`); the specification (`Spec_ECM_templates.v`) says what circuit is asked for and what a curve through given values is | the tree that is made and the circuit read from it are computed for symbolic values, induction on the elements; the curves by C31; with C109 it is a cell as in C104, C106, C107 and C108; monotony of the logarithm for the default voltages |
| C111 | `run_online_estimate` (`Interface.v`) applied to the joint and dual estimators of C104/C106, whose names, sizes and steps are those of `Interface_ECM.v`; the specification (`Spec_Interface_ECM.v`) says what a line of the data says and what a line of the table is | composition: the table of C63, the names of C62 and `names_of_base`, the estimates of C107, the covariances of C104/C106. Files written along the way are not part of this property (C92 has them) |
| C112 | The linear interpolation of Interp.v and the voltage of ECM.v (nothing new). | Interp_slopes.v: on every pair of arguments the interpolation lies between the least and the largest step slope (induction over the pieces of the grid, extrapolation by the outer pieces); injectivity, a distance bound and, by the intermediate value theorem, existence of the state of charge for each voltage. Specification: Spec_Rest.v. |
| C113 | Simulations of ECM.v with zero current (nothing new). | Rest_proofs.v: one step at zero current is the decay of the RC currents by the elapsed time in both modes, decays compose, induction over the inputs; the voltage bound by induction over the elements. Uses `trajectory_run`. |
| C114 | Offline.v (loss, optimiser interface), Batdata.v, Interface.v and ECM.v (nothing new); Spec_Fit.v names the voltages of a circuit along rows. | Composition: rows of exported data read back (C100), the loss vanishes exactly when predictions and data agree (C72), the estimator returns the cell of a minimum (C74). Fit_ECM.v: the equivalent circuit model is a one-cell model, with the invariant that the health keeps its circuit. |
| C115 | Simulations of ECM.v with a held current (nothing new); Spec_Held.v has the closed form. | Held_proofs.v: one step at a held current is the closed form in both modes; closed forms compose when the dynamics are flat; induction over the inputs. Inserting an input by induction over the inputs before it. The difference for sloped elements by injectivity of exp. |
| C116 | Two simulations of ECM.v related by a shift of the clock or a permutation of the elements. | Held_proofs.v: steps commute with the shift and with the permutation, induction over the inputs; the sum of the voltages is invariant under permutations. |
| C117 | Simulator, Batdata.v, Interface.v and the filters (nothing new); Spec_Simulated.v says which table is exported and which inputs and voltages it should hold. | Composition: a usable circuit simulates and exports (C100, C114), its rows read inputs and voltages (C66), and the runs over logged rows are those of C111. |
| C118 | Interface.v, HDF5.v, Interface_ECM.v (nothing new); Spec_ECM_file.v lists the steps a file should hold. | Composition: the results of the estimator over the rows are those of C111 (joint_over), and the file of a successful run is read back (C92); the settings of the writer stay (C97). |
| C119 | ECM.v, Offline.v, Batdata.v (nothing new); Spec_Temperature.v says when a circuit was measured at one temperature. | The neutral temperature leaves every component unchanged (induction over elements and inputs); the loss of the truth from simulated_circuit and C72; the refutation is a concrete cell whose first voltages differ. |
| C120 | Pairs of simulations of ECM.v with the same inputs; Spec_Memory.v defines differences and throughput. | Memory_proofs.v: one step contracts the differences of the RC currents by exp(-dt/tau) and those of the hysteresis by the exponential of the charge; induction over the inputs; the linear-mode refutation is one step. |
| C121 | Simulations of ECM.v of a circuit and of its pack (Spec_Pack.v). | Pack_proofs.v: linear interpolation is homogeneous in the values, a step commutes with the scaling, induction over the inputs; the small-current exception is one step. |
| C122 | Estimators of C104-C107 built on two clocks (Spec_Clock.v). | By C107 both are filters whose equations only use differences of times; a lock-step relation ('alike': equal but for the remembered input), induction over the history. |
| C123 | Reading of texts (Json.v, Json_classes.v); the circuit a short text stands for (Spec_Defaults.v). | A general lemma on reading objects field by field, then one lemma per class, induction over the RC elements; behaviour by rewriting the equations of Spec_ECM.v. |
| C124 | Two simulations of ECM.v with ordered currents (Spec_Monotone.v). | Monotone_proofs.v: each component of a step is monotone, the hysteresis by the signs of both currents; induction over the inputs. The exception for currents below 1e-8 is one step. |
| C125 | The estimators of C107 with two initial inputs and two histories, without temperatures and with T throughout (Spec_Warm.v, Spec_Temperature.v). | Tempered_proofs.v: replacing other parameters keeps the reference temperatures; then C107 for both and the equality of the equations (C119) at every circuit, by induction over the history. |
| C126 | Three simulations of ECM.v at the same times (Spec_Superposition.v). | Superposition_proofs.v: one step and the voltage are linear in the currents and the state of the circuit, in both modes; induction over the inputs. The exception for imperfect efficiencies is one step. |
| C127 | Simulations of ECM.v with currents within bounds. | From C24 (RC currents) and C27 (hysteresis) and the decomposition of the voltage; the charge by induction over the inputs. The exception in linear mode is one step of the code's formula. |
| C128 | A circuit and the k times slower one, at k times the times (Spec_Dilate.v). | One step, in both modes, and the voltage are the same functions of the two; induction over the inputs. Linear interpolation is proportional to its values (Pack_proofs.v). |
| C129 | Steps of joint_ukf and dual_ukf that raise, after any history (JointUKF.v, DualUKF.v). | Invariant: positive dimensions and conversions that are the identity or a scaling, so nothing after a filter's step can raise; a filter that raises is unchanged. Induction over the history. Atomicity of the dual step is refuted with a health filter that raises. |
| C130 | The loop of run_online_estimate over a dataset and over its two parts (Interface.v). | The relation of rows to estimates splits and joins at any position (induction over the rows); the table is the one of C63. |

## 3. Trusted base

* Coq 8.16.1's kernel (the proofs are also accepted by `coqchk`), and that the
  model says what the Python code does; section 4 lists what it leaves out.
* Libraries: Coq's standard library and MathComp (with its `real_closed` parts
  that `rcfType` needs).  No other library is loaded, no axiom is added, no check
  is switched off, nothing is admitted.
* `Print Assumptions` of every property theorem (it stands below each theorem in
  the source as well) gives one of the following lists.  All axioms are those of
  the standard library's real numbers, functional extensionality and classical
  logic.

**Closed under the global context** (260 theorems): `C01_decode_after_encode`, `C01_decode_after_encode_unbatched`, `C01_empty_raises`, `C01_encode_after_decode`, `C01_encode_rows`, `C02_name_unambiguous`, `C02_names_distinct`, `C02_names_match_columns`, `C03_short_vector_changes_length_refuted`, `C03_surplus_ignored`, `C03_wrong_width_is_silent`, `C04_batch_size_iff`, `C04_inconsistent_raises`, `C04_zero_rows_order_refuted`, `C05_idempotent`, `C05_list_parameter`, `C05_other_dimension_raises`, `C05_scalar_parameter`, `C05_stored_column`, `C05_well_formed`, `C06_listed_names_resolve`, `C06_listing_exact`, `C07_dotted_key_refuted`, `C07_list_field_refuted`, `C07_lists_never_resolve`, `C08_mark_all`, `C08_mark_fixed`, `C08_own_flags_only`, `C09_chain_is_path`, `C09_mark_flags`, `C09_mark_one`, `C09_marking_exact_refuted`, `C100_estimate_simulated`, `C100_not_stored`, `C100_read_back`, `C100_rows`, `C100_several_cells_refuted`, `C101_dual_step`, `C101_joint_step`, `C105_no_names`, `C105_reading`, `C105_structures_raise`, `C105_unambiguous`, `C108_bound`, `C108_directions`, `C108_exact`, `C108_outputs`, `C108_square_refuted`, `C10_default_names`, `C10_read_then_update`, `C10_update_then_read`, `C110_style`, `C11_make_copy`, `C11_other_parameters_kept`, `C11_update_frame`, `C129_dual`, `C129_dual_atomic_refuted`, `C129_dual_skip`, `C129_joint`, `C129_skip`, `C12_atomic_refuted`, `C12_exact_conditions`, `C12_success_needs_flags`, `C130_gap`, `C130_resume`, `C13_batched_roundtrip_raises`, `C13_misassigned_refuted`, `C14_counts_agree`, `C14_expanded_names`, `C14_names_distinct`, `C15_batch_size`, `C15_ignores_flags`, `C15_otherwise_value_error`, `C16_flags_irrelevant`, `C16_set_value`, `C17_all_get_the_last_values`, `C17_deep_copies`, `C17_explicit_separate`, `C17_last_write_wins`, `C17_template_shares`, `C17_wrong_number_refused`, `C18_depends_on_state_only`, `C18_evolve_is_trajectory`, `C18_split`, `C18_trajectory_is_followed`, `C19_history_complete`, `C19_history_irrelevant`, `C19_last_entries_current`, `C19_no_history_no_export`, `C20_groups`, `C20_labels_right_iff`, `C20_rows_and_labels`, `C21_health_constant`, `C21_history_constant`, `C22_isolated`, `C22_memory_is_values`, `C22_returned_transient_refuted`, `C22_transient_shared`, `C38_constant_mode_never_fails`, `C38_ramp_to_rest_refuted`, `C38_sign_flip_refuted`, `C39_automatic`, `C39_cov_weights`, `C39_mean_weights`, `C39_other_weights`, `C40_accepts_exactly`, `C40_rejects`, `C40_result`, `C41_sigma_points`, `C42_central_weight`, `C42_default_tuning`, `C42_kappa`, `C42_large_beta`, `C42_positive_definite_forever`, `C43_refuted`, `C44_kalman_filter`, `C44_tuning_irrelevant`, `C45_affine`, `C45_less_uncertain`, `C45_no_surprise`, `C45_step`, `C46_fallback`, `C46_fallback_symmetric`, `C46_one_dimension`, `C46_repair_refuted`, `C46_semidefinite_altered`, `C46_unchanged`, `C47_run`, `C48_accepts`, `C48_delta`, `C48_gaussian`, `C48_identity`, `C48_linear`, `C49_matrix`, `C49_psd`, `C49_scalar`, `C50_covariance`, `C50_default`, `C50_indices`, `C50_inverse_covariance`, `C50_out_of_range`, `C50_round_trips`, `C50_samples`, `C51_associative`, `C51_combine`, `C51_deltas`, `C51_objects`, `C51_symmetric`, `C52_delta`, `C52_gaussian`, `C52_refused`, `C53_fresh`, `C53_new`, `C53_round_trip_fails`, `C53_stale`, `C54_constructed`, `C54_decode_encoded`, `C54_encode_decoded`, `C54_nothing_selected_refuted`, `C55_health_is_held`, `C56_differs_otherwise`, `C56_estimated_state`, `C56_identity_agrees`, `C56_state_agrees_refuted`, `C56_step_returns_converted_state`, `C57_dual_cannot_be_prepared`, `C57_state_always_raises`, `C57_step_combines`, `C58_fills_updatable`, `C58_other_order_refuted`, `C58_partial_selection_raises`, `C58_right_selection`, `C59_health_half`, `C59_previous_posteriors`, `C59_transient_half`, `C60_noise_used`, `C60_one_sided_noise_dropped`, `C61_normalised_start`, `C62_batches_refused`, `C62_dimensions_and_names`, `C62_dual_names`, `C63_no_rows_raises`, `C63_raises_midway`, `C63_steps_once_per_row`, `C63_table`, `C64_first_row_unused`, `C65_not_standard_deviations_refuted`, `C65_variances`, `C66_missing_column`, `C66_row_conversion`, `C67_metadata`, `C67_other_name_not_found`, `C67_round_trip`, `C67_round_trip_path`, `C67_wrong_type`, `C68_first_of_cycle`, `C69_counted_from_one`, `C69_until_missing`, `C70_fits`, `C70_jump_raises`, `C70_no_more_than_expected`, `C71_only_while_open`, `C71_position`, `C71_prepare_keeps_estimates`, `C71_prepare_new`, `C71_prepared_twice`, `C71_reopened_is_overwritten`, `C74_start_is_the_guess`, `C77_construction`, `C79_atomic_refuted`, `C79_later_failure`, `C79_update_fails`, `C80_structure_replaced`, `C83_negative_positions`, `C83_out_of_range`, `C84_structures`, `C84_tuple_from_zero`, `C85_keyword_arguments`, `C85_type_error`, `C86_extension`, `C86_project`, `C86_reduction`, `C87_shared_covariance`, `C88_joint_degradation_lags`, `C89_same_prediction`, `C90_dual_starts_at_initial_values`, `C90_joint_starts_at_initial_values`, `C91_cycle_record_is_final`, `C91_failed_append_is_not_undone_refuted`, `C91_past_rows_are_final`, `C92_dual_raises`, `C92_file_of_run`, `C92_without_cycle_numbers`, `C93_lists`, `C93_round_trip`, `C93_scalar_row`, `C93_texts`, `C94_refused`, `C94_updatable`, `C95_read_back`, `C95_same_text`, `C97_closed`, `C97_failed_write`, `C97_file_left`, `C97_new_file`, `C97_recording_is_passive`, `C97_rectangular`, `C97_same_settings`, `C98_both_exist`, `C98_default_noise`, `C98_default_noise_refuted`, `C98_same_results`, `C98_starts_healthy`, `C99_health_prediction`, `C99_health_update`, `C99_health_update_raises`, `C99_joint_prediction`, `C99_transient_wrapper`, `C99_wrong_batch`, `C99_wrong_width`.

**`ClassicalDedekindReals.sig_forall_dec`** (8 theorems): `C102_circuit`, `C36_units`, `C75_previous_inputs`, `C75_temperature_ignored`, `C76_failures`, `C76_members_independent`, `C76_overpotentials`, `C93_entries`.

**`ClassicalDedekindReals.sig_forall_dec`, `FunctionalExtensionality.functional_extensionality_dep`** (63 theorems): `C109_from_asoh`, `C109_template`, `C112_slopes`, `C114_estimate`, `C114_truth_has_no_loss`, `C114_truth_minimises`, `C123_circuit`, `C123_input`, `C123_state`, `C123_thevenin`, `C123_thevenin_state`, `C31_at_pinpoint`, `C31_between_neighbours`, `C31_default_grid`, `C31_extrapolation`, `C31_on_segment`, `C31_single_value`, `C32_values_unaffected`, `C32_width_frozen`, `C35_ocv`, `C36_read_then_set`, `C36_set_then_read`, `C37_affine`, `C37_bounds`, `C37_equal_limits`, `C37_scales_with_capacity`, `C37_symmetric`, `C38_exact_never_fails`, `C51_positive`, `C52_unchecked`, `C72_caller_cannot_reach_the_guess`, `C72_evaluation_modifies_nothing`, `C72_evaluations_are_independent`, `C72_one_vector`, `C72_value`, `C73_batched_outputs_raise`, `C73_members_alike`, `C74_answer_is_returned`, `C74_estimate`, `C74_same_minimisers`, `C74_same_order`, `C76_result_of_member`, `C77_initial_state`, `C77_soc_polynomial`, `C77_temperature_polynomial`, `C77_terminal_voltage`, `C78_capacity`, `C78_capacity_raises`, `C78_check_passes`, `C78_check_raises`, `C78_check_stores`, `C78_constructor`, `C78_extracted_ocv`, `C78_fit`, `C78_recovers`, `C78_row_order`, `C78_weights`, `C93_circuit`, `C93_circuit_determined`, `C93_state`, `C93_state_determined`, `C94_circuit`, `C96_rate`.

**`ClassicalDedekindReals.sig_forall_dec`, `ClassicalDedekindReals.sig_not_dec`, `FunctionalExtensionality.functional_extensionality_dep`** (70 theorems): `C102_health_prediction`, `C102_health_rows_refuted`, `C102_joint_prediction`, `C102_joint_update`, `C102_transient_prediction`, `C102_transient_update`, `C103_health_prediction`, `C103_health_update`, `C103_joint_prediction`, `C103_joint_update`, `C103_joint_update_one`, `C103_transient_wrapper`, `C107_circuits`, `C109_rest_voltage`, `C110_default_capacitor`, `C112_every_voltage`, `C112_rest_voltages`, `C112_soc_from_voltage`, `C113_decay`, `C114_circuit`, `C115_closed_form`, `C115_insertion`, `C115_sampling`, `C116_clock`, `C116_order`, `C117_data`, `C117_not_stored`, `C119_fit`, `C119_loss_of_truth`, `C119_missing_is_reference`, `C119_other_reference_refuted`, `C120_hysteresis`, `C121_no_raise`, `C121_pack`, `C123_cell`, `C123_temperature`, `C124_charge`, `C126_charge`, `C126_efficiency_refuted`, `C126_superposition`, `C127_charge`, `C128_no_raise`, `C128_slower`, `C23_series_capacitor`, `C23_soc`, `C24_one_step`, `C24_split`, `C24_zero_step`, `C26_new_current`, `C26_previous_current`, `C27_zero_current`, `C28_distance_grows`, `C30_affine`, `C30_decomposition`, `C30_rested`, `C33_histories`, `C33_update`, `C33_voltage`, `C34_new`, `C34_previous`, `C34_previous_ambiguous`, `C35_no_temperature`, `C35_positive`, `C35_reference_temperature`, `C35_resistance`, `C35_time_constant`, `C38_same_assertion`, `C81_start_from_zero`, `C82_unbatched_never_raises`, `C94_after_voltage`.

**`ClassicalDedekindReals.sig_forall_dec`, `ClassicalDedekindReals.sig_not_dec`, `Classical_Prop.classic`, `FunctionalExtensionality.functional_extensionality_dep`** (25 theorems): `C110_default_voltages`, `C110_one_cell`, `C110_template`, `C110_wrong_number`, `C113_converges`, `C113_voltage`, `C115_varying_refuted`, `C120_currents`, `C120_linear_refuted`, `C120_voltage`, `C121_small_currents_refuted`, `C124_tiny_currents_refuted`, `C124_voltage`, `C127_band`, `C127_linear_refuted`, `C24_interval`, `C25_error`, `C25_wrong_unless_constant`, `C26_single_current`, `C27_bounded`, `C27_monotone`, `C28_unbounded`, `C29_bounded`, `C29_exact`, `C35_decreasing`.

**`ClassicalDedekindReals.sig_forall_dec`, `ClassicalDedekindReals.sig_not_dec`, `Epsilon.epsilon_statement`, `FunctionalExtensionality.functional_extensionality_dep`** (23 theorems): `C104_constructs`, `C104_normalising`, `C104_runs`, `C106_constructs`, `C106_normalising`, `C106_runs`, `C106_selection`, `C106_starts_healthy`, `C107_dual`, `C107_joint`, `C108_circuit`, `C108_numbers`, `C111_dual`, `C111_joint`, `C117_dual`, `C117_joint`, `C118_dual_raises`, `C118_joint`, `C122_dual`, `C122_joint`, `C122_selection`, `C125_dual`, `C125_joint`.

## 4. What is modelled and what is not

Modelled, function by function (each definition cites file and lines):

* `models/base.py`: `enforce_dimensions`, all of `HealthVariable`, all of
  `GeneralContainer`, the interfaces `CellModel` and `DegradationModel`;
  writing and reading of parameters as JSON for the circuit and Thevenin classes;
* `models/utils.py`: `NoDegradation`;
* `models/ecm/`: `SOCInterpolatedHealth`, all components,
  `EquivalentCircuitModel`, `hysteresis_solver_const_sign`,
  `get_theoretical_energy`, `ECMASOH.provide_template` (its tree of values and, separately, sharing of the RC
  elements), `realistic_fake_ocv`;
* `models/thevenin/`: all;
* `simulator.py`: all (descriptions of extra columns are left out);
* `estimators/online/filters/`: the unscented Kalman filter with its tools,
  conversions, distributions;
* `estimators/online/`: the three model wrappers, `OnlineEstimator`,
  `JointEstimator`, `DualEstimator` and their constructors from wrappers; both
  estimators also with unscented Kalman filters in place (`JointUKF.v`,
  `DualUKF.v`), the wrappers also with the equivalent circuit model in place (`ECM_objects.v`);
* `estimators/offline/`: `BaseLoss`, `MeanSquaredLoss`, `ScipyMinimizer`;
* `interface/`: `row_to_inputs`, `run_online_estimate`, `HDF5Writer`,
  `read_state_estimates`;
* `extractors/`: all.

Represented by a parameter of the theorems, with exactly the contract that is
used: SciPy's `interp1d` for kinds other than linear (any function), SciPy's
smoothing spline (any function that minimises a weighted sum), `numpy.linalg`'s
`svd` (any function) and `pinv` (the Penrose conditions where needed: Pinv.v shows
that exactly one function meets them),
`scipy.optimize.minimize` (any function), the `thevenin` solver (any function
of the parameters it is given), the chunk size chosen by h5py, and any cell
model, degradation model, filter or estimator where the code takes one.

Simplifications, stated in the comments where they are made; the main ones:

* exact arithmetic instead of binary64 (except C38); infinities and NaN do not
  occur in computations (in files and tables a value can be marked as NaN);
* pydantic's validation is modelled by the validators the classes define, and a
  failing validator raises `ValidationError`; messages of exceptions are not
  modelled;
* sets of names are lists without duplicates, in the order of iteration;
* JSON texts are trees; how numbers are printed and parsed is not modelled;
* h5py: bytes, compression, element types and file locking are not modelled;
  pandas: data frames are a list of column names and a list of rows; `battdat`:
  a dataset is its raw-data frame;
* progress bars, logging, plotting and documentation are not modelled.

Not modelled: `docs/`, the test suite, `version.py`.

## 5. Tests of the theorems against wrong programs

`seeded/LOG.jsonl` has one line per edit: the model is changed as a bug would
change the program, everything that depends on it is rebuilt, and the property
theorems whose proofs fail are recorded.  An edit that no theorem notices although
its claim is false of the edited program leads to a stronger theorem, which is
recorded in the same line (`theorems_tightened`).
