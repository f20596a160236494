-Q theories Verif

theories/Arr.v
theories/Arr_lemmas.v
theories/Batdata.v
theories/Cholesky.v
theories/Cholesky_proofs.v
theories/Container.v
theories/Container_proofs.v
theories/Conversions.v
theories/Distributions.v
theories/Distributions_proofs.v
theories/DualBuilt.v
theories/DualRuns.v
theories/DualUKF.v
theories/ECM.v
theories/ECM_affine.v
theories/ECM_batch.v
theories/ECM_batch_total.v
theories/ECM_built.v
theories/ECM_circuit.v
theories/ECM_dual.v
theories/ECM_energy.v
theories/ECM_explicit.v
theories/ECM_float.v
theories/ECM_joint_proofs.v
theories/ECM_member.v
theories/ECM_objects.v
theories/ECM_objects_proofs.v
theories/ECM_physics.v
theories/ECM_rows.v
theories/ECM_run_case.v
theories/ECM_select_proofs.v
theories/ECM_separate.v
theories/ECM_settled.v
theories/ECM_shapes.v
theories/ECM_store.v
theories/ECM_templates.v
theories/ECM_templates_proofs.v
theories/ECM_total.v
theories/ECM_track.v
theories/ECM_track_case.v
theories/ECM_update.v
theories/ECM_voltage.v
theories/Estimators.v
theories/Extractors.v
theories/Extractors_proofs.v
theories/Fit_ECM.v
theories/Gaussian_lists.v
theories/HDF5.v
theories/HDF5_proofs.v
theories/Health.v
theories/Health_expand.v
theories/Health_frame.v
theories/Health_lemmas.v
theories/Health_misc.v
theories/Health_proofs.v
theories/Health_reading.v
theories/Health_resolve.v
theories/Health_rows.v
theories/Health_update.v
theories/Held_proofs.v
theories/Interface.v
theories/Interface_ECM.v
theories/Interface_ECM_case.v
theories/Interface_ECM_names.v
theories/Interface_proofs.v
theories/Interp.v
theories/Interp_proofs.v
theories/Interp_slopes.v
theories/JointHealthy.v
theories/JointRuns.v
theories/JointToy.v
theories/JointUKF.v
theories/JointUKF_init.v
theories/JointUKF_proofs.v
theories/Joint_shapes.v
theories/Json.v
theories/Json_classes.v
theories/Json_objects.v
theories/Json_proofs.v
theories/LossHeap.v
theories/LossHeap_proofs.v
theories/Memory_proofs.v
theories/Monotone_proofs.v
theories/Names.v
theories/Names_lemmas.v
theories/NdArray.v
theories/NdArray_proofs.v
theories/NdR.v
theories/Normalize.v
theories/Offline.v
theories/Offline_proofs.v
theories/Pack_proofs.v
theories/Pinv.v
theories/Properties_Band.v
theories/Properties_Batdata.v
theories/Properties_Clock.v
theories/Properties_Container.v
theories/Properties_Conversions.v
theories/Properties_Defaults.v
theories/Properties_Dilate.v
theories/Properties_Distributions.v
theories/Properties_ECM.v
theories/Properties_ECM_data.v
theories/Properties_ECM_dual.v
theories/Properties_ECM_file.v
theories/Properties_ECM_filter.v
theories/Properties_ECM_float.v
theories/Properties_ECM_joint.v
theories/Properties_ECM_params.v
theories/Properties_ECM_run.v
theories/Properties_ECM_template.v
theories/Properties_ECM_templates.v
theories/Properties_ECM_track.v
theories/Properties_Estimators.v
theories/Properties_Estimators2.v
theories/Properties_Extractors.v
theories/Properties_Failing.v
theories/Properties_Fit.v
theories/Properties_HDF5.v
theories/Properties_Health.v
theories/Properties_Held.v
theories/Properties_Interface.v
theories/Properties_Interp.v
theories/Properties_JointUKF.v
theories/Properties_Json.v
theories/Properties_LossHeap.v
theories/Properties_Memory.v
theories/Properties_Monotone.v
theories/Properties_Naming.v
theories/Properties_NdArray.v
theories/Properties_Normalize.v
theories/Properties_Offline.v
theories/Properties_Pack.v
theories/Properties_Reading.v
theories/Properties_Repair.v
theories/Properties_Rest.v
theories/Properties_Resume.v
theories/Properties_Runs.v
theories/Properties_SimHeap.v
theories/Properties_Simulated.v
theories/Properties_Simulator.v
theories/Properties_Superposition.v
theories/Properties_Temperature.v
theories/Properties_Template.v
theories/Properties_Thevenin.v
theories/Properties_Track.v
theories/Properties_UKF.v
theories/Properties_UKF_runs.v
theories/Properties_Warm.v
theories/Properties_Wrappers.v
theories/Properties_Wrappers2.v
theories/RealField.v
theories/Res.v
theories/Rest_proofs.v
theories/RingTac.v
theories/SimHeap.v
theories/SimHeap_proofs.v
theories/Simulated_data.v
theories/Simulator.v
theories/Simulator_proofs.v
theories/Spec_Clock.v
theories/Spec_Container.v
theories/Spec_Conversions.v
theories/Spec_Defaults.v
theories/Spec_Dilate.v
theories/Spec_Distributions.v
theories/Spec_DualUKF.v
theories/Spec_ECM.v
theories/Spec_ECM_batch.v
theories/Spec_ECM_equations.v
theories/Spec_ECM_file.v
theories/Spec_ECM_filter.v
theories/Spec_ECM_objects.v
theories/Spec_ECM_run.v
theories/Spec_ECM_select.v
theories/Spec_ECM_template.v
theories/Spec_ECM_templates.v
theories/Spec_ECM_track.v
theories/Spec_ECM_tracked.v
theories/Spec_Estimators.v
theories/Spec_Extractors.v
theories/Spec_Filter.v
theories/Spec_Fit.v
theories/Spec_HDF5.v
theories/Spec_Health.v
theories/Spec_Held.v
theories/Spec_Interface.v
theories/Spec_Interface_ECM.v
theories/Spec_Interp.v
theories/Spec_JointUKF.v
theories/Spec_Json.v
theories/Spec_Memory.v
theories/Spec_Monotone.v
theories/Spec_Names.v
theories/Spec_Offline.v
theories/Spec_Pack.v
theories/Spec_Rest.v
theories/Spec_SimHeap.v
theories/Spec_Simulated.v
theories/Spec_Simulator.v
theories/Spec_Superposition.v
theories/Spec_Temperature.v
theories/Spec_Thevenin.v
theories/Spec_Track.v
theories/Spec_UKF.v
theories/Spec_Warm.v
theories/Spec_Wrappers.v
theories/Superposition_proofs.v
theories/Tempered_proofs.v
theories/TemplateHeap.v
theories/TemplateHeap_proofs.v
theories/Thevenin.v
theories/Thevenin_proofs.v
theories/Track.v
theories/UKF.v
theories/UKF_conj.v
theories/UKF_linear.v
theories/UKF_proofs.v
theories/Wrappers.v
theories/Wrappers_proofs.v
