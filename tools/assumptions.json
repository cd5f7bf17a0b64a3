{
"adapter_analyze": [
"Properties_Solver",
[]
],
"adapter_curvature_refuted": [
"Properties_SolverHistory",
[]
],
"adapter_history": [
"Properties_SolverHistory",
[]
],
"adapter_init": [
"Properties_Solver",
[]
],
"adapter_leak_refuted": [
"Properties_Solver",
[]
],
"adapter_memory": [
"Properties_Solver",
[]
],
"adapter_solve": [
"Properties_Solver",
[]
],
"addSpline_null": [
"Properties_Tighten8",
[]
],
"addSpline_ok": [
"Properties_DesignVars",
[]
],
"addSpline_twice": [
"Properties_DesignVars",
[]
],
"add_all_spec": [
"Properties_DesignVars",
[]
],
"add_spline_exactly": [
"Properties_Exact2",
[]
],
"bestQuat_closest": [
"Properties_Geodetic",
[
"ClassicalDedekindReals.sig_forall_dec",
"ClassicalDedekindReals.sig_not_dec",
"FunctionalExtensionality.functional_extensionality_dep"
]
],
"bestQuat_hemisphere": [
"Properties_Geodetic",
[
"ClassicalDedekindReals.sig_forall_dec",
"ClassicalDedekindReals.sig_not_dec",
"FunctionalExtensionality.functional_extensionality_dep"
]
],
"bestQuat_representative": [
"Properties_Geodetic",
[
"ClassicalDedekindReals.sig_forall_dec",
"ClassicalDedekindReals.sig_not_dec",
"FunctionalExtensionality.functional_extensionality_dep"
]
],
"bestQuat_same_rotation": [
"Properties_Geodetic",
[
"ClassicalDedekindReals.sig_forall_dec",
"ClassicalDedekindReals.sig_not_dec",
"FunctionalExtensionality.functional_extensionality_dep"
]
],
"calibration_text": [
"Properties_TextObjects",
[]
],
"calibrator_add_due": [
"Properties_Calibrator",
[
"ClassicalDedekindReals.sig_forall_dec",
"FunctionalExtensionality.functional_extensionality_dep"
]
],
"calibrator_clear_and_window": [
"Properties_Tighten",
[
"ClassicalDedekindReals.sig_forall_dec",
"FunctionalExtensionality.functional_extensionality_dep"
]
],
"calibrator_conservation": [
"Properties_Calibrator",
[
"ClassicalDedekindReals.sig_forall_dec",
"FunctionalExtensionality.functional_extensionality_dep"
]
],
"calibrator_defaults": [
"Properties_Tighten5",
[
"ClassicalDedekindReals.sig_forall_dec",
"FunctionalExtensionality.functional_extensionality_dep"
]
],
"calibrator_failure_in_splines": [
"Properties_Calibrator",
[
"ClassicalDedekindReals.sig_forall_dec",
"FunctionalExtensionality.functional_extensionality_dep"
]
],
"calibrator_failure_refuted": [
"Properties_Calibrator",
[
"ClassicalDedekindReals.sig_forall_dec",
"FunctionalExtensionality.functional_extensionality_dep"
]
],
"calibrator_history": [
"Properties_Calibrator",
[
"ClassicalDedekindReals.sig_forall_dec",
"FunctionalExtensionality.functional_extensionality_dep"
]
],
"calibrator_no_duplicates": [
"Properties_Calibrator",
[
"ClassicalDedekindReals.sig_forall_dec",
"FunctionalExtensionality.functional_extensionality_dep"
]
],
"calibrator_window_length": [
"Properties_Calibrator",
[
"ClassicalDedekindReals.sig_forall_dec",
"FunctionalExtensionality.functional_extensionality_dep"
]
],
"calibrator_window_times": [
"Properties_Calibrator",
[
"ClassicalDedekindReals.sig_forall_dec",
"FunctionalExtensionality.functional_extensionality_dep"
]
],
"calibrator_windows_tile": [
"Properties_Calibrator",
[
"ClassicalDedekindReals.sig_forall_dec",
"FunctionalExtensionality.functional_extensionality_dep"
]
],
"calls_are_local": [
"Properties_Values",
[]
],
"cam_calibrator_bad_type": [
"Properties_CameraOptions",
[
"ClassicalDedekindReals.sig_forall_dec",
"FunctionalExtensionality.functional_extensionality_dep"
]
],
"cam_calibrator_config": [
"Properties_CameraOptions",
[
"ClassicalDedekindReals.sig_forall_dec",
"FunctionalExtensionality.functional_extensionality_dep"
]
],
"cam_default_options": [
"Properties_Tighten8",
[
"ClassicalDedekindReals.sig_forall_dec",
"FunctionalExtensionality.functional_extensionality_dep"
]
],
"cam_group_ids_refuted": [
"Properties_CameraOptions",
[
"ClassicalDedekindReals.sig_forall_dec",
"FunctionalExtensionality.functional_extensionality_dep"
]
],
"cam_huge_batch": [
"Properties_CameraOptions",
[]
],
"cam_negative_batch_refuted": [
"Properties_CameraOptions",
[
"ClassicalDedekindReals.sig_forall_dec",
"FunctionalExtensionality.functional_extensionality_dep"
]
],
"cam_option_default": [
"Properties_Tighten8",
[
"ClassicalDedekindReals.sig_forall_dec",
"FunctionalExtensionality.functional_extensionality_dep"
]
],
"cam_options_defaults": [
"Properties_Tighten",
[
"ClassicalDedekindReals.sig_forall_dec",
"FunctionalExtensionality.functional_extensionality_dep"
]
],
"cam_options_read": [
"Properties_CameraOptions",
[
"ClassicalDedekindReals.sig_forall_dec",
"FunctionalExtensionality.functional_extensionality_dep"
]
],
"cam_options_total": [
"Properties_CameraOptions",
[
"ClassicalDedekindReals.sig_forall_dec",
"FunctionalExtensionality.functional_extensionality_dep"
]
],
"cam_program_batches": [
"Properties_CameraDriver",
[]
],
"cam_program_empty": [
"Properties_CameraDriver",
[]
],
"cam_program_empty_batch_refuted": [
"Properties_CameraDriver",
[]
],
"cam_program_failure": [
"Properties_CameraDriver",
[]
],
"cam_program_last_failure": [
"Properties_CameraDriver",
[]
],
"cam_program_no_target_refuted": [
"Properties_CameraDriver",
[]
],
"cam_required_keys_refuted": [
"Properties_CameraOptions",
[
"ClassicalDedekindReals.sig_forall_dec",
"FunctionalExtensionality.functional_extensionality_dep"
]
],
"cam_saved_images_refuted": [
"Properties_CameraDriver",
[]
],
"cam_sigma_order": [
"Properties_CameraFile",
[
"ClassicalDedekindReals.sig_forall_dec",
"ClassicalDedekindReals.sig_not_dec",
"FunctionalExtensionality.functional_extensionality_dep"
]
],
"cam_sigma_order_refuted": [
"Properties_CameraFile",
[
"ClassicalDedekindReals.sig_forall_dec",
"ClassicalDedekindReals.sig_not_dec",
"FunctionalExtensionality.functional_extensionality_dep"
]
],
"cam_std_defined": [
"Properties_Tighten",
[
"ClassicalDedekindReals.sig_forall_dec",
"ClassicalDedekindReals.sig_not_dec",
"FunctionalExtensionality.functional_extensionality_dep"
]
],
"cam_type_refused": [
"Properties_CameraFile",
[]
],
"cam_type_roundtrip": [
"Properties_CameraFile",
[
"ClassicalDedekindReals.sig_forall_dec",
"ClassicalDedekindReals.sig_not_dec",
"FunctionalExtensionality.functional_extensionality_dep"
]
],
"cam_validator_agrees": [
"Properties_CameraOptions",
[
"ClassicalDedekindReals.sig_forall_dec",
"FunctionalExtensionality.functional_extensionality_dep"
]
],
"cam_write_no_batch_refuted": [
"Properties_CameraFile",
[
"ClassicalDedekindReals.sig_forall_dec",
"ClassicalDedekindReals.sig_not_dec",
"FunctionalExtensionality.functional_extensionality_dep"
]
],
"cam_write_values": [
"Properties_CameraFile",
[
"ClassicalDedekindReals.sig_forall_dec",
"ClassicalDedekindReals.sig_not_dec",
"FunctionalExtensionality.functional_extensionality_dep"
]
],
"camera_batches": [
"Properties_Camera",
[]
],
"camera_conservation": [
"Properties_Camera",
[]
],
"camera_initialisation_is_permanent": [
"Properties_Camera",
[]
],
"camera_observations_in_use": [
"Properties_Camera",
[]
],
"camera_refuses_uninitialised": [
"Properties_Camera",
[]
],
"camv_option_default": [
"Properties_Tighten8",
[
"ClassicalDedekindReals.sig_forall_dec",
"FunctionalExtensionality.functional_extensionality_dep"
]
],
"car_active_exactly": [
"Properties_Tighten8",
[]
],
"car_addToBatch_spec": [
"Properties_DesignVars",
[]
],
"car_cutoff_refuted": [
"Properties_Options",
[
"ClassicalDedekindReals.sig_forall_dec",
"FunctionalExtensionality.functional_extensionality_dep"
]
],
"car_deviations_content": [
"Properties_Deviations",
[]
],
"car_deviations_refuted": [
"Properties_Deviations",
[]
],
"car_dmi_terms": [
"Properties_Kinematics",
[
"ClassicalDedekindReals.sig_forall_dec",
"FunctionalExtensionality.functional_extensionality_dep"
]
],
"car_driver_reads_everything": [
"Properties_CarDriver",
[
"ClassicalDedekindReals.sig_forall_dec",
"ClassicalDedekindReals.sig_not_dec",
"FunctionalExtensionality.functional_extensionality_dep"
]
],
"car_files_are_calls": [
"Properties_CarFiles",
[
"ClassicalDedekindReals.sig_forall_dec",
"ClassicalDedekindReals.sig_not_dec",
"FunctionalExtensionality.functional_extensionality_dep"
]
],
"car_files_complete": [
"Properties_CarFiles",
[
"ClassicalDedekindReals.sig_forall_dec",
"ClassicalDedekindReals.sig_not_dec",
"FunctionalExtensionality.functional_extensionality_dep"
]
],
"car_files_times": [
"Properties_CarFiles",
[
"ClassicalDedekindReals.sig_forall_dec",
"ClassicalDedekindReals.sig_not_dec",
"FunctionalExtensionality.functional_extensionality_dep"
]
],
"car_files_times_refuted": [
"Properties_CarFiles",
[
"ClassicalDedekindReals.sig_forall_dec",
"ClassicalDedekindReals.sig_not_dec",
"FunctionalExtensionality.functional_extensionality_dep"
]
],
"car_first_pose_origin": [
"Properties_CarDriver",
[
"ClassicalDedekindReals.sig_forall_dec",
"ClassicalDedekindReals.sig_not_dec",
"FunctionalExtensionality.functional_extensionality_dep"
]
],
"car_flush_same_time_refuted": [
"Properties_Tighten10",
[
"ClassicalDedekindReals.sig_forall_dec",
"FunctionalExtensionality.functional_extensionality_dep"
]
],
"car_front_terms": [
"Properties_Kinematics",
[
"ClassicalDedekindReals.sig_forall_dec",
"FunctionalExtensionality.functional_extensionality_dep"
]
],
"car_group_dimension": [
"Properties_DesignVars",
[]
],
"car_mistyped_message_refuted": [
"Properties_CarDriver",
[
"ClassicalDedekindReals.sig_forall_dec",
"ClassicalDedekindReals.sig_not_dec",
"FunctionalExtensionality.functional_extensionality_dep"
]
],
"car_no_performance_refuted": [
"Properties_CarDriver",
[
"ClassicalDedekindReals.sig_forall_dec",
"ClassicalDedekindReals.sig_not_dec",
"FunctionalExtensionality.functional_extensionality_dep"
]
],
"car_odometer": [
"Properties_CarDriver",
[
"ClassicalDedekindReals.sig_forall_dec",
"ClassicalDedekindReals.sig_not_dec",
"FunctionalExtensionality.functional_extensionality_dep"
]
],
"car_odometer_distance": [
"Properties_CarDriver",
[
"ClassicalDedekindReals.sig_forall_dec",
"ClassicalDedekindReals.sig_not_dec",
"FunctionalExtensionality.functional_extensionality_dep"
]
],
"car_odometer_refuted": [
"Properties_CarDriver",
[
"ClassicalDedekindReals.sig_forall_dec",
"ClassicalDedekindReals.sig_not_dec",
"FunctionalExtensionality.functional_extensionality_dep"
]
],
"car_options_read": [
"Properties_Options",
[]
],
"car_parameters_content": [
"Properties_DesignVars",
[]
],
"car_parameters_refuted": [
"Properties_DesignVars",
[]
],
"car_pose_distances": [
"Properties_CarDriver",
[
"ClassicalDedekindReals.sig_forall_dec",
"ClassicalDedekindReals.sig_not_dec",
"FunctionalExtensionality.functional_extensionality_dep"
]
],
"car_pose_terms": [
"Properties_Kinematics",
[
"ClassicalDedekindReals.sig_forall_dec",
"FunctionalExtensionality.functional_extensionality_dep"
]
],
"car_position_variance_equal": [
"Properties_CarDriver",
[
"ClassicalDedekindReals.sig_forall_dec",
"ClassicalDedekindReals.sig_not_dec",
"FunctionalExtensionality.functional_extensionality_dep"
]
],
"car_position_variance_refuted": [
"Properties_CarDriver",
[
"ClassicalDedekindReals.sig_forall_dec",
"ClassicalDedekindReals.sig_not_dec",
"FunctionalExtensionality.functional_extensionality_dep"
]
],
"car_program_conservation": [
"Properties_CarDriver",
[
"ClassicalDedekindReals.sig_forall_dec",
"FunctionalExtensionality.functional_extensionality_dep"
]
],
"car_program_deviations_refuted": [
"Properties_Deviations",
[]
],
"car_program_end": [
"Properties_CarDriver",
[
"ClassicalDedekindReals.sig_forall_dec",
"FunctionalExtensionality.functional_extensionality_dep"
]
],
"car_rear_terms": [
"Properties_Kinematics",
[
"ClassicalDedekindReals.sig_forall_dec",
"FunctionalExtensionality.functional_extensionality_dep"
]
],
"car_rear_variance_agreeing": [
"Properties_Calibrator",
[]
],
"car_rear_variance_refuted": [
"Properties_Calibrator",
[]
],
"car_report_content": [
"Properties_Report",
[]
],
"car_report_refuted": [
"Properties_Report",
[]
],
"car_same_navigation_topic_refuted": [
"Properties_Tighten2",
[
"ClassicalDedekindReals.sig_forall_dec",
"ClassicalDedekindReals.sig_not_dec",
"FunctionalExtensionality.functional_extensionality_dep"
]
],
"car_same_topic_refuted": [
"Properties_CarDriver",
[
"ClassicalDedekindReals.sig_forall_dec",
"ClassicalDedekindReals.sig_not_dec",
"FunctionalExtensionality.functional_extensionality_dep"
]
],
"car_shared_topic_undefined": [
"Properties_Tighten2",
[
"ClassicalDedekindReals.sig_forall_dec",
"ClassicalDedekindReals.sig_not_dec",
"FunctionalExtensionality.functional_extensionality_dep"
]
],
"car_solution_topic_shared_refuted": [
"Properties_Tighten2",
[
"ClassicalDedekindReals.sig_forall_dec",
"ClassicalDedekindReals.sig_not_dec",
"FunctionalExtensionality.functional_extensionality_dep"
]
],
"car_solutions": [
"Properties_CarDriver",
[
"ClassicalDedekindReals.sig_forall_dec",
"ClassicalDedekindReals.sig_not_dec",
"FunctionalExtensionality.functional_extensionality_dep"
]
],
"car_steering_terms": [
"Properties_Kinematics",
[
"ClassicalDedekindReals.sig_forall_dec",
"FunctionalExtensionality.functional_extensionality_dep"
]
],
"car_terms_agree": [
"Properties_Kinematics",
[
"ClassicalDedekindReals.sig_forall_dec",
"FunctionalExtensionality.functional_extensionality_dep"
]
],
"car_terms_spec": [
"Properties_Calibrator",
[]
],
"car_text": [
"Properties_TextObjects",
[]
],
"car_variances": [
"Properties_Tighten2",
[
"ClassicalDedekindReals.sig_forall_dec",
"ClassicalDedekindReals.sig_not_dec",
"FunctionalExtensionality.functional_extensionality_dep"
]
],
"car_velocity_terms": [
"Properties_Kinematics",
[
"ClassicalDedekindReals.sig_forall_dec",
"FunctionalExtensionality.functional_extensionality_dep"
]
],
"car_velocity_variance_refuted": [
"Properties_CarDriver",
[
"ClassicalDedekindReals.sig_forall_dec",
"ClassicalDedekindReals.sig_not_dec",
"FunctionalExtensionality.functional_extensionality_dep"
]
],
"car_verbose_report_refuted": [
"Properties_Report",
[]
],
"car_wheels_and_steering": [
"Properties_CarDriver",
[
"ClassicalDedekindReals.sig_forall_dec",
"ClassicalDedekindReals.sig_not_dec",
"FunctionalExtensionality.functional_extensionality_dep"
]
],
"car_windows_nonempty": [
"Properties_Calibrator",
[
"ClassicalDedekindReals.sig_forall_dec",
"FunctionalExtensionality.functional_extensionality_dep"
]
],
"categorical_integral_refuted": [
"Properties_RandomizerTypes",
[
"ClassicalDedekindReals.sig_forall_dec",
"FunctionalExtensionality.functional_extensionality_dep"
]
],
"categorical_law": [
"Properties_SamplerLaw",
[
"ClassicalDedekindReals.sig_forall_dec",
"Classical_Prop.classic",
"FunctionalExtensionality.functional_extensionality_dep"
]
],
"categorical_positive": [
"Properties_Randomizer",
[
"ClassicalDedekindReals.sig_forall_dec",
"FunctionalExtensionality.functional_extensionality_dep"
]
],
"categorical_sample": [
"Properties_Randomizer",
[
"ClassicalDedekindReals.sig_forall_dec",
"FunctionalExtensionality.functional_extensionality_dep"
]
],
"categorical_zero_refuted": [
"Properties_Randomizer",
[
"ClassicalDedekindReals.sig_forall_dec",
"FunctionalExtensionality.functional_extensionality_dep"
]
],
"chi_square_degrees": [
"Properties_Gamma",
[
"ClassicalDedekindReals.sig_forall_dec",
"ClassicalDedekindReals.sig_not_dec",
"Classical_Prop.classic",
"FunctionalExtensionality.functional_extensionality_dep"
]
],
"chi_square_median": [
"Properties_Gamma",
[
"ClassicalDedekindReals.sig_forall_dec",
"ClassicalDedekindReals.sig_not_dec",
"Classical_Prop.classic",
"FunctionalExtensionality.functional_extensionality_dep"
]
],
"copies_are_equal": [
"Properties_Tighten11",
[
"ClassicalDedekindReals.sig_forall_dec"
]
],
"count_exists": [
"Properties_EgoSim",
[
"ClassicalDedekindReals.sig_forall_dec",
"FunctionalExtensionality.functional_extensionality_dep"
]
],
"distribution_text": [
"Properties_TextObjects",
[
"ClassicalDedekindReals.sig_forall_dec",
"ClassicalDedekindReals.sig_not_dec",
"Classical_Prop.classic",
"FunctionalExtensionality.functional_extensionality_dep"
]
],
"dmi_predictions": [
"Properties_Kinematics",
[
"ClassicalDedekindReals.sig_forall_dec",
"ClassicalDedekindReals.sig_not_dec",
"Classical_Prop.classic",
"FunctionalExtensionality.functional_extensionality_dep"
]
],
"double_constants": [
"Properties_Tighten4",
[
"ClassicalDedekindReals.sig_forall_dec",
"ClassicalDedekindReals.sig_not_dec",
"Classical_Prop.classic",
"FunctionalExtensionality.functional_extensionality_dep"
]
],
"ecef2enu_inverse": [
"Properties_Geodetic",
[
"ClassicalDedekindReals.sig_forall_dec",
"ClassicalDedekindReals.sig_not_dec",
"FunctionalExtensionality.functional_extensionality_dep"
]
],
"ecef2ned_inverse": [
"Properties_Geodetic",
[
"ClassicalDedekindReals.sig_forall_dec",
"ClassicalDedekindReals.sig_not_dec",
"FunctionalExtensionality.functional_extensionality_dep"
]
],
"ego_addToBatch_spec": [
"Properties_DesignVars",
[]
],
"ego_add_window": [
"Properties_EgoKin",
[
"ClassicalDedekindReals.sig_forall_dec",
"ClassicalDedekindReals.sig_not_dec",
"FunctionalExtensionality.functional_extensionality_dep"
]
],
"ego_calibrator_consistent": [
"Properties_EgoData",
[
"ClassicalDedekindReals.sig_forall_dec",
"FunctionalExtensionality.functional_extensionality_dep"
]
],
"ego_clear": [
"Properties_EgoKin",
[]
],
"ego_combined_jump": [
"Properties_EgoSim",
[
"ClassicalDedekindReals.sig_forall_dec",
"ClassicalDedekindReals.sig_not_dec",
"Classical_Prop.classic",
"FunctionalExtensionality.functional_extensionality_dep"
]
],
"ego_dead_reckoned_poses": [
"Properties_EgoKin",
[
"ClassicalDedekindReals.sig_forall_dec",
"FunctionalExtensionality.functional_extensionality_dep"
]
],
"ego_dead_reckoning": [
"Properties_EgoData",
[
"ClassicalDedekindReals.sig_forall_dec",
"FunctionalExtensionality.functional_extensionality_dep"
]
],
"ego_getSpline_outcome": [
"Properties_Deviations",
[]
],
"ego_getSpline_refuted": [
"Properties_Deviations",
[]
],
"ego_hand_eye": [
"Properties_EgoData",
[
"ClassicalDedekindReals.sig_forall_dec",
"FunctionalExtensionality.functional_extensionality_dep"
]
],
"ego_history_files": [
"Properties_HistoryFiles",
[
"ClassicalDedekindReals.sig_forall_dec",
"FunctionalExtensionality.functional_extensionality_dep"
]
],
"ego_measurements": [
"Properties_EgoData",
[
"ClassicalDedekindReals.sig_forall_dec",
"FunctionalExtensionality.functional_extensionality_dep"
]
],
"ego_missing_calibration": [
"Properties_EgoData",
[
"ClassicalDedekindReals.sig_forall_dec"
]
],
"ego_motion_terms": [
"Properties_EgoKin",
[
"ClassicalDedekindReals.sig_forall_dec",
"FunctionalExtensionality.functional_extensionality_dep"
]
],
"ego_new_last": [
"Properties_DesignVars",
[]
],
"ego_options_read": [
"Properties_Options",
[]
],
"ego_other_sensors": [
"Properties_EgoData",
[
"ClassicalDedekindReals.sig_forall_dec"
]
],
"ego_parameters": [
"Properties_DesignVars",
[]
],
"ego_predict_harmless": [
"Properties_EgoKin",
[
"ClassicalDedekindReals.sig_forall_dec",
"ClassicalDedekindReals.sig_not_dec",
"FunctionalExtensionality.functional_extensionality_dep"
]
],
"ego_predict_moves_refuted": [
"Properties_EgoKin",
[
"ClassicalDedekindReals.sig_forall_dec",
"ClassicalDedekindReals.sig_not_dec",
"FunctionalExtensionality.functional_extensionality_dep"
]
],
"ego_predict_returns": [
"Properties_EgoKin",
[
"ClassicalDedekindReals.sig_forall_dec",
"ClassicalDedekindReals.sig_not_dec",
"FunctionalExtensionality.functional_extensionality_dep"
]
],
"ego_predict_uncalibrated": [
"Properties_EgoKin",
[
"ClassicalDedekindReals.sig_forall_dec",
"ClassicalDedekindReals.sig_not_dec",
"FunctionalExtensionality.functional_extensionality_dep"
]
],
"ego_predictions": [
"Properties_EgoKin",
[
"ClassicalDedekindReals.sig_forall_dec"
]
],
"ego_rate_overflow": [
"Properties_Tighten3",
[
"ClassicalDedekindReals.sig_forall_dec",
"FunctionalExtensionality.functional_extensionality_dep"
]
],
"ego_reference_gap_reached": [
"Properties_Calibrator",
[
"ClassicalDedekindReals.sig_forall_dec",
"FunctionalExtensionality.functional_extensionality_dep"
]
],
"ego_reference_gap_refuted": [
"Properties_Calibrator",
[
"ClassicalDedekindReals.sig_forall_dec",
"FunctionalExtensionality.functional_extensionality_dep"
]
],
"ego_reference_pending_ok": [
"Properties_Calibrator",
[
"ClassicalDedekindReals.sig_forall_dec",
"FunctionalExtensionality.functional_extensionality_dep"
]
],
"ego_reference_terms_at_start": [
"Properties_EgoKin",
[
"ClassicalDedekindReals.sig_forall_dec",
"FunctionalExtensionality.functional_extensionality_dep"
]
],
"ego_report_complete_iff": [
"Properties_Report",
[]
],
"ego_segments": [
"Properties_Tighten3",
[
"ClassicalDedekindReals.sig_forall_dec",
"FunctionalExtensionality.functional_extensionality_dep"
]
],
"ego_sim_duplicate_refuted": [
"Properties_Options",
[
"ClassicalDedekindReals.sig_forall_dec"
]
],
"ego_sim_sensors": [
"Properties_Options",
[]
],
"ego_simulated_run": [
"Properties_SimRun",
[
"ClassicalDedekindReals.sig_forall_dec",
"FunctionalExtensionality.functional_extensionality_dep"
]
],
"ego_simulated_run_returns": [
"Properties_SimRun",
[
"ClassicalDedekindReals.sig_forall_dec",
"FunctionalExtensionality.functional_extensionality_dep"
]
],
"ego_simulator_conservation": [
"Properties_SimDriver",
[
"ClassicalDedekindReals.sig_forall_dec",
"FunctionalExtensionality.functional_extensionality_dep"
]
],
"ego_simulator_end_refuted": [
"Properties_SimDriver",
[
"ClassicalDedekindReals.sig_forall_dec",
"FunctionalExtensionality.functional_extensionality_dep"
]
],
"ego_simulator_returns": [
"Properties_SimDriver",
[
"ClassicalDedekindReals.sig_forall_dec",
"FunctionalExtensionality.functional_extensionality_dep"
]
],
"ego_straight": [
"Properties_EgoSim",
[
"ClassicalDedekindReals.sig_forall_dec",
"ClassicalDedekindReals.sig_not_dec",
"Classical_Prop.classic",
"FunctionalExtensionality.functional_extensionality_dep"
]
],
"ego_times_end": [
"Properties_EgoData",
[]
],
"ego_times_never_end": [
"Properties_EgoData",
[]
],
"ego_times_spec": [
"Properties_EgoData",
[]
],
"ego_trajectory_combined": [
"Properties_EgoSim",
[
"ClassicalDedekindReals.sig_forall_dec",
"ClassicalDedekindReals.sig_not_dec",
"Classical_Prop.classic",
"FunctionalExtensionality.functional_extensionality_dep"
]
],
"ego_trajectory_never_ends": [
"Properties_EgoSim",
[
"ClassicalDedekindReals.sig_forall_dec",
"ClassicalDedekindReals.sig_not_dec",
"Classical_Prop.classic",
"FunctionalExtensionality.functional_extensionality_dep"
]
],
"ego_trajectory_read": [
"Properties_Options",
[]
],
"ego_trajectory_single": [
"Properties_EgoSim",
[
"ClassicalDedekindReals.sig_forall_dec",
"ClassicalDedekindReals.sig_not_dec",
"Classical_Prop.classic",
"FunctionalExtensionality.functional_extensionality_dep"
]
],
"ego_trajectory_stamps": [
"Properties_EgoSim",
[
"ClassicalDedekindReals.sig_forall_dec",
"ClassicalDedekindReals.sig_not_dec",
"Classical_Prop.classic",
"FunctionalExtensionality.functional_extensionality_dep"
]
],
"ego_trajectory_total": [
"Properties_EgoKin",
[
"ClassicalDedekindReals.sig_forall_dec",
"ClassicalDedekindReals.sig_not_dec",
"FunctionalExtensionality.functional_extensionality_dep"
]
],
"ego_uncalibrated_reached": [
"Properties_EgoKin",
[
"ClassicalDedekindReals.sig_forall_dec",
"ClassicalDedekindReals.sig_not_dec",
"FunctionalExtensionality.functional_extensionality_dep"
]
],
"ego_uncalibrated_refuted": [
"Properties_EgoKin",
[
"ClassicalDedekindReals.sig_forall_dec",
"ClassicalDedekindReals.sig_not_dec",
"FunctionalExtensionality.functional_extensionality_dep"
]
],
"ego_verbose_report": [
"Properties_Report",
[]
],
"ego_window_closed": [
"Properties_EgoKin",
[
"ClassicalDedekindReals.sig_forall_dec",
"ClassicalDedekindReals.sig_not_dec",
"FunctionalExtensionality.functional_extensionality_dep"
]
],
"ego_windows_nonempty": [
"Properties_Calibrator",
[]
],
"enu_axes": [
"Properties_Geodetic",
[
"ClassicalDedekindReals.sig_forall_dec",
"ClassicalDedekindReals.sig_not_dec",
"FunctionalExtensionality.functional_extensionality_dep"
]
],
"est_double_accepts": [
"Properties_EstDouble",
[
"ClassicalDedekindReals.sig_forall_dec",
"ClassicalDedekindReals.sig_not_dec",
"Classical_Prop.classic",
"FunctionalExtensionality.functional_extensionality_dep"
]
],
"est_double_constant": [
"Properties_EstDouble",
[
"ClassicalDedekindReals.sig_forall_dec",
"ClassicalDedekindReals.sig_not_dec",
"Classical_Prop.classic",
"FunctionalExtensionality.functional_extensionality_dep"
]
],
"est_double_distinct_refuted": [
"Properties_EstDouble",
[
"ClassicalDedekindReals.sig_forall_dec",
"ClassicalDedekindReals.sig_not_dec",
"Classical_Prop.classic",
"FunctionalExtensionality.functional_extensionality_dep"
]
],
"est_double_equal_refuted": [
"Properties_EstDouble",
[
"ClassicalDedekindReals.sig_forall_dec",
"ClassicalDedekindReals.sig_not_dec",
"Classical_Prop.classic",
"FunctionalExtensionality.functional_extensionality_dep"
]
],
"est_double_order": [
"Properties_EstDouble",
[
"ClassicalDedekindReals.sig_forall_dec",
"ClassicalDedekindReals.sig_not_dec",
"Classical_Prop.classic",
"FunctionalExtensionality.functional_extensionality_dep"
]
],
"est_double_order_refuted": [
"Properties_EstDouble",
[
"ClassicalDedekindReals.sig_forall_dec",
"ClassicalDedekindReals.sig_not_dec",
"Classical_Prop.classic",
"FunctionalExtensionality.functional_extensionality_dep"
]
],
"est_double_poisoned_refuted": [
"Properties_EstDouble",
[
"ClassicalDedekindReals.sig_forall_dec",
"ClassicalDedekindReals.sig_not_dec",
"Classical_Prop.classic",
"FunctionalExtensionality.functional_extensionality_dep"
]
],
"est_double_sums": [
"Properties_EstDouble",
[
"ClassicalDedekindReals.sig_forall_dec",
"ClassicalDedekindReals.sig_not_dec",
"Classical_Prop.classic",
"FunctionalExtensionality.functional_extensionality_dep"
]
],
"est_double_valid_iff": [
"Properties_EstDouble",
[
"ClassicalDedekindReals.sig_forall_dec",
"ClassicalDedekindReals.sig_not_dec",
"Classical_Prop.classic",
"FunctionalExtensionality.functional_extensionality_dep"
]
],
"est_double_variance": [
"Properties_EstDouble",
[
"ClassicalDedekindReals.sig_forall_dec",
"ClassicalDedekindReals.sig_not_dec",
"Classical_Prop.classic",
"FunctionalExtensionality.functional_extensionality_dep"
]
],
"estimator_acceptance_rule": [
"Properties_Estimator",
[]
],
"estimator_add_batch_returns_iff": [
"Properties_Estimator",
[]
],
"estimator_before_first_estimate": [
"Properties_CoreExtra",
[]
],
"estimator_config_read": [
"Properties_Options",
[
"ClassicalDedekindReals.sig_forall_dec",
"FunctionalExtensionality.functional_extensionality_dep"
]
],
"estimator_contains_accepted_batches": [
"Properties_Estimator",
[]
],
"estimator_exception_is_fatal": [
"Properties_Camera",
[]
],
"estimator_failed_analysis_refuted": [
"Properties_Solver",
[]
],
"estimator_first_batch_is_accepted": [
"Properties_CoreExtra",
[]
],
"estimator_gains_telescope": [
"Properties_Estimator",
[
"ClassicalDedekindReals.sig_forall_dec",
"FunctionalExtensionality.functional_extensionality_dep"
]
],
"estimator_group_id_refuted": [
"Properties_Options",
[
"ClassicalDedekindReals.sig_forall_dec",
"FunctionalExtensionality.functional_extensionality_dep"
]
],
"estimator_layout_after_rejection": [
"Properties_Estimator",
[]
],
"estimator_marginal_block_is_trailing": [
"Properties_Estimator",
[]
],
"estimator_marginal_order": [
"Properties_Report",
[]
],
"estimator_missing_group": [
"Properties_Exact",
[]
],
"estimator_missing_group_for_ever": [
"Properties_Exact",
[]
],
"estimator_published_after_accept": [
"Properties_Estimator",
[]
],
"estimator_published_after_reoptimize": [
"Properties_Estimator",
[]
],
"estimator_rejected_batch_leaves_no_trace": [
"Properties_Estimator",
[]
],
"estimator_remove_batch": [
"Properties_Estimator",
[]
],
"estimator_reoptimize_outcome": [
"Properties_Estimator",
[]
],
"estimator_reoptimize_throw_refuted": [
"Properties_Estimator",
[]
],
"estimator_runs_are_logged": [
"Properties_Estimator",
[]
],
"estimator_text": [
"Properties_TextObjects",
[
"ClassicalDedekindReals.sig_forall_dec",
"ClassicalDedekindReals.sig_not_dec",
"Classical_Prop.classic",
"FunctionalExtensionality.functional_extensionality_dep"
]
],
"estimator_throwing_add_outcome": [
"Properties_Estimator",
[]
],
"estimator_throwing_add_refuted": [
"Properties_Estimator",
[]
],
"eval_term_errors": [
"Properties_Tighten6",
[
"ClassicalDedekindReals.sig_forall_dec",
"ClassicalDedekindReals.sig_not_dec",
"Classical_Prop.classic",
"FunctionalExtensionality.functional_extensionality_dep"
]
],
"eval_term_weighted": [
"Properties_Tighten6",
[
"ClassicalDedekindReals.sig_forall_dec",
"ClassicalDedekindReals.sig_not_dec",
"Classical_Prop.classic",
"FunctionalExtensionality.functional_extensionality_dep"
]
],
"exception_text": [
"Properties_Text",
[]
],
"exception_text_refuted": [
"Properties_Text",
[]
],
"exception_text_unambiguous": [
"Properties_Text",
[]
],
"exponential_integral_refuted": [
"Properties_RandomizerTypes",
[
"ClassicalDedekindReals.sig_forall_dec",
"ClassicalDedekindReals.sig_not_dec",
"Classical_Prop.classic",
"FunctionalExtensionality.functional_extensionality_dep"
]
],
"exponential_law": [
"Properties_SamplerLaw",
[
"ClassicalDedekindReals.sig_forall_dec",
"ClassicalDedekindReals.sig_not_dec",
"Classical_Prop.classic",
"FunctionalExtensionality.functional_extensionality_dep"
]
],
"exponential_sample": [
"Properties_Randomizer",
[
"ClassicalDedekindReals.sig_forall_dec",
"ClassicalDedekindReals.sig_not_dec",
"Classical_Prop.classic",
"FunctionalExtensionality.functional_extensionality_dep"
]
],
"first_frame": [
"Properties_Vision",
[
"ClassicalDedekindReals.sig_forall_dec",
"FunctionalExtensionality.functional_extensionality_dep"
]
],
"flush_outcome": [
"Properties_Tighten10",
[]
],
"frames_rigid": [
"Properties_Geodetic",
[
"ClassicalDedekindReals.sig_forall_dec",
"ClassicalDedekindReals.sig_not_dec",
"FunctionalExtensionality.functional_extensionality_dep"
]
],
"front_predictions": [
"Properties_Kinematics",
[
"ClassicalDedekindReals.sig_forall_dec",
"ClassicalDedekindReals.sig_not_dec",
"Classical_Prop.classic",
"FunctionalExtensionality.functional_extensionality_dep"
]
],
"full_batch_not_retried": [
"Properties_Camera",
[]
],
"function_objects": [
"Properties_FunctionObj",
[
"ClassicalDedekindReals.sig_forall_dec",
"ClassicalDedekindReals.sig_not_dec",
"Classical_Prop.classic",
"FunctionalExtensionality.functional_extensionality_dep"
]
],
"function_objects_total": [
"Properties_FunctionObj",
[
"ClassicalDedekindReals.sig_forall_dec",
"ClassicalDedekindReals.sig_not_dec",
"Classical_Prop.classic",
"FunctionalExtensionality.functional_extensionality_dep"
]
],
"gamma_KLDivergence_exactly": [
"Properties_GammaKL",
[
"ClassicalDedekindReals.sig_forall_dec",
"ClassicalDedekindReals.sig_not_dec",
"Classical_Prop.classic",
"FunctionalExtensionality.functional_extensionality_dep"
]
],
"gamma_KL_agreement": [
"Properties_Gamma",
[
"ClassicalDedekindReals.sig_forall_dec",
"ClassicalDedekindReals.sig_not_dec",
"Classical_Prop.classic",
"FunctionalExtensionality.functional_extensionality_dep"
]
],
"gamma_KL_integral": [
"Properties_GammaKL",
[
"ClassicalDedekindReals.sig_forall_dec",
"ClassicalDedekindReals.sig_not_dec",
"Classical_Prop.classic",
"FunctionalExtensionality.functional_extensionality_dep"
]
],
"gamma_KL_refuted": [
"Properties_Gamma",
[
"ClassicalDedekindReals.sig_forall_dec",
"ClassicalDedekindReals.sig_not_dec",
"Classical_Prop.classic",
"FunctionalExtensionality.functional_extensionality_dep"
]
],
"gamma_cdf_inverts": [
"Properties_Tighten4",
[
"ClassicalDedekindReals.sig_forall_dec",
"FunctionalExtensionality.functional_extensionality_dep"
]
],
"gamma_cdf_quantile": [
"Properties_Tighten4",
[
"ClassicalDedekindReals.sig_forall_dec",
"FunctionalExtensionality.functional_extensionality_dep"
]
],
"gamma_density_real": [
"Properties_Gamma",
[
"ClassicalDedekindReals.sig_forall_dec",
"ClassicalDedekindReals.sig_not_dec",
"Classical_Prop.classic",
"FunctionalExtensionality.functional_extensionality_dep"
]
],
"gamma_fraction_law": [
"Properties_GammaLaw",
[
"ClassicalDedekindReals.sig_forall_dec",
"ClassicalDedekindReals.sig_not_dec",
"Classical_Prop.classic",
"FunctionalExtensionality.functional_extensionality_dep"
]
],
"gamma_functions_complementary": [
"Properties_FunctionObj",
[
"ClassicalDedekindReals.sig_forall_dec",
"ClassicalDedekindReals.sig_not_dec",
"Classical_Prop.classic",
"FunctionalExtensionality.functional_extensionality_dep"
]
],
"gamma_integer_law": [
"Properties_SamplerLaw",
[
"ClassicalDedekindReals.sig_forall_dec",
"ClassicalDedekindReals.sig_not_dec",
"Classical_Prop.classic",
"FunctionalExtensionality.functional_extensionality_dep"
]
],
"gamma_integral_refuted": [
"Properties_RandomizerTypes",
[
"ClassicalDedekindReals.sig_forall_dec",
"ClassicalDedekindReals.sig_not_dec",
"Classical_Prop.classic",
"FunctionalExtensionality.functional_extensionality_dep"
]
],
"gamma_integral_shape": [
"Properties_Tighten4",
[
"ClassicalDedekindReals.sig_forall_dec",
"ClassicalDedekindReals.sig_not_dec",
"Classical_Prop.classic",
"FunctionalExtensionality.functional_extensionality_dep"
]
],
"gamma_mass_real": [
"Properties_Gamma",
[
"ClassicalDedekindReals.sig_forall_dec",
"ClassicalDedekindReals.sig_not_dec",
"Classical_Prop.classic",
"FunctionalExtensionality.functional_extensionality_dep"
]
],
"gamma_mode_real": [
"Properties_Gamma",
[
"ClassicalDedekindReals.sig_forall_dec",
"ClassicalDedekindReals.sig_not_dec",
"Classical_Prop.classic",
"FunctionalExtensionality.functional_extensionality_dep"
]
],
"gamma_moments_nat": [
"Properties_Gamma",
[
"ClassicalDedekindReals.sig_forall_dec",
"ClassicalDedekindReals.sig_not_dec",
"Classical_Prop.classic",
"FunctionalExtensionality.functional_extensionality_dep"
]
],
"gamma_parameters_nat": [
"Properties_Gamma",
[
"ClassicalDedekindReals.sig_forall_dec",
"ClassicalDedekindReals.sig_not_dec",
"Classical_Prop.classic",
"FunctionalExtensionality.functional_extensionality_dep"
]
],
"gamma_parameters_real": [
"Properties_Gamma",
[
"ClassicalDedekindReals.sig_forall_dec",
"ClassicalDedekindReals.sig_not_dec",
"Classical_Prop.classic",
"FunctionalExtensionality.functional_extensionality_dep"
]
],
"gamma_sample": [
"Properties_Randomizer",
[
"ClassicalDedekindReals.sig_forall_dec",
"ClassicalDedekindReals.sig_not_dec",
"Classical_Prop.classic",
"FunctionalExtensionality.functional_extensionality_dep"
]
],
"gamma_sample_fraction": [
"Properties_Tighten4",
[
"ClassicalDedekindReals.sig_forall_dec",
"ClassicalDedekindReals.sig_not_dec",
"Classical_Prop.classic",
"FunctionalExtensionality.functional_extensionality_dep"
]
],
"gamma_sample_scales": [
"Properties_Tighten4",
[
"ClassicalDedekindReals.sig_forall_dec",
"ClassicalDedekindReals.sig_not_dec",
"Classical_Prop.classic",
"FunctionalExtensionality.functional_extensionality_dep"
]
],
"gamma_shape_law": [
"Properties_GammaShapeLaw",
[
"ClassicalDedekindReals.sig_forall_dec",
"ClassicalDedekindReals.sig_not_dec",
"Classical_Prop.classic",
"FunctionalExtensionality.functional_extensionality_dep"
]
],
"geometric_double_range": [
"Properties_Tighten4",
[
"ClassicalDedekindReals.sig_forall_dec",
"ClassicalDedekindReals.sig_not_dec",
"Classical_Prop.classic",
"FunctionalExtensionality.functional_extensionality_dep"
]
],
"geometric_double_refuted": [
"Properties_Randomizer",
[
"ClassicalDedekindReals.sig_forall_dec",
"ClassicalDedekindReals.sig_not_dec",
"Classical_Prop.classic",
"FunctionalExtensionality.functional_extensionality_dep"
]
],
"geometric_integral_refuted": [
"Properties_RandomizerTypes",
[
"ClassicalDedekindReals.sig_forall_dec",
"ClassicalDedekindReals.sig_not_dec",
"Classical_Prop.classic",
"FunctionalExtensionality.functional_extensionality_dep"
]
],
"geometric_law": [
"Properties_SamplerLaw",
[
"ClassicalDedekindReals.sig_forall_dec",
"ClassicalDedekindReals.sig_not_dec",
"Classical_Prop.classic",
"FunctionalExtensionality.functional_extensionality_dep"
]
],
"geometric_sample": [
"Properties_Randomizer",
[
"ClassicalDedekindReals.sig_forall_dec",
"ClassicalDedekindReals.sig_not_dec",
"Classical_Prop.classic",
"FunctionalExtensionality.functional_extensionality_dep"
]
],
"getSpline_outcome": [
"Properties_Tighten6",
[]
],
"getTransformation_bounds": [
"Properties_Camera",
[]
],
"getTransformation_one_batch": [
"Properties_Camera",
[]
],
"getTransformation_refuted": [
"Properties_Camera",
[]
],
"get_samples": [
"Properties_Randomizer",
[]
],
"grid_arithmetics_covered": [
"Properties_Grid",
[
"ClassicalDedekindReals.sig_forall_dec",
"ClassicalDedekindReals.sig_not_dec",
"Classical_Prop.classic",
"FunctionalExtensionality.functional_extensionality_dep"
]
],
"grid_cells_one_to_one": [
"Properties_Grid",
[]
],
"grid_centre_round_trip_int": [
"Properties_Grid",
[]
],
"grid_centre_round_trip_int_refuted": [
"Properties_Grid",
[]
],
"grid_centre_round_trip_real": [
"Properties_Grid",
[
"ClassicalDedekindReals.sig_forall_dec",
"FunctionalExtensionality.functional_extensionality_dep"
]
],
"grid_centre_round_trip_refuted": [
"Properties_Grid",
[
"ClassicalDedekindReals.sig_forall_dec",
"FunctionalExtensionality.functional_extensionality_dep"
]
],
"grid_constructor_double_refuted": [
"Properties_Grid",
[
"ClassicalDedekindReals.sig_forall_dec",
"ClassicalDedekindReals.sig_not_dec",
"Classical_Prop.classic",
"FunctionalExtensionality.functional_extensionality_dep"
]
],
"grid_constructor_int": [
"Properties_Grid",
[]
],
"grid_constructor_real": [
"Properties_Grid",
[
"ClassicalDedekindReals.sig_forall_dec",
"FunctionalExtensionality.functional_extensionality_dep"
]
],
"grid_coordinates_domain": [
"Properties_Tighten3",
[]
],
"grid_counts_int": [
"Properties_Grid",
[]
],
"grid_counts_real": [
"Properties_Grid",
[
"ClassicalDedekindReals.sig_forall_dec",
"FunctionalExtensionality.functional_extensionality_dep"
]
],
"grid_double_centre": [
"Properties_Tighten",
[
"ClassicalDedekindReals.sig_forall_dec",
"ClassicalDedekindReals.sig_not_dec",
"Classical_Prop.classic",
"FunctionalExtensionality.functional_extensionality_dep"
]
],
"grid_index_rejected_iff": [
"Properties_Grid",
[]
],
"grid_iteration_complete": [
"Properties_Grid",
[]
],
"grid_negative_index": [
"Properties_Exact2",
[]
],
"grid_negative_index_refuted": [
"Properties_Grid",
[]
],
"grid_point_to_cell_double": [
"Properties_Grid",
[
"ClassicalDedekindReals.sig_forall_dec",
"ClassicalDedekindReals.sig_not_dec",
"Classical_Prop.classic",
"FunctionalExtensionality.functional_extensionality_dep"
]
],
"grid_point_to_cell_double_refuted": [
"Properties_Grid",
[
"ClassicalDedekindReals.sig_forall_dec",
"ClassicalDedekindReals.sig_not_dec",
"Classical_Prop.classic",
"FunctionalExtensionality.functional_extensionality_dep"
]
],
"grid_point_to_cell_int": [
"Properties_Grid",
[]
],
"grid_point_to_cell_real": [
"Properties_Grid",
[
"ClassicalDedekindReals.sig_forall_dec",
"FunctionalExtensionality.functional_extensionality_dep"
]
],
"grid_text": [
"Properties_Text",
[]
],
"histogram_add_double": [
"Properties_Histogram",
[
"ClassicalDedekindReals.sig_forall_dec",
"ClassicalDedekindReals.sig_not_dec",
"Classical_Prop.classic",
"FunctionalExtensionality.functional_extensionality_dep"
]
],
"histogram_count_unique": [
"Properties_Histogram",
[]
],
"histogram_counts_int": [
"Properties_Histogram",
[
"ClassicalDedekindReals.sig_forall_dec",
"FunctionalExtensionality.functional_extensionality_dep"
]
],
"histogram_counts_real": [
"Properties_Histogram",
[
"ClassicalDedekindReals.sig_forall_dec",
"FunctionalExtensionality.functional_extensionality_dep"
]
],
"histogram_in_range_sample_double_refuted": [
"Properties_Histogram",
[
"ClassicalDedekindReals.sig_forall_dec",
"ClassicalDedekindReals.sig_not_dec",
"Classical_Prop.classic",
"FunctionalExtensionality.functional_extensionality_dep"
]
],
"histogram_median_negative": [
"Properties_Tighten3",
[
"ClassicalDedekindReals.sig_forall_dec",
"FunctionalExtensionality.functional_extensionality_dep"
]
],
"histogram_normalized": [
"Properties_Histogram",
[
"ClassicalDedekindReals.sig_forall_dec",
"FunctionalExtensionality.functional_extensionality_dep"
]
],
"histogram_normalized_bins": [
"Properties_Tighten3",
[
"ClassicalDedekindReals.sig_forall_dec",
"FunctionalExtensionality.functional_extensionality_dep"
]
],
"histogram_statistics_int": [
"Properties_Histogram",
[
"ClassicalDedekindReals.sig_forall_dec",
"FunctionalExtensionality.functional_extensionality_dep"
]
],
"histogram_statistics_multi": [
"Properties_Histogram",
[
"ClassicalDedekindReals.sig_forall_dec",
"FunctionalExtensionality.functional_extensionality_dep"
]
],
"histogram_statistics_real": [
"Properties_Histogram",
[
"ClassicalDedekindReals.sig_forall_dec",
"FunctionalExtensionality.functional_extensionality_dep"
]
],
"history_files": [
"Properties_HistoryFiles",
[
"ClassicalDedekindReals.sig_forall_dec",
"FunctionalExtensionality.functional_extensionality_dep"
]
],
"history_files_failed_refuted": [
"Properties_HistoryFiles",
[
"ClassicalDedekindReals.sig_forall_dec",
"FunctionalExtensionality.functional_extensionality_dep"
]
],
"history_files_rejected_refuted": [
"Properties_HistoryFiles",
[
"ClassicalDedekindReals.sig_forall_dec",
"FunctionalExtensionality.functional_extensionality_dep"
]
],
"history_files_step": [
"Properties_HistoryFiles",
[
"ClassicalDedekindReals.sig_forall_dec",
"FunctionalExtensionality.functional_extensionality_dep"
]
],
"imu_velocity_body": [
"Properties_Kinematics",
[
"ClassicalDedekindReals.sig_forall_dec",
"FunctionalExtensionality.functional_extensionality_dep"
]
],
"inc_problem_access": [
"Properties_IncProblem",
[]
],
"inc_problem_add_effect": [
"Properties_IncProblem",
[]
],
"inc_problem_add_order": [
"Properties_Report",
[]
],
"inc_problem_add_succeeds_iff": [
"Properties_IncProblem",
[]
],
"inc_problem_add_then_remove": [
"Properties_IncProblem",
[]
],
"inc_problem_clean_removal": [
"Properties_IncProblem",
[]
],
"inc_problem_clear_backup_refuted": [
"Properties_IncProblem",
[]
],
"inc_problem_clear_empties": [
"Properties_IncProblem",
[]
],
"inc_problem_clear_keeps_backup": [
"Properties_Exact",
[]
],
"inc_problem_enumeration": [
"Properties_IncProblem",
[]
],
"inc_problem_error_terms_once": [
"Properties_IncProblem",
[]
],
"inc_problem_failed_add_keeps": [
"Properties_IncProblem",
[]
],
"inc_problem_failed_add_refuted": [
"Properties_IncProblem",
[]
],
"inc_problem_failed_add_state": [
"Properties_IncProblem",
[]
],
"inc_problem_group_dims": [
"Properties_IncProblem",
[]
],
"inc_problem_mutated_batch": [
"Properties_Exact",
[]
],
"inc_problem_mutated_batch_refuted": [
"Properties_IncProblem",
[]
],
"inc_problem_no_undefined_behaviour": [
"Properties_IncProblem",
[]
],
"inc_problem_permute": [
"Properties_CoreExtra",
[]
],
"inc_problem_reference_counts": [
"Properties_IncProblem",
[]
],
"inc_problem_refused_removal": [
"Properties_CoreExtra",
[]
],
"inc_problem_removal_commutes": [
"Properties_IncProblem",
[]
],
"inc_problem_removal_order_irrelevant": [
"Properties_IncProblem",
[]
],
"inc_problem_remove_pointer_sequence_refuted": [
"Properties_IncProblem",
[]
],
"inc_problem_save_restore": [
"Properties_IncProblem",
[]
],
"inc_problem_set_ordering": [
"Properties_IncProblem",
[]
],
"incomplete_frame": [
"Properties_Vision",
[]
],
"init_poses_consistent": [
"Properties_Kinematics",
[
"ClassicalDedekindReals.sig_forall_dec",
"ClassicalDedekindReals.sig_not_dec",
"FunctionalExtensionality.functional_extensionality_dep"
]
],
"integrate_no_rotation": [
"Properties_SimEngine",
[
"ClassicalDedekindReals.sig_forall_dec",
"ClassicalDedekindReals.sig_not_dec",
"FunctionalExtensionality.functional_extensionality_dep"
]
],
"integrate_planar": [
"Properties_SimEngine",
[
"ClassicalDedekindReals.sig_forall_dec",
"ClassicalDedekindReals.sig_not_dec",
"FunctionalExtensionality.functional_extensionality_dep"
]
],
"integrate_position": [
"Properties_SimEngine",
[
"ClassicalDedekindReals.sig_forall_dec"
]
],
"integrate_rotation": [
"Properties_SimEngine",
[
"ClassicalDedekindReals.sig_forall_dec",
"ClassicalDedekindReals.sig_not_dec",
"FunctionalExtensionality.functional_extensionality_dep"
]
],
"integrate_threshold": [
"Properties_Tighten7",
[
"ClassicalDedekindReals.sig_forall_dec",
"ClassicalDedekindReals.sig_not_dec",
"FunctionalExtensionality.functional_extensionality_dep"
]
],
"integrate_unit": [
"Properties_SimEngine",
[
"ClassicalDedekindReals.sig_forall_dec",
"ClassicalDedekindReals.sig_not_dec",
"FunctionalExtensionality.functional_extensionality_dep"
]
],
"keyframe_criterion": [
"Properties_Vision",
[
"ClassicalDedekindReals.sig_forall_dec",
"FunctionalExtensionality.functional_extensionality_dep"
]
],
"landmarks_first_sighting": [
"Properties_LrfSim",
[
"ClassicalDedekindReals.sig_forall_dec",
"ClassicalDedekindReals.sig_not_dec",
"FunctionalExtensionality.functional_extensionality_dep"
]
],
"landmarks_no_data": [
"Properties_LrfSim",
[]
],
"landmarks_reconstructed": [
"Properties_LrfSim",
[
"ClassicalDedekindReals.sig_forall_dec",
"ClassicalDedekindReals.sig_not_dec",
"Classical_Prop.classic",
"FunctionalExtensionality.functional_extensionality_dep"
]
],
"landmarks_undefined_refuted": [
"Properties_LrfSim",
[
"ClassicalDedekindReals.sig_forall_dec",
"ClassicalDedekindReals.sig_not_dec",
"FunctionalExtensionality.functional_extensionality_dep"
]
],
"last_image_average_refuted": [
"Properties_CameraValidator",
[
"ClassicalDedekindReals.sig_forall_dec",
"ClassicalDedekindReals.sig_not_dec",
"FunctionalExtensionality.functional_extensionality_dep"
]
],
"last_image_average_value": [
"Properties_CameraValidator",
[
"ClassicalDedekindReals.sig_forall_dec",
"ClassicalDedekindReals.sig_not_dec",
"FunctionalExtensionality.functional_extensionality_dep"
]
],
"log_factorial_correct": [
"Properties_Gamma",
[
"ClassicalDedekindReals.sig_forall_dec",
"ClassicalDedekindReals.sig_not_dec",
"Classical_Prop.classic",
"FunctionalExtensionality.functional_extensionality_dep"
]
],
"log_gamma_dim_correct": [
"Properties_Gamma",
[
"ClassicalDedekindReals.sig_forall_dec",
"ClassicalDedekindReals.sig_not_dec",
"Classical_Prop.classic",
"FunctionalExtensionality.functional_extensionality_dep"
]
],
"log_gamma_nat_correct": [
"Properties_Gamma",
[
"ClassicalDedekindReals.sig_forall_dec",
"ClassicalDedekindReals.sig_not_dec",
"Classical_Prop.classic",
"FunctionalExtensionality.functional_extensionality_dep"
]
],
"log_gamma_nat_recurrence": [
"Properties_Gamma",
[
"ClassicalDedekindReals.sig_forall_dec",
"ClassicalDedekindReals.sig_not_dec",
"Classical_Prop.classic",
"FunctionalExtensionality.functional_extensionality_dep"
]
],
"loggamma_for_logfactorial_refuted": [
"Properties_FunctionObj",
[
"ClassicalDedekindReals.sig_forall_dec"
]
],
"lowered_limit_never_processes": [
"Properties_Camera",
[]
],
"lrf_batch_contents": [
"Properties_LrfDriver",
[]
],
"lrf_partition": [
"Properties_LrfDriver",
[]
],
"lrf_program": [
"Properties_LrfDriver",
[]
],
"lrf_simulate_first": [
"Properties_Tighten7",
[
"ClassicalDedekindReals.sig_forall_dec",
"ClassicalDedekindReals.sig_not_dec",
"Classical_Prop.classic",
"FunctionalExtensionality.functional_extensionality_dep"
]
],
"lrf_starts_never_ends": [
"Properties_LrfDriver",
[]
],
"lrf_starts_values": [
"Properties_LrfDriver",
[]
],
"match_source_iff": [
"Properties_Vision",
[
"ClassicalDedekindReals.sig_forall_dec",
"FunctionalExtensionality.functional_extensionality_dep"
]
],
"match_source_refuted": [
"Properties_Vision",
[
"ClassicalDedekindReals.sig_forall_dec",
"FunctionalExtensionality.functional_extensionality_dep"
]
],
"match_target_ok": [
"Properties_Vision",
[
"ClassicalDedekindReals.sig_forall_dec",
"FunctionalExtensionality.functional_extensionality_dep"
]
],
"matrix_constructor": [
"Properties_Tighten11",
[
"ClassicalDedekindReals.sig_forall_dec",
"FunctionalExtensionality.functional_extensionality_dep"
]
],
"matrix_constructor_inverse_refuted": [
"Properties_Tighten11",
[
"ClassicalDedekindReals.sig_forall_dec",
"FunctionalExtensionality.functional_extensionality_dep"
]
],
"ml1_count_overflow_refuted": [
"Properties_Tighten4",
[
"ClassicalDedekindReals.sig_forall_dec",
"ClassicalDedekindReals.sig_not_dec",
"Classical_Prop.classic",
"FunctionalExtensionality.functional_extensionality_dep"
]
],
"ml1_double_empty_range_valid_refuted": [
"Properties_Normal",
[
"ClassicalDedekindReals.sig_forall_dec",
"ClassicalDedekindReals.sig_not_dec",
"Classical_Prop.classic",
"FunctionalExtensionality.functional_extensionality_dep"
]
],
"ml1_order_independent": [
"Properties_Normal",
[
"ClassicalDedekindReals.sig_forall_dec",
"ClassicalDedekindReals.sig_not_dec",
"Classical_Prop.classic",
"FunctionalExtensionality.functional_extensionality_dep"
]
],
"ml1_reset_forgets": [
"Properties_Normal",
[
"ClassicalDedekindReals.sig_forall_dec",
"ClassicalDedekindReals.sig_not_dec",
"Classical_Prop.classic",
"FunctionalExtensionality.functional_extensionality_dep"
]
],
"ml1_reset_keeps_distribution": [
"Properties_Normal",
[
"ClassicalDedekindReals.sig_forall_dec",
"ClassicalDedekindReals.sig_not_dec",
"Classical_Prop.classic",
"FunctionalExtensionality.functional_extensionality_dep"
]
],
"ml1_running_estimate": [
"Properties_Normal",
[
"ClassicalDedekindReals.sig_forall_dec",
"ClassicalDedekindReals.sig_not_dec",
"Classical_Prop.classic",
"FunctionalExtensionality.functional_extensionality_dep"
]
],
"ml1_weighted": [
"Properties_Normal",
[
"ClassicalDedekindReals.sig_forall_dec",
"ClassicalDedekindReals.sig_not_dec",
"Classical_Prop.classic",
"FunctionalExtensionality.functional_extensionality_dep"
]
],
"ml1_weighted_size_mismatch": [
"Properties_Normal",
[]
],
"mlM_covariance_symmetric": [
"Properties_NormalMv",
[]
],
"mlM_order_independent": [
"Properties_NormalMv",
[
"ClassicalDedekindReals.sig_forall_dec",
"ClassicalDedekindReals.sig_not_dec",
"Classical_Prop.classic",
"FunctionalExtensionality.functional_extensionality_dep"
]
],
"mlM_running_estimate": [
"Properties_NormalMv",
[
"ClassicalDedekindReals.sig_forall_dec",
"ClassicalDedekindReals.sig_not_dec",
"Classical_Prop.classic",
"FunctionalExtensionality.functional_extensionality_dep"
]
],
"mlM_weighted": [
"Properties_NormalMv",
[
"ClassicalDedekindReals.sig_forall_dec",
"ClassicalDedekindReals.sig_not_dec",
"Classical_Prop.classic",
"FunctionalExtensionality.functional_extensionality_dep"
]
],
"mlM_weighted_edge": [
"Properties_NormalMv",
[]
],
"motion_jacobians": [
"Properties_ErrorTerm",
[
"ClassicalDedekindReals.sig_forall_dec",
"ClassicalDedekindReals.sig_not_dec",
"FunctionalExtensionality.functional_extensionality_dep"
]
],
"motion_partial_derivatives": [
"Properties_ErrorTerm",
[
"ClassicalDedekindReals.sig_forall_dec",
"ClassicalDedekindReals.sig_not_dec",
"FunctionalExtensionality.functional_extensionality_dep"
]
],
"motion_terms": [
"Properties_Calibrator",
[]
],
"motion_terms_adjacent": [
"Properties_Calibrator",
[]
],
"motion_terms_refuted": [
"Properties_Calibrator",
[]
],
"motion_terms_unsorted_refuted": [
"Properties_Calibrator",
[]
],
"ned_axes": [
"Properties_Geodetic",
[
"ClassicalDedekindReals.sig_forall_dec",
"ClassicalDedekindReals.sig_not_dec",
"FunctionalExtensionality.functional_extensionality_dep"
]
],
"ned_enu": [
"Properties_Geodetic",
[
"ClassicalDedekindReals.sig_forall_dec",
"ClassicalDedekindReals.sig_not_dec",
"FunctionalExtensionality.functional_extensionality_dep"
]
],
"no_tracks_undefined": [
"Properties_Vision",
[
"ClassicalDedekindReals.sig_forall_dec",
"FunctionalExtensionality.functional_extensionality_dep"
]
],
"noiseless_odometry": [
"Properties_LrfSim",
[
"ClassicalDedekindReals.sig_forall_dec",
"ClassicalDedekindReals.sig_not_dec",
"Classical_Prop.classic",
"FunctionalExtensionality.functional_extensionality_dep"
]
],
"normal1_KL": [
"Properties_Normal",
[
"ClassicalDedekindReals.sig_forall_dec",
"ClassicalDedekindReals.sig_not_dec",
"Classical_Prop.classic",
"FunctionalExtensionality.functional_extensionality_dep"
]
],
"normal1_KL_integral": [
"Properties_NormalMoments",
[
"ClassicalDedekindReals.sig_forall_dec",
"ClassicalDedekindReals.sig_not_dec",
"Classical_Prop.classic",
"FunctionalExtensionality.functional_extensionality_dep"
]
],
"normal1_cached_consistent": [
"Properties_Normal",
[
"ClassicalDedekindReals.sig_forall_dec",
"ClassicalDedekindReals.sig_not_dec",
"Classical_Prop.classic",
"FunctionalExtensionality.functional_extensionality_dep"
]
],
"normal1_cdf": [
"Properties_Normal",
[
"ClassicalDedekindReals.sig_forall_dec",
"ClassicalDedekindReals.sig_not_dec",
"Classical_Prop.classic",
"FunctionalExtensionality.functional_extensionality_dep"
]
],
"normal1_density": [
"Properties_Normal",
[
"ClassicalDedekindReals.sig_forall_dec",
"ClassicalDedekindReals.sig_not_dec",
"Classical_Prop.classic",
"FunctionalExtensionality.functional_extensionality_dep"
]
],
"normal1_double_nan_variance_refuted": [
"Properties_Normal",
[
"ClassicalDedekindReals.sig_forall_dec",
"ClassicalDedekindReals.sig_not_dec",
"Classical_Prop.classic",
"FunctionalExtensionality.functional_extensionality_dep"
]
],
"normal1_double_variance": [
"Properties_Normal",
[
"ClassicalDedekindReals.sig_forall_dec",
"ClassicalDedekindReals.sig_not_dec",
"Classical_Prop.classic",
"FunctionalExtensionality.functional_extensionality_dep"
]
],
"normal1_mahalanobis": [
"Properties_Normal",
[
"ClassicalDedekindReals.sig_forall_dec",
"ClassicalDedekindReals.sig_not_dec",
"Classical_Prop.classic",
"FunctionalExtensionality.functional_extensionality_dep"
]
],
"normal1_moments": [
"Properties_NormalMoments",
[
"ClassicalDedekindReals.sig_forall_dec",
"ClassicalDedekindReals.sig_not_dec",
"Classical_Prop.classic",
"FunctionalExtensionality.functional_extensionality_dep"
]
],
"normal1_program": [
"Properties_Tighten12",
[
"ClassicalDedekindReals.sig_forall_dec",
"ClassicalDedekindReals.sig_not_dec",
"Classical_Prop.classic",
"FunctionalExtensionality.functional_extensionality_dep"
]
],
"normal1_program_throws": [
"Properties_Tighten12",
[
"ClassicalDedekindReals.sig_forall_dec",
"ClassicalDedekindReals.sig_not_dec",
"Classical_Prop.classic",
"FunctionalExtensionality.functional_extensionality_dep"
]
],
"normal1_setters": [
"Properties_Normal",
[
"ClassicalDedekindReals.sig_forall_dec",
"ClassicalDedekindReals.sig_not_dec",
"Classical_Prop.classic",
"FunctionalExtensionality.functional_extensionality_dep"
]
],
"normalM_KL": [
"Properties_NormalMv2",
[
"ClassicalDedekindReals.sig_forall_dec",
"ClassicalDedekindReals.sig_not_dec",
"Classical_Prop.classic",
"FunctionalExtensionality.functional_extensionality_dep"
]
],
"normalM_accepted_covariance": [
"Properties_NormalMv",
[
"ClassicalDedekindReals.sig_forall_dec",
"ClassicalDedekindReals.sig_not_dec",
"Classical_Prop.classic",
"FunctionalExtensionality.functional_extensionality_dep"
]
],
"normalM_density": [
"Properties_NormalMv2",
[
"ClassicalDedekindReals.sig_forall_dec",
"ClassicalDedekindReals.sig_not_dec",
"Classical_Prop.classic",
"FunctionalExtensionality.functional_extensionality_dep"
]
],
"normalM_estimator_states": [
"Properties_NormalMv2",
[
"ClassicalDedekindReals.sig_forall_dec",
"ClassicalDedekindReals.sig_not_dec",
"Classical_Prop.classic",
"FunctionalExtensionality.functional_extensionality_dep"
]
],
"normalM_factor_consistent": [
"Properties_NormalMv",
[
"ClassicalDedekindReals.sig_forall_dec",
"ClassicalDedekindReals.sig_not_dec",
"Classical_Prop.classic",
"FunctionalExtensionality.functional_extensionality_dep"
]
],
"normalM_mahalanobis": [
"Properties_NormalMv2",
[
"ClassicalDedekindReals.sig_forall_dec",
"ClassicalDedekindReals.sig_not_dec",
"Classical_Prop.classic",
"FunctionalExtensionality.functional_extensionality_dep"
]
],
"normalM_rejected_covariance": [
"Properties_NormalMv",
[
"ClassicalDedekindReals.sig_forall_dec",
"ClassicalDedekindReals.sig_not_dec",
"Classical_Prop.classic",
"FunctionalExtensionality.functional_extensionality_dep"
]
],
"normalM_rejected_covariance_refuted": [
"Properties_NormalMv",
[
"ClassicalDedekindReals.sig_forall_dec",
"ClassicalDedekindReals.sig_not_dec",
"Classical_Prop.classic",
"FunctionalExtensionality.functional_extensionality_dep"
]
],
"normal_law": [
"Properties_NormalLaw",
[
"ClassicalDedekindReals.sig_forall_dec",
"ClassicalDedekindReals.sig_not_dec",
"Classical_Prop.classic",
"FunctionalExtensionality.functional_extensionality_dep"
]
],
"normal_sample_int_refuted": [
"Properties_Randomizer",
[
"ClassicalDedekindReals.sig_forall_dec",
"ClassicalDedekindReals.sig_not_dec",
"Classical_Prop.classic",
"FunctionalExtensionality.functional_extensionality_dep"
]
],
"normal_sample_real": [
"Properties_Randomizer",
[
"ClassicalDedekindReals.sig_forall_dec",
"ClassicalDedekindReals.sig_not_dec",
"Classical_Prop.classic",
"FunctionalExtensionality.functional_extensionality_dep"
]
],
"normal_sample_terminates": [
"Properties_Randomizer",
[
"ClassicalDedekindReals.sig_forall_dec",
"ClassicalDedekindReals.sig_not_dec",
"Classical_Prop.classic",
"FunctionalExtensionality.functional_extensionality_dep"
]
],
"normal_termination_law": [
"Properties_NormalLaw",
[
"ClassicalDedekindReals.sig_forall_dec",
"ClassicalDedekindReals.sig_not_dec",
"Classical_Prop.classic",
"FunctionalExtensionality.functional_extensionality_dep"
]
],
"normal_termination_limit": [
"Properties_NormalLaw",
[
"ClassicalDedekindReals.sig_forall_dec",
"ClassicalDedekindReals.sig_not_dec",
"FunctionalExtensionality.functional_extensionality_dep"
]
],
"object_text_unambiguous": [
"Properties_Text",
[]
],
"objects_are_values": [
"Properties_Values",
[]
],
"observation_jacobians": [
"Properties_ErrorTerm",
[
"ClassicalDedekindReals.sig_forall_dec",
"ClassicalDedekindReals.sig_not_dec",
"Classical_Prop.classic",
"FunctionalExtensionality.functional_extensionality_dep"
]
],
"one_overload": [
"Properties_Templates",
[]
],
"online_determinant_decreases": [
"Properties_LrfDriver",
[
"ClassicalDedekindReals.sig_forall_dec",
"ClassicalDedekindReals.sig_not_dec",
"Classical_Prop.classic",
"FunctionalExtensionality.functional_extensionality_dep"
]
],
"online_keeps_informative": [
"Properties_LrfDriver",
[
"ClassicalDedekindReals.sig_forall_dec",
"ClassicalDedekindReals.sig_not_dec",
"Classical_Prop.classic",
"FunctionalExtensionality.functional_extensionality_dep"
]
],
"online_never_ends": [
"Properties_LrfDriver",
[
"ClassicalDedekindReals.sig_forall_dec",
"ClassicalDedekindReals.sig_not_dec",
"Classical_Prop.classic",
"FunctionalExtensionality.functional_extensionality_dep"
]
],
"online_overrun": [
"Properties_LrfDriver",
[
"ClassicalDedekindReals.sig_forall_dec",
"ClassicalDedekindReals.sig_not_dec",
"Classical_Prop.classic",
"FunctionalExtensionality.functional_extensionality_dep"
]
],
"online_run_no_data": [
"Properties_Tighten7",
[
"ClassicalDedekindReals.sig_forall_dec",
"ClassicalDedekindReals.sig_not_dec",
"Classical_Prop.classic",
"FunctionalExtensionality.functional_extensionality_dep"
]
],
"opt_problem_absent": [
"Properties_OptProblem",
[]
],
"opt_problem_add_error_term": [
"Properties_OptProblem",
[]
],
"opt_problem_add_variable": [
"Properties_OptProblem",
[]
],
"opt_problem_clear_forgets_backup": [
"Properties_IncProblem",
[]
],
"opt_problem_enumeration": [
"Properties_OptProblem",
[]
],
"opt_problem_error_terms": [
"Properties_OptProblem",
[]
],
"opt_problem_get_errors": [
"Properties_OptProblem",
[]
],
"opt_problem_group_dims": [
"Properties_OptProblem",
[]
],
"opt_problem_group_is_kept": [
"Properties_OptProblem",
[]
],
"opt_problem_permute_error_terms": [
"Properties_OptProblem",
[]
],
"opt_problem_permute_variables": [
"Properties_OptProblem",
[]
],
"opt_problem_save_restore": [
"Properties_OptProblem",
[]
],
"opt_problem_set_ordering": [
"Properties_OptProblem",
[]
],
"options_total": [
"Properties_Options",
[]
],
"outliers_count": [
"Properties_CameraValidator",
[
"ClassicalDedekindReals.sig_forall_dec",
"FunctionalExtensionality.functional_extensionality_dep"
]
],
"permute_applies_permutation": [
"Properties_Permute",
[]
],
"permute_outcome": [
"Properties_Permute",
[]
],
"permute_preserves_elements": [
"Properties_Permute",
[]
],
"permute_rejects_bad_indices": [
"Properties_Permute",
[]
],
"permute_terminates_on_distinct": [
"Properties_Permute",
[]
],
"permute_termination_refuted": [
"Properties_Permute",
[]
],
"point_velocity_body": [
"Properties_Kinematics",
[
"ClassicalDedekindReals.sig_forall_dec",
"FunctionalExtensionality.functional_extensionality_dep"
]
],
"poisson_double": [
"Properties_RandomizerTypes",
[
"ClassicalDedekindReals.sig_forall_dec",
"ClassicalDedekindReals.sig_not_dec",
"Classical_Prop.classic",
"FunctionalExtensionality.functional_extensionality_dep"
]
],
"poisson_double_large_mean_refuted": [
"Properties_RandomizerTypes",
[
"ClassicalDedekindReals.sig_forall_dec",
"ClassicalDedekindReals.sig_not_dec",
"Classical_Prop.classic",
"FunctionalExtensionality.functional_extensionality_dep"
]
],
"poisson_integral": [
"Properties_RandomizerTypes",
[
"ClassicalDedekindReals.sig_forall_dec",
"ClassicalDedekindReals.sig_not_dec",
"Classical_Prop.classic",
"FunctionalExtensionality.functional_extensionality_dep"
]
],
"poisson_integral_mean_refuted": [
"Properties_RandomizerTypes",
[
"ClassicalDedekindReals.sig_forall_dec",
"ClassicalDedekindReals.sig_not_dec",
"Classical_Prop.classic",
"FunctionalExtensionality.functional_extensionality_dep"
]
],
"poisson_law": [
"Properties_SamplerLaw",
[
"ClassicalDedekindReals.sig_forall_dec",
"ClassicalDedekindReals.sig_not_dec",
"Classical_Prop.classic",
"FunctionalExtensionality.functional_extensionality_dep"
]
],
"poisson_sample": [
"Properties_Randomizer",
[
"ClassicalDedekindReals.sig_forall_dec",
"ClassicalDedekindReals.sig_not_dec",
"Classical_Prop.classic",
"FunctionalExtensionality.functional_extensionality_dep"
]
],
"poisson_sample_unique": [
"Properties_Randomizer",
[
"ClassicalDedekindReals.sig_forall_dec",
"ClassicalDedekindReals.sig_not_dec",
"Classical_Prop.classic",
"FunctionalExtensionality.functional_extensionality_dep"
]
],
"pose_error_at_start": [
"Properties_Kinematics",
[
"ClassicalDedekindReals.sig_forall_dec",
"ClassicalDedekindReals.sig_not_dec",
"Classical_Prop.classic",
"FunctionalExtensionality.functional_extensionality_dep"
]
],
"pose_error_gimbal_refuted": [
"Properties_Kinematics",
[
"ClassicalDedekindReals.sig_forall_dec",
"ClassicalDedekindReals.sig_not_dec",
"Classical_Prop.classic",
"FunctionalExtensionality.functional_extensionality_dep"
]
],
"pose_jacobian_derivative": [
"Properties_PoseJacobian",
[
"ClassicalDedekindReals.sig_forall_dec",
"ClassicalDedekindReals.sig_not_dec",
"Classical_Prop.classic",
"FunctionalExtensionality.functional_extensionality_dep"
]
],
"pose_jacobian_gimbal_refuted": [
"Properties_PoseJacobian",
[
"ClassicalDedekindReals.sig_forall_dec",
"ClassicalDedekindReals.sig_not_dec",
"FunctionalExtensionality.functional_extensionality_dep"
]
],
"pose_predictions": [
"Properties_Kinematics",
[
"ClassicalDedekindReals.sig_forall_dec",
"ClassicalDedekindReals.sig_not_dec",
"Classical_Prop.classic",
"FunctionalExtensionality.functional_extensionality_dep"
]
],
"predict_accumulates": [
"Properties_Kinematics",
[
"ClassicalDedekindReals.sig_forall_dec",
"ClassicalDedekindReals.sig_not_dec",
"Classical_Prop.classic",
"FunctionalExtensionality.functional_extensionality_dep"
]
],
"predict_few_poses_refuted": [
"Properties_Kinematics",
[
"ClassicalDedekindReals.sig_forall_dec",
"ClassicalDedekindReals.sig_not_dec",
"Classical_Prop.classic",
"FunctionalExtensionality.functional_extensionality_dep"
]
],
"predict_reports_batch_errors": [
"Properties_Kinematics",
[
"ClassicalDedekindReals.sig_forall_dec",
"ClassicalDedekindReals.sig_not_dec",
"Classical_Prop.classic",
"FunctionalExtensionality.functional_extensionality_dep"
]
],
"predict_spline_request": [
"Properties_Tighten12",
[
"ClassicalDedekindReals.sig_forall_dec",
"ClassicalDedekindReals.sig_not_dec",
"Classical_Prop.classic",
"FunctionalExtensionality.functional_extensionality_dep"
]
],
"process_before_images": [
"Properties_Camera",
[]
],
"process_twice_gives_empty_batch": [
"Properties_Camera",
[]
],
"python_batch_dangles_refuted": [
"Properties_Python",
[]
],
"python_growing_safe": [
"Properties_Python",
[]
],
"python_no_dangling_owner": [
"Properties_Python",
[]
],
"python_no_references_safe": [
"Properties_Python",
[]
],
"python_no_removal_safe": [
"Properties_Python",
[]
],
"python_problem_kept": [
"Properties_Python",
[]
],
"python_reference_after_remove_refuted": [
"Properties_Python",
[]
],
"python_rejected_again_dangles_refuted": [
"Properties_Python",
[]
],
"python_rejected_batch_growing": [
"Properties_Python",
[]
],
"randomizer_generator": [
"Properties_Tighten11",
[]
],
"randomizer_seed_refuted": [
"Properties_TextObjects",
[]
],
"randomizer_text": [
"Properties_TextObjects",
[]
],
"rear_predictions": [
"Properties_Kinematics",
[
"ClassicalDedekindReals.sig_forall_dec",
"ClassicalDedekindReals.sig_not_dec",
"Classical_Prop.classic",
"FunctionalExtensionality.functional_extensionality_dep"
]
],
"reference_is_origin": [
"Properties_Geodetic",
[
"ClassicalDedekindReals.sig_forall_dec",
"ClassicalDedekindReals.sig_not_dec",
"FunctionalExtensionality.functional_extensionality_dep"
]
],
"report_unambiguous": [
"Properties_TextObjects",
[]
],
"rotPoses_continuous": [
"Properties_Geodetic",
[
"ClassicalDedekindReals.sig_forall_dec",
"ClassicalDedekindReals.sig_not_dec",
"FunctionalExtensionality.functional_extensionality_dep"
]
],
"s_matrix_defining": [
"Properties_PoseJacobian",
[
"ClassicalDedekindReals.sig_forall_dec",
"ClassicalDedekindReals.sig_not_dec",
"FunctionalExtensionality.functional_extensionality_dep"
]
],
"s_matrix_unique": [
"Properties_PoseJacobian",
[
"ClassicalDedekindReals.sig_forall_dec",
"ClassicalDedekindReals.sig_not_dec",
"FunctionalExtensionality.functional_extensionality_dep"
]
],
"same_biography": [
"Properties_Values",
[]
],
"samples_times": [
"Properties_SimDriver",
[]
],
"seed_refuted": [
"Properties_Randomizer",
[]
],
"seed_reproducible": [
"Properties_Randomizer",
[]
],
"set_covariance_no_effect": [
"Properties_ErrorTerm",
[
"ClassicalDedekindReals.sig_forall_dec"
]
],
"set_matrix_inverse3_refuted": [
"Properties_Geometry",
[
"ClassicalDedekindReals.sig_forall_dec",
"ClassicalDedekindReals.sig_not_dec",
"FunctionalExtensionality.functional_extensionality_dep"
]
],
"set_matrix_inverse_refuted": [
"Properties_Geometry",
[
"ClassicalDedekindReals.sig_forall_dec",
"ClassicalDedekindReals.sig_not_dec",
"FunctionalExtensionality.functional_extensionality_dep"
]
],
"set_matrix_inverse_wrong_refuted": [
"Properties_Geometry",
[
"ClassicalDedekindReals.sig_forall_dec",
"ClassicalDedekindReals.sig_not_dec",
"FunctionalExtensionality.functional_extensionality_dep"
]
],
"set_matrix_transform": [
"Properties_Geometry",
[
"ClassicalDedekindReals.sig_forall_dec",
"FunctionalExtensionality.functional_extensionality_dep"
]
],
"simulated_motion_error": [
"Properties_LrfSim",
[
"ClassicalDedekindReals.sig_forall_dec",
"ClassicalDedekindReals.sig_not_dec",
"Classical_Prop.classic",
"FunctionalExtensionality.functional_extensionality_dep"
]
],
"simulated_motion_error_refuted": [
"Properties_LrfSim",
[
"ClassicalDedekindReals.sig_forall_dec",
"ClassicalDedekindReals.sig_not_dec",
"Classical_Prop.classic",
"FunctionalExtensionality.functional_extensionality_dep"
]
],
"simulated_observation_error": [
"Properties_LrfSim",
[
"ClassicalDedekindReals.sig_forall_dec",
"ClassicalDedekindReals.sig_not_dec",
"Classical_Prop.classic",
"FunctionalExtensionality.functional_extensionality_dep"
]
],
"simulated_poses": [
"Properties_LrfSim",
[
"ClassicalDedekindReals.sig_forall_dec",
"ClassicalDedekindReals.sig_not_dec",
"Classical_Prop.classic",
"FunctionalExtensionality.functional_extensionality_dep"
]
],
"simulation_lengths": [
"Properties_LrfSim",
[
"ClassicalDedekindReals.sig_forall_dec",
"ClassicalDedekindReals.sig_not_dec",
"Classical_Prop.classic",
"FunctionalExtensionality.functional_extensionality_dep"
]
],
"sine_path_heading": [
"Properties_LrfSim",
[
"ClassicalDedekindReals.sig_forall_dec",
"ClassicalDedekindReals.sig_not_dec",
"Classical_Prop.classic",
"FunctionalExtensionality.functional_extensionality_dep"
]
],
"sine_path_length": [
"Properties_LrfSim",
[
"ClassicalDedekindReals.sig_forall_dec",
"ClassicalDedekindReals.sig_not_dec",
"Classical_Prop.classic",
"FunctionalExtensionality.functional_extensionality_dep"
]
],
"sine_path_no_time": [
"Properties_LrfSim",
[
"ClassicalDedekindReals.sig_forall_dec",
"ClassicalDedekindReals.sig_not_dec",
"Classical_Prop.classic",
"FunctionalExtensionality.functional_extensionality_dep"
]
],
"sine_path_speed": [
"Properties_LrfSim",
[
"ClassicalDedekindReals.sig_forall_dec",
"ClassicalDedekindReals.sig_not_dec",
"Classical_Prop.classic",
"FunctionalExtensionality.functional_extensionality_dep"
]
],
"sine_simulation": [
"Properties_LrfSim",
[
"ClassicalDedekindReals.sig_forall_dec",
"ClassicalDedekindReals.sig_not_dec",
"Classical_Prop.classic",
"FunctionalExtensionality.functional_extensionality_dep"
]
],
"singleton_at_most_one": [
"Properties_Singleton",
[]
],
"singleton_destroyed": [
"Properties_Singleton",
[]
],
"singleton_first_construction": [
"Properties_Singleton",
[]
],
"singleton_getInstance": [
"Properties_Singleton",
[]
],
"singleton_same_until_destroyed": [
"Properties_Singleton",
[]
],
"singleton_second_construction_refused": [
"Properties_Singleton",
[]
],
"singleton_single_thread": [
"Properties_Singleton",
[]
],
"singleton_threads_after_first": [
"Properties_Singleton",
[]
],
"singleton_threads_never_null": [
"Properties_Singleton",
[]
],
"singleton_threads_throw_refuted": [
"Properties_Singleton",
[]
],
"singleton_threads_two_objects_refuted": [
"Properties_Singleton",
[]
],
"sp_clear_outcome": [
"Properties_Tighten6",
[]
],
"spline_active_added": [
"Properties_Tighten6",
[]
],
"spline_clear_exactly": [
"Properties_Exact2",
[]
],
"spline_clear_refuted": [
"Properties_DesignVars",
[]
],
"spline_fit_request": [
"Properties_Tighten12",
[
"ClassicalDedekindReals.sig_forall_dec",
"ClassicalDedekindReals.sig_not_dec",
"FunctionalExtensionality.functional_extensionality_dep"
]
],
"spline_listed_without_clear": [
"Properties_DesignVars",
[]
],
"spline_order_default_refuted": [
"Properties_Options",
[
"ClassicalDedekindReals.sig_forall_dec",
"FunctionalExtensionality.functional_extensionality_dep"
]
],
"spline_owner_refuted": [
"Properties_DesignVars",
[]
],
"spline_owner_without_rejection": [
"Properties_DesignVars",
[]
],
"spline_segments": [
"Properties_Calibrator",
[
"ClassicalDedekindReals.sig_forall_dec",
"FunctionalExtensionality.functional_extensionality_dep"
]
],
"spline_segments_defined": [
"Properties_SimRun",
[
"ClassicalDedekindReals.sig_forall_dec",
"FunctionalExtensionality.functional_extensionality_dep"
]
],
"spline_segments_exact": [
"Properties_Tighten",
[
"ClassicalDedekindReals.sig_forall_dec",
"FunctionalExtensionality.functional_extensionality_dep"
]
],
"spline_segments_refuted": [
"Properties_Calibrator",
[
"ClassicalDedekindReals.sig_forall_dec",
"FunctionalExtensionality.functional_extensionality_dep"
]
],
"statistics_maximum": [
"Properties_CameraValidator",
[
"ClassicalDedekindReals.sig_forall_dec",
"FunctionalExtensionality.functional_extensionality_dep"
]
],
"steering_derivative": [
"Properties_ErrorTerm",
[
"ClassicalDedekindReals.sig_forall_dec",
"ClassicalDedekindReals.sig_not_dec",
"Classical_Prop.classic",
"FunctionalExtensionality.functional_extensionality_dep"
]
],
"steering_jacobians": [
"Properties_ErrorTerm",
[
"ClassicalDedekindReals.sig_forall_dec",
"ClassicalDedekindReals.sig_not_dec",
"Classical_Prop.classic",
"FunctionalExtensionality.functional_extensionality_dep"
]
],
"steering_predictions": [
"Properties_Kinematics",
[
"ClassicalDedekindReals.sig_forall_dec",
"ClassicalDedekindReals.sig_not_dec",
"Classical_Prop.classic",
"FunctionalExtensionality.functional_extensionality_dep"
]
],
"stream_round_trip_refuted": [
"Properties_Text",
[]
],
"stream_text": [
"Properties_Text",
[]
],
"sum_log_diag": [
"Properties_MatrixOps",
[
"ClassicalDedekindReals.sig_forall_dec",
"ClassicalDedekindReals.sig_not_dec",
"Classical_Prop.classic",
"FunctionalExtensionality.functional_extensionality_dep"
]
],
"sum_log_diag_full": [
"Properties_MatrixOps",
[
"ClassicalDedekindReals.sig_forall_dec",
"ClassicalDedekindReals.sig_not_dec",
"Classical_Prop.classic",
"FunctionalExtensionality.functional_extensionality_dep"
]
],
"sum_log_diag_split": [
"Properties_MatrixOps",
[
"ClassicalDedekindReals.sig_forall_dec",
"ClassicalDedekindReals.sig_not_dec",
"Classical_Prop.classic",
"FunctionalExtensionality.functional_extensionality_dep"
]
],
"td_active_exactly": [
"Properties_Tighten6",
[]
],
"td_addToBatch_spec": [
"Properties_DesignVars",
[]
],
"td_delay_opposite_sign": [
"Properties_SimEngine",
[
"ClassicalDedekindReals.sig_forall_dec",
"ClassicalDedekindReals.sig_not_dec",
"Classical_Prop.classic",
"FunctionalExtensionality.functional_extensionality_dep"
]
],
"td_delay_refuted": [
"Properties_SimEngine",
[
"ClassicalDedekindReals.sig_forall_dec",
"ClassicalDedekindReals.sig_not_dec",
"Classical_Prop.classic",
"FunctionalExtensionality.functional_extensionality_dep"
]
],
"td_flush_same_time_refuted": [
"Properties_Tighten10",
[
"ClassicalDedekindReals.sig_forall_dec",
"FunctionalExtensionality.functional_extensionality_dep"
]
],
"td_group_dimension": [
"Properties_DesignVars",
[]
],
"td_heading": [
"Properties_SimEngine",
[
"ClassicalDedekindReals.sig_forall_dec",
"ClassicalDedekindReals.sig_not_dec",
"Classical_Prop.classic",
"FunctionalExtensionality.functional_extensionality_dep"
]
],
"td_midpoint": [
"Properties_SimEngine",
[
"ClassicalDedekindReals.sig_forall_dec",
"ClassicalDedekindReals.sig_not_dec",
"Classical_Prop.classic",
"FunctionalExtensionality.functional_extensionality_dep"
]
],
"td_never_ends": [
"Properties_SimEngine",
[
"ClassicalDedekindReals.sig_forall_dec",
"ClassicalDedekindReals.sig_not_dec",
"Classical_Prop.classic",
"FunctionalExtensionality.functional_extensionality_dep"
]
],
"td_options_read": [
"Properties_Options",
[]
],
"td_parameters_complete": [
"Properties_DesignVars",
[]
],
"td_predict_accumulates": [
"Properties_TdPredict",
[
"ClassicalDedekindReals.sig_forall_dec",
"ClassicalDedekindReals.sig_not_dec",
"Classical_Prop.classic",
"FunctionalExtensionality.functional_extensionality_dep"
]
],
"td_predict_few_poses_refuted": [
"Properties_TdPredict",
[
"ClassicalDedekindReals.sig_forall_dec",
"ClassicalDedekindReals.sig_not_dec",
"Classical_Prop.classic",
"FunctionalExtensionality.functional_extensionality_dep"
]
],
"td_predict_reports_batch_errors": [
"Properties_TdPredict",
[
"ClassicalDedekindReals.sig_forall_dec",
"ClassicalDedekindReals.sig_not_dec",
"Classical_Prop.classic",
"FunctionalExtensionality.functional_extensionality_dep"
]
],
"td_predict_times": [
"Properties_TdPredict",
[
"ClassicalDedekindReals.sig_forall_dec",
"ClassicalDedekindReals.sig_not_dec",
"Classical_Prop.classic",
"FunctionalExtensionality.functional_extensionality_dep"
]
],
"td_prediction_refuted": [
"Properties_Kinematics",
[
"ClassicalDedekindReals.sig_forall_dec",
"ClassicalDedekindReals.sig_not_dec",
"Classical_Prop.classic",
"FunctionalExtensionality.functional_extensionality_dep"
]
],
"td_prediction_right_refuted": [
"Properties_Kinematics",
[
"ClassicalDedekindReals.sig_forall_dec",
"ClassicalDedekindReals.sig_not_dec",
"Classical_Prop.classic",
"FunctionalExtensionality.functional_extensionality_dep"
]
],
"td_predictions_errors": [
"Properties_Kinematics",
[
"ClassicalDedekindReals.sig_forall_dec",
"ClassicalDedekindReals.sig_not_dec",
"Classical_Prop.classic",
"FunctionalExtensionality.functional_extensionality_dep"
]
],
"td_report_complete_iff": [
"Properties_Report",
[]
],
"td_report_content": [
"Properties_Report",
[]
],
"td_report_labels_refuted": [
"Properties_Report",
[]
],
"td_sim_read": [
"Properties_Options",
[]
],
"td_simulate_first": [
"Properties_Tighten7",
[
"ClassicalDedekindReals.sig_forall_dec",
"ClassicalDedekindReals.sig_not_dec",
"Classical_Prop.classic",
"FunctionalExtensionality.functional_extensionality_dep"
]
],
"td_simulated_run": [
"Properties_SimRun",
[
"ClassicalDedekindReals.sig_forall_dec",
"ClassicalDedekindReals.sig_not_dec",
"Classical_Prop.classic",
"FunctionalExtensionality.functional_extensionality_dep"
]
],
"td_simulation": [
"Properties_SimEngine",
[
"ClassicalDedekindReals.sig_forall_dec",
"ClassicalDedekindReals.sig_not_dec",
"Classical_Prop.classic",
"FunctionalExtensionality.functional_extensionality_dep"
]
],
"td_simulator_conservation": [
"Properties_SimDriver",
[
"ClassicalDedekindReals.sig_forall_dec",
"FunctionalExtensionality.functional_extensionality_dep"
]
],
"td_simulator_returns": [
"Properties_SimDriver",
[
"ClassicalDedekindReals.sig_forall_dec",
"FunctionalExtensionality.functional_extensionality_dep"
]
],
"td_straight": [
"Properties_SimEngine",
[
"ClassicalDedekindReals.sig_forall_dec",
"ClassicalDedekindReals.sig_not_dec",
"Classical_Prop.classic",
"FunctionalExtensionality.functional_extensionality_dep"
]
],
"td_terms_agree": [
"Properties_TdPredict",
[
"ClassicalDedekindReals.sig_forall_dec",
"FunctionalExtensionality.functional_extensionality_dep"
]
],
"td_terms_spec": [
"Properties_Calibrator",
[]
],
"td_unit": [
"Properties_SimEngine",
[
"ClassicalDedekindReals.sig_forall_dec",
"ClassicalDedekindReals.sig_not_dec",
"Classical_Prop.classic",
"FunctionalExtensionality.functional_extensionality_dep"
]
],
"td_verbose_report": [
"Properties_Report",
[]
],
"td_wheel_residual": [
"Properties_SimEngine",
[
"ClassicalDedekindReals.sig_forall_dec",
"ClassicalDedekindReals.sig_not_dec",
"Classical_Prop.classic",
"FunctionalExtensionality.functional_extensionality_dep"
]
],
"td_wheel_terms": [
"Properties_Kinematics",
[
"ClassicalDedekindReals.sig_forall_dec",
"FunctionalExtensionality.functional_extensionality_dep"
]
],
"td_windows_nonempty": [
"Properties_Calibrator",
[
"ClassicalDedekindReals.sig_forall_dec",
"FunctionalExtensionality.functional_extensionality_dep"
]
],
"template_formulas": [
"Properties_Templates",
[]
],
"template_names_refuted": [
"Properties_Templates",
[]
],
"template_selection": [
"Properties_Templates",
[]
],
"timespec_negative": [
"Properties_Exact3",
[
"ClassicalDedekindReals.sig_forall_dec",
"ClassicalDedekindReals.sig_not_dec",
"Classical_Prop.classic",
"FunctionalExtensionality.functional_extensionality_dep"
]
],
"timespec_nonnegative": [
"Properties_Timestamp",
[
"ClassicalDedekindReals.sig_forall_dec",
"ClassicalDedekindReals.sig_not_dec",
"Classical_Prop.classic",
"FunctionalExtensionality.functional_extensionality_dep"
]
],
"timespec_refuted": [
"Properties_Timestamp",
[
"ClassicalDedekindReals.sig_forall_dec",
"ClassicalDedekindReals.sig_not_dec",
"Classical_Prop.classic",
"FunctionalExtensionality.functional_extensionality_dep"
]
],
"timespec_undefined": [
"Properties_Exact3",
[
"ClassicalDedekindReals.sig_forall_dec",
"ClassicalDedekindReals.sig_not_dec",
"Classical_Prop.classic",
"FunctionalExtensionality.functional_extensionality_dep"
]
],
"timestamp_add_monotone": [
"Properties_Timestamp",
[
"ClassicalDedekindReals.sig_forall_dec",
"ClassicalDedekindReals.sig_not_dec",
"Classical_Prop.classic",
"FunctionalExtensionality.functional_extensionality_dep"
]
],
"timestamp_add_sub_exact": [
"Properties_Timestamp",
[
"ClassicalDedekindReals.sig_forall_dec",
"ClassicalDedekindReals.sig_not_dec",
"Classical_Prop.classic",
"FunctionalExtensionality.functional_extensionality_dep"
]
],
"timestamp_add_sub_refuted": [
"Properties_Timestamp",
[
"ClassicalDedekindReals.sig_forall_dec",
"ClassicalDedekindReals.sig_not_dec",
"Classical_Prop.classic",
"FunctionalExtensionality.functional_extensionality_dep"
]
],
"timestamp_arithmetic": [
"Properties_Timestamp",
[
"ClassicalDedekindReals.sig_forall_dec",
"ClassicalDedekindReals.sig_not_dec",
"Classical_Prop.classic",
"FunctionalExtensionality.functional_extensionality_dep"
]
],
"timestamp_compare": [
"Properties_Timestamp",
[
"ClassicalDedekindReals.sig_forall_dec",
"ClassicalDedekindReals.sig_not_dec",
"Classical_Prop.classic",
"FunctionalExtensionality.functional_extensionality_dep"
]
],
"timestamp_compare_double": [
"Properties_Timestamp",
[]
],
"timestamp_nan_refuted": [
"Properties_Timestamp",
[]
],
"timestamp_order": [
"Properties_Timestamp",
[
"ClassicalDedekindReals.sig_forall_dec",
"ClassicalDedekindReals.sig_not_dec",
"Classical_Prop.classic",
"FunctionalExtensionality.functional_extensionality_dep"
]
],
"trajectory_defaults": [
"Properties_Tighten5",
[
"ClassicalDedekindReals.sig_forall_dec",
"FunctionalExtensionality.functional_extensionality_dep"
]
],
"transformation2_double_inverse_iff": [
"Properties_Geometry",
[
"ClassicalDedekindReals.sig_forall_dec",
"ClassicalDedekindReals.sig_not_dec",
"FunctionalExtensionality.functional_extensionality_dep"
]
],
"transformation2_double_inverse_refuted": [
"Properties_Geometry",
[
"ClassicalDedekindReals.sig_forall_dec",
"ClassicalDedekindReals.sig_not_dec",
"FunctionalExtensionality.functional_extensionality_dep"
]
],
"transformation2_inverse": [
"Properties_Geometry",
[
"ClassicalDedekindReals.sig_forall_dec",
"ClassicalDedekindReals.sig_not_dec",
"FunctionalExtensionality.functional_extensionality_dep"
]
],
"transformation2_inversions": [
"Properties_Geometry",
[
"ClassicalDedekindReals.sig_forall_dec",
"ClassicalDedekindReals.sig_not_dec",
"FunctionalExtensionality.functional_extensionality_dep"
]
],
"transformation2_meaning": [
"Properties_Geometry",
[
"ClassicalDedekindReals.sig_forall_dec",
"ClassicalDedekindReals.sig_not_dec",
"FunctionalExtensionality.functional_extensionality_dep"
]
],
"transformation3_double_inverse_iff": [
"Properties_Geometry",
[
"ClassicalDedekindReals.sig_forall_dec",
"ClassicalDedekindReals.sig_not_dec",
"FunctionalExtensionality.functional_extensionality_dep"
]
],
"transformation3_double_inverse_refuted": [
"Properties_Geometry",
[
"ClassicalDedekindReals.sig_forall_dec",
"ClassicalDedekindReals.sig_not_dec",
"FunctionalExtensionality.functional_extensionality_dep"
]
],
"transformation3_inverse": [
"Properties_Geometry",
[
"ClassicalDedekindReals.sig_forall_dec",
"ClassicalDedekindReals.sig_not_dec",
"FunctionalExtensionality.functional_extensionality_dep"
]
],
"transformation3_inversions": [
"Properties_Geometry",
[
"ClassicalDedekindReals.sig_forall_dec",
"ClassicalDedekindReals.sig_not_dec",
"FunctionalExtensionality.functional_extensionality_dep"
]
],
"transformation3_meaning": [
"Properties_Geometry",
[
"ClassicalDedekindReals.sig_forall_dec",
"ClassicalDedekindReals.sig_not_dec",
"FunctionalExtensionality.functional_extensionality_dep"
]
],
"tsvd_options_read": [
"Properties_Options",
[]
],
"turned_wheel_ground_speed": [
"Properties_Kinematics",
[
"ClassicalDedekindReals.sig_forall_dec",
"ClassicalDedekindReals.sig_not_dec",
"FunctionalExtensionality.functional_extensionality_dep"
]
],
"uniformM_covariance_iff": [
"Properties_Uniform",
[
"ClassicalDedekindReals.sig_forall_dec",
"FunctionalExtensionality.functional_extensionality_dep"
]
],
"uniformM_covariance_refuted": [
"Properties_Uniform",
[
"ClassicalDedekindReals.sig_forall_dec",
"FunctionalExtensionality.functional_extensionality_dep"
]
],
"uniformM_density_real": [
"Properties_Uniform",
[
"ClassicalDedekindReals.sig_forall_dec",
"FunctionalExtensionality.functional_extensionality_dep"
]
],
"uniformM_mass_int": [
"Properties_UniformTypes",
[
"ClassicalDedekindReals.sig_forall_dec",
"FunctionalExtensionality.functional_extensionality_dep"
]
],
"uniformM_mean_midpoint_iff": [
"Properties_Uniform",
[
"ClassicalDedekindReals.sig_forall_dec",
"FunctionalExtensionality.functional_extensionality_dep"
]
],
"uniformM_support_real": [
"Properties_Uniform",
[
"ClassicalDedekindReals.sig_forall_dec",
"FunctionalExtensionality.functional_extensionality_dep"
]
],
"uniform_box_unsigned": [
"Properties_Tighten9",
[
"ClassicalDedekindReals.sig_forall_dec",
"FunctionalExtensionality.functional_extensionality_dep"
]
],
"uniform_density_real": [
"Properties_Uniform",
[
"ClassicalDedekindReals.sig_forall_dec",
"ClassicalDedekindReals.sig_not_dec",
"FunctionalExtensionality.functional_extensionality_dep"
]
],
"uniform_double_rejects": [
"Properties_Tighten4",
[
"ClassicalDedekindReals.sig_forall_dec",
"ClassicalDedekindReals.sig_not_dec",
"Classical_Prop.classic",
"FunctionalExtensionality.functional_extensionality_dep"
]
],
"uniform_getSample_real": [
"Properties_Randomizer",
[
"ClassicalDedekindReals.sig_forall_dec",
"FunctionalExtensionality.functional_extensionality_dep"
]
],
"uniform_int_law_refuted": [
"Properties_SamplerLaw",
[
"ClassicalDedekindReals.sig_forall_dec",
"Classical_Prop.classic",
"FunctionalExtensionality.functional_extensionality_dep"
]
],
"uniform_law": [
"Properties_SamplerLaw",
[
"ClassicalDedekindReals.sig_forall_dec",
"Classical_Prop.classic",
"FunctionalExtensionality.functional_extensionality_dep"
]
],
"uniform_long_double_refuted": [
"Properties_UniformTypes",
[
"ClassicalDedekindReals.sig_forall_dec",
"ClassicalDedekindReals.sig_not_dec",
"FunctionalExtensionality.functional_extensionality_dep"
]
],
"uniform_mass_floating": [
"Properties_UniformTypes",
[
"ClassicalDedekindReals.sig_forall_dec",
"ClassicalDedekindReals.sig_not_dec",
"FunctionalExtensionality.functional_extensionality_dep"
]
],
"uniform_mass_int": [
"Properties_Uniform",
[
"ClassicalDedekindReals.sig_forall_dec",
"FunctionalExtensionality.functional_extensionality_dep"
]
],
"uniform_mass_unsigned": [
"Properties_UniformTypes",
[
"ClassicalDedekindReals.sig_forall_dec",
"FunctionalExtensionality.functional_extensionality_dep"
]
],
"uniform_mean_floating": [
"Properties_Tighten9",
[
"ClassicalDedekindReals.sig_forall_dec",
"FunctionalExtensionality.functional_extensionality_dep"
]
],
"uniform_mean_midpoint_iff": [
"Properties_Uniform",
[
"ClassicalDedekindReals.sig_forall_dec",
"FunctionalExtensionality.functional_extensionality_dep"
]
],
"uniform_mean_refuted": [
"Properties_Uniform",
[
"ClassicalDedekindReals.sig_forall_dec",
"FunctionalExtensionality.functional_extensionality_dep"
]
],
"uniform_mode": [
"Properties_Uniform",
[]
],
"uniform_sample_double_bounds": [
"Properties_Randomizer",
[
"ClassicalDedekindReals.sig_forall_dec",
"ClassicalDedekindReals.sig_not_dec",
"Classical_Prop.classic",
"FunctionalExtensionality.functional_extensionality_dep"
]
],
"uniform_sample_double_refuted": [
"Properties_Randomizer",
[
"ClassicalDedekindReals.sig_forall_dec",
"ClassicalDedekindReals.sig_not_dec",
"Classical_Prop.classic",
"FunctionalExtensionality.functional_extensionality_dep"
]
],
"uniform_sample_int": [
"Properties_Randomizer",
[
"ClassicalDedekindReals.sig_forall_dec",
"FunctionalExtensionality.functional_extensionality_dep"
]
],
"uniform_sample_int_refuted": [
"Properties_Randomizer",
[
"ClassicalDedekindReals.sig_forall_dec",
"FunctionalExtensionality.functional_extensionality_dep"
]
],
"uniform_sample_real": [
"Properties_Randomizer",
[
"ClassicalDedekindReals.sig_forall_dec",
"FunctionalExtensionality.functional_extensionality_dep"
]
],
"uniform_support_int": [
"Properties_Uniform",
[
"ClassicalDedekindReals.sig_forall_dec",
"FunctionalExtensionality.functional_extensionality_dep"
]
],
"uniform_support_real": [
"Properties_Uniform",
[
"ClassicalDedekindReals.sig_forall_dec",
"FunctionalExtensionality.functional_extensionality_dep"
]
],
"uniform_support_unsigned": [
"Properties_UniformTypes",
[
"ClassicalDedekindReals.sig_forall_dec",
"FunctionalExtensionality.functional_extensionality_dep"
]
],
"uniform_unit_double": [
"Properties_Randomizer",
[
"ClassicalDedekindReals.sig_forall_dec",
"ClassicalDedekindReals.sig_not_dec",
"Classical_Prop.classic",
"FunctionalExtensionality.functional_extensionality_dep"
]
],
"uniform_variance_int": [
"Properties_Uniform",
[
"ClassicalDedekindReals.sig_forall_dec",
"FunctionalExtensionality.functional_extensionality_dep"
]
],
"uniform_variance_real": [
"Properties_Uniform",
[
"ClassicalDedekindReals.sig_forall_dec",
"ClassicalDedekindReals.sig_not_dec",
"Classical_Prop.classic",
"FunctionalExtensionality.functional_extensionality_dep"
]
],
"uniform_whole_unsigned_refuted": [
"Properties_UniformTypes",
[
"ClassicalDedekindReals.sig_forall_dec",
"FunctionalExtensionality.functional_extensionality_dep"
]
],
"usable_in_range": [
"Properties_Calibrator",
[]
],
"user_settings": [
"Properties_Tighten13",
[]
],
"user_values": [
"Properties_Tighten13",
[]
],
"validator_addImage_result": [
"Properties_CameraValidator",
[
"ClassicalDedekindReals.sig_forall_dec",
"FunctionalExtensionality.functional_extensionality_dep"
]
],
"validator_first_image_outcome": [
"Properties_Tighten9",
[
"ClassicalDedekindReals.sig_forall_dec",
"FunctionalExtensionality.functional_extensionality_dep"
]
],
"validator_first_image_refuted": [
"Properties_ValidatorProgram",
[
"ClassicalDedekindReals.sig_forall_dec",
"FunctionalExtensionality.functional_extensionality_dep"
]
],
"validator_history": [
"Properties_CameraValidator",
[
"ClassicalDedekindReals.sig_forall_dec",
"FunctionalExtensionality.functional_extensionality_dep"
]
],
"validator_outliers": [
"Properties_CameraValidator",
[
"ClassicalDedekindReals.sig_forall_dec",
"FunctionalExtensionality.functional_extensionality_dep"
]
],
"validator_program": [
"Properties_ValidatorProgram",
[
"ClassicalDedekindReals.sig_forall_dec",
"FunctionalExtensionality.functional_extensionality_dep"
]
],
"validator_stale_image_refuted": [
"Properties_ValidatorProgram",
[
"ClassicalDedekindReals.sig_forall_dec",
"FunctionalExtensionality.functional_extensionality_dep"
]
],
"value_text": [
"Properties_TextObjects",
[]
],
"vector_dv_copy": [
"Properties_VectorDV",
[]
],
"vector_dv_dimension": [
"Properties_VectorDV",
[]
],
"vector_dv_outcome": [
"Properties_Tighten8",
[]
],
"vector_dv_parameters": [
"Properties_VectorDV",
[]
],
"vector_dv_refines": [
"Properties_VectorDV",
[]
],
"vector_dv_revert": [
"Properties_VectorDV",
[]
],
"vector_dv_revert_once": [
"Properties_VectorDV",
[]
],
"vector_text": [
"Properties_TextObjects",
[]
],
"velocities_jacobians": [
"Properties_ErrorTerm",
[
"ClassicalDedekindReals.sig_forall_dec",
"FunctionalExtensionality.functional_extensionality_dep"
]
],
"velocity_predictions": [
"Properties_Kinematics",
[
"ClassicalDedekindReals.sig_forall_dec",
"ClassicalDedekindReals.sig_not_dec",
"Classical_Prop.classic",
"FunctionalExtensionality.functional_extensionality_dep"
]
],
"vision_ids": [
"Properties_Vision",
[
"ClassicalDedekindReals.sig_forall_dec",
"FunctionalExtensionality.functional_extensionality_dep"
]
],
"vision_numbering": [
"Properties_Tighten3",
[
"ClassicalDedekindReals.sig_forall_dec",
"FunctionalExtensionality.functional_extensionality_dep"
]
],
"vision_reset": [
"Properties_Vision",
[]
],
"weight_follows_covariance_refuted": [
"Properties_ErrorTerm",
[
"ClassicalDedekindReals.sig_forall_dec",
"FunctionalExtensionality.functional_extensionality_dep"
]
],
"weight_is_first_covariance": [
"Properties_ErrorTerm",
[
"ClassicalDedekindReals.sig_forall_dec"
]
],
"wgs84_altitude": [
"Properties_Geodetic",
[
"ClassicalDedekindReals.sig_forall_dec",
"ClassicalDedekindReals.sig_not_dec",
"FunctionalExtensionality.functional_extensionality_dep"
]
],
"wgs84_axes": [
"Properties_Tighten11",
[
"ClassicalDedekindReals.sig_forall_dec",
"ClassicalDedekindReals.sig_not_dec",
"FunctionalExtensionality.functional_extensionality_dep"
]
],
"wgs84_injective": [
"Properties_Geodetic",
[
"ClassicalDedekindReals.sig_forall_dec",
"ClassicalDedekindReals.sig_not_dec",
"FunctionalExtensionality.functional_extensionality_dep"
]
],
"wgs84_moves_east": [
"Properties_Geodetic",
[
"ClassicalDedekindReals.sig_forall_dec",
"ClassicalDedekindReals.sig_not_dec",
"FunctionalExtensionality.functional_extensionality_dep"
]
],
"wgs84_moves_north": [
"Properties_Geodetic",
[
"ClassicalDedekindReals.sig_forall_dec",
"ClassicalDedekindReals.sig_not_dec",
"FunctionalExtensionality.functional_extensionality_dep"
]
],
"wgs84_on_ellipsoid": [
"Properties_Geodetic",
[
"ClassicalDedekindReals.sig_forall_dec",
"ClassicalDedekindReals.sig_not_dec",
"FunctionalExtensionality.functional_extensionality_dep"
]
],
"wgs84_vertical_is_normal": [
"Properties_Geodetic",
[
"ClassicalDedekindReals.sig_forall_dec",
"ClassicalDedekindReals.sig_not_dec",
"FunctionalExtensionality.functional_extensionality_dep"
]
],
"wheel_front_derivative": [
"Properties_ErrorTerm",
[
"ClassicalDedekindReals.sig_forall_dec",
"ClassicalDedekindReals.sig_not_dec",
"FunctionalExtensionality.functional_extensionality_dep"
]
],
"wheel_jacobians_front_forward": [
"Properties_ErrorTerm",
[
"ClassicalDedekindReals.sig_forall_dec",
"ClassicalDedekindReals.sig_not_dec",
"FunctionalExtensionality.functional_extensionality_dep"
]
],
"wheel_jacobians_front_refuted": [
"Properties_ErrorTerm",
[
"ClassicalDedekindReals.sig_forall_dec",
"ClassicalDedekindReals.sig_not_dec",
"FunctionalExtensionality.functional_extensionality_dep"
]
],
"wheel_jacobians_rear": [
"Properties_ErrorTerm",
[
"ClassicalDedekindReals.sig_forall_dec",
"ClassicalDedekindReals.sig_not_dec",
"FunctionalExtensionality.functional_extensionality_dep"
]
],
"write_all_good": [
"Properties_SimDriver",
[]
],
"write_all_missing_rotation": [
"Properties_SimDriver",
[]
],
"write_all_other_batch_refuted": [
"Properties_SimDriver",
[]
],
"write_spline_never_ends": [
"Properties_SimDriver",
[]
],
"write_spline_samples": [
"Properties_SimDriver",
[]
],
"zero_batch_size_never_processes": [
"Properties_Camera",
[]
]
}