{
 "claims": [
  {
   "property": "C01",
   "status": "proved",
   "theorems": [
    "permute_applies_permutation"
   ],
   "note": "All containers, all permutations."
  },
  {
   "property": "C02",
   "status": "proved",
   "theorems": [
    "permute_preserves_elements",
    "permute_rejects_bad_indices"
   ],
   "note": ""
  },
  {
   "property": "C03",
   "status": "proved",
   "theorems": [
    "permute_outcome",
    "permute_terminates_on_distinct",
    "permute_termination_refuted"
   ],
   "note": "permute_outcome characterises all outcomes; termination on all in-range vectors is refuted."
  },
  {
   "property": "C04",
   "status": "proved",
   "theorems": [
    "opt_problem_enumeration",
    "opt_problem_group_is_kept",
    "opt_problem_absent"
   ],
   "note": ""
  },
  {
   "property": "C05",
   "status": "proved",
   "theorems": [
    "opt_problem_error_terms",
    "opt_problem_get_errors"
   ],
   "note": ""
  },
  {
   "property": "C06",
   "status": "proved",
   "theorems": [
    "opt_problem_add_variable",
    "opt_problem_add_error_term"
   ],
   "note": ""
  },
  {
   "property": "C07",
   "status": "proved",
   "theorems": [
    "opt_problem_set_ordering",
    "inc_problem_set_ordering"
   ],
   "note": ""
  },
  {
   "property": "C08",
   "status": "proved",
   "theorems": [
    "opt_problem_group_dims",
    "inc_problem_group_dims"
   ],
   "note": ""
  },
  {
   "property": "C09",
   "status": "proved",
   "theorems": [
    "opt_problem_save_restore",
    "inc_problem_save_restore"
   ],
   "note": "For the incremental problem: histories without clear() (see C17), and a variable that leaves the problem in between is not restored (its backup is erased)."
  },
  {
   "property": "C10",
   "status": "proved",
   "theorems": [
    "opt_problem_permute_variables",
    "opt_problem_permute_error_terms",
    "inc_problem_permute"
   ],
   "note": ""
  },
  {
   "property": "C11",
   "status": "proved",
   "theorems": [
    "inc_problem_reference_counts"
   ],
   "note": ""
  },
  {
   "property": "C12",
   "status": "proved",
   "theorems": [
    "inc_problem_add_then_remove",
    "inc_problem_remove_pointer_sequence_refuted",
    "inc_problem_refused_removal"
   ],
   "note": "By index always; by pointer the batch sequence is restored exactly when the batch was not already contained (always true for a batch with an error term); the exception is exhibited."
  },
  {
   "property": "C13",
   "status": "proved",
   "theorems": [
    "inc_problem_enumeration",
    "inc_problem_access"
   ],
   "note": ""
  },
  {
   "property": "C14",
   "status": "proved",
   "theorems": [
    "inc_problem_error_terms_once"
   ],
   "note": ""
  },
  {
   "property": "C15",
   "status": "proved",
   "theorems": [
    "inc_problem_failed_add_refuted",
    "inc_problem_failed_add_keeps",
    "inc_problem_failed_add_state"
   ],
   "note": "Exactly what a failing add leaves behind; the expectation of no effect is refuted by witnesses for both failure causes."
  },
  {
   "property": "C16",
   "status": "proved",
   "theorems": [
    "inc_problem_removal_commutes",
    "inc_problem_removal_order_irrelevant"
   ],
   "note": ""
  },
  {
   "property": "C17",
   "status": "proved",
   "theorems": [
    "inc_problem_clear_backup_refuted",
    "inc_problem_clear_keeps_backup",
    "inc_problem_clear_empties",
    "opt_problem_clear_forgets_backup"
   ],
   "note": "Everything stated is proved. The stronger expectation: refuted for the backup; everything else is cleared."
  },
  {
   "property": "C18",
   "status": "proved",
   "theorems": [
    "inc_problem_mutated_batch_refuted",
    "inc_problem_mutated_batch",
    "inc_problem_clean_removal"
   ],
   "note": "Everything stated is proved. The stronger expectation: refuted for mutated batches; proved for unmutated ones."
  },
  {
   "property": "C19",
   "status": "proved",
   "theorems": [
    "estimator_acceptance_rule",
    "estimator_add_batch_returns_iff",
    "estimator_before_first_estimate",
    "estimator_first_batch_is_accepted"
   ],
   "note": ""
  },
  {
   "property": "C20",
   "status": "proved",
   "theorems": [
    "estimator_rejected_batch_leaves_no_trace"
   ],
   "note": "The batch sequence itself is only equal up to order when the same batch object without error terms was already contained (remove() by pointer takes the first occurrence)."
  },
  {
   "property": "C21",
   "status": "proved",
   "theorems": [
    "estimator_marginal_block_is_trailing",
    "estimator_runs_are_logged",
    "estimator_marginal_order"
   ],
   "note": ""
  },
  {
   "property": "C22",
   "status": "proved",
   "theorems": [
    "estimator_gains_telescope"
   ],
   "note": "Exact arithmetic (R)."
  },
  {
   "property": "C23",
   "status": "proved",
   "theorems": [
    "estimator_throwing_add_refuted",
    "estimator_missing_group",
    "estimator_missing_group_for_ever",
    "estimator_throwing_add_outcome"
   ],
   "note": "Everything stated is proved. The stronger expectation: refuted as stated; statistics are unchanged by a throwing addBatch."
  },
  {
   "property": "C24",
   "status": "proved",
   "theorems": [
    "estimator_remove_batch"
   ],
   "note": ""
  },
  {
   "property": "C25",
   "status": "proved",
   "theorems": [
    "estimator_layout_after_rejection"
   ],
   "note": ""
  },
  {
   "property": "C26",
   "status": "proved",
   "theorems": [
    "grid_cells_one_to_one",
    "grid_arithmetics_covered"
   ],
   "note": ""
  },
  {
   "property": "C27",
   "status": "proved",
   "theorems": [
    "grid_iteration_complete",
    "grid_arithmetics_covered"
   ],
   "note": ""
  },
  {
   "property": "C28",
   "status": "proved",
   "theorems": [
    "grid_constructor_real",
    "grid_constructor_int",
    "grid_counts_real",
    "grid_counts_int",
    "grid_point_to_cell_real",
    "grid_point_to_cell_int"
   ],
   "note": ""
  },
  {
   "property": "C29",
   "status": "proved",
   "theorems": [
    "grid_centre_round_trip_real",
    "grid_centre_round_trip_int",
    "grid_centre_round_trip_refuted",
    "grid_centre_round_trip_int_refuted",
    "grid_double_centre"
   ],
   "note": ""
  },
  {
   "property": "C30",
   "status": "proved",
   "theorems": [
    "grid_coordinates_domain",
    "grid_index_rejected_iff",
    "grid_negative_index",
    "grid_negative_index_refuted"
   ],
   "note": "Everything stated is proved. The stronger expectation: refuted for negative indices; the exact condition for the exception is proved."
  },
  {
   "property": "C31",
   "status": "proved",
   "theorems": [
    "histogram_counts_real",
    "histogram_counts_int",
    "histogram_count_unique"
   ],
   "note": ""
  },
  {
   "property": "C32",
   "status": "proved",
   "theorems": [
    "histogram_statistics_real",
    "histogram_statistics_int",
    "histogram_normalized",
    "histogram_statistics_multi",
    "histogram_normalized_bins",
    "histogram_median_negative"
   ],
   "note": "Exact arithmetic; empty histograms (division by zero) excluded."
  },
  {
   "property": "C33",
   "status": "proved",
   "theorems": [
    "vector_dv_refines",
    "vector_dv_outcome",
    "vector_dv_revert",
    "vector_dv_revert_once",
    "vector_dv_parameters",
    "vector_dv_dimension",
    "vector_dv_copy"
   ],
   "note": ""
  },
  {
   "property": "C34",
   "status": "proved",
   "theorems": [
    "ml1_running_estimate",
    "ml1_order_independent",
    "ml1_reset_forgets",
    "ml1_reset_keeps_distribution",
    "ml1_weighted",
    "ml1_weighted_size_mismatch",
    "ml1_count_overflow_refuted"
   ],
   "note": "Exact arithmetic (R), fewer than 2^32 points; beyond that the claim is refuted."
  },
  {
   "property": "C35",
   "status": "proved",
   "theorems": [
    "normal1_cached_consistent",
    "normal1_setters",
    "normal1_program",
    "normal1_program_throws",
    "normal1_density",
    "normal1_cdf",
    "normal1_KL",
    "normal1_mahalanobis",
    "normal1_moments",
    "normal1_KL_integral"
   ],
   "note": "Exact arithmetic (R)."
  },
  {
   "property": "C36",
   "status": "proved",
   "theorems": [
    "normalM_rejected_covariance",
    "normalM_rejected_covariance_refuted",
    "normalM_accepted_covariance",
    "normalM_factor_consistent"
   ],
   "note": "Everything stated is proved. The stronger expectation: refuted for symmetric matrices that are not positive definite; the rest is proved."
  },
  {
   "property": "C37",
   "status": "proved",
   "theorems": [
    "uniform_support_real",
    "uniform_density_real",
    "uniform_mass_int",
    "uniform_support_int",
    "uniform_mean_midpoint_iff",
    "uniform_mean_refuted",
    "uniform_mode",
    "uniform_variance_real",
    "uniform_variance_int",
    "uniformM_support_real",
    "uniformM_density_real",
    "uniformM_mean_midpoint_iff"
   ],
   "note": "Everything but the midpoint mean is proved; that is refuted, with the exact condition."
  },
  {
   "property": "C38",
   "status": "proved",
   "theorems": [
    "uniformM_covariance_iff",
    "uniformM_covariance_refuted"
   ],
   "note": "What a user expects first is refuted; the exact condition under which it holds is proved."
  },
  {
   "property": "C39",
   "status": "proved",
   "theorems": [
    "gamma_KL_agreement",
    "gamma_KL_integral",
    "gamma_KLDivergence_exactly",
    "gamma_KL_refuted"
   ],
   "note": "What a user expects first is refuted (the divergence can be wrong and negative); the exact condition for agreement is proved."
  },
  {
   "property": "C40",
   "status": "proved",
   "theorems": [
    "uniform_sample_real",
    "uniform_sample_int",
    "uniform_sample_double_bounds",
    "uniform_unit_double",
    "uniform_sample_double_refuted",
    "uniform_getSample_real",
    "normal_sample_real",
    "normal_sample_terminates",
    "normal_sample_int_refuted",
    "categorical_sample",
    "poisson_sample",
    "poisson_sample_unique",
    "exponential_sample",
    "geometric_sample",
    "geometric_double_refuted",
    "gamma_sample",
    "gamma_sample_scales",
    "gamma_sample_fraction",
    "uniform_double_rejects",
    "geometric_double_range"
   ],
   "note": "Proved in exact arithmetic for every sampler; refuted for sampleUniform in doubles, for sampleNormal of integral types and sampleGeometric with tiny probabilities."
  },
  {
   "property": "C41",
   "status": "proved",
   "theorems": [
    "categorical_positive",
    "categorical_zero_refuted"
   ],
   "note": "Everything stated is proved. The stronger expectation: refuted; holds when the sum is exactly 1 and the random number is not 0."
  },
  {
   "property": "C42",
   "status": "proved",
   "theorems": [
    "log_factorial_correct",
    "log_gamma_nat_correct",
    "log_gamma_nat_recurrence",
    "log_gamma_dim_correct"
   ],
   "note": "Exact arithmetic (R)."
  },
  {
   "property": "C43",
   "status": "proved",
   "theorems": [
    "transformation2_meaning",
    "transformation2_inversions",
    "transformation2_inverse",
    "transformation3_meaning",
    "transformation3_inversions",
    "transformation3_inverse",
    "copies_are_equal"
   ],
   "note": "Exact arithmetic (R)."
  },
  {
   "property": "C44",
   "status": "proved",
   "theorems": [
    "transformation2_double_inverse_iff",
    "transformation2_double_inverse_refuted",
    "transformation3_double_inverse_iff",
    "transformation3_double_inverse_refuted",
    "transformation2_inversions",
    "transformation3_inversions"
   ],
   "note": "What a user expects first is refuted; the exact condition under which it holds is proved."
  },
  {
   "property": "C45",
   "status": "proved",
   "theorems": [
    "sum_log_diag",
    "sum_log_diag_split",
    "sum_log_diag_full"
   ],
   "note": "Exact arithmetic (R); the row bound is not checked by the code, the undefined cases are characterised."
  },
  {
   "property": "C46",
   "status": "proved",
   "theorems": [
    "calibrator_conservation",
    "flush_outcome",
    "calibrator_clear_and_window",
    "calibrator_no_duplicates",
    "calibrator_history",
    "calibrator_window_length",
    "calibrator_add_due",
    "calibrator_windows_tile",
    "calibrator_window_times",
    "td_windows_nonempty",
    "car_windows_nonempty",
    "ego_windows_nonempty"
   ],
   "note": "Integer time stamps; the windows of all three calibrators, splines and estimator as parameters."
  },
  {
   "property": "C47",
   "status": "proved",
   "theorems": [
    "td_addToBatch_spec",
    "td_active_exactly",
    "car_active_exactly",
    "td_parameters_complete",
    "td_group_dimension",
    "car_addToBatch_spec",
    "car_parameters_refuted",
    "car_parameters_content",
    "car_group_dimension",
    "ego_new_last",
    "ego_parameters",
    "ego_addToBatch_spec"
   ],
   "note": "Proved for the time-delay and egomotion examples, refuted for the car."
  },
  {
   "property": "C48",
   "status": "proved",
   "theorems": [
    "camera_refuses_uninitialised",
    "camera_initialisation_is_permanent",
    "camera_batches",
    "camera_conservation",
    "camera_observations_in_use",
    "getTransformation_bounds",
    "getTransformation_one_batch",
    "getTransformation_refuted"
   ],
   "note": "Batching is proved while the estimator does not throw; getTransformation is refuted for two accepted batches."
  },
  {
   "property": "C49",
   "status": "proved",
   "theorems": [
    "bestQuat_same_rotation",
    "bestQuat_hemisphere",
    "bestQuat_closest",
    "bestQuat_representative",
    "rotPoses_continuous"
   ],
   "note": "Exact arithmetic (R)."
  },
  {
   "property": "C50",
   "status": "proved",
   "theorems": [
    "motion_jacobians",
    "motion_partial_derivatives",
    "observation_jacobians",
    "steering_jacobians",
    "steering_derivative",
    "velocities_jacobians",
    "wheel_jacobians_rear",
    "wheel_front_derivative",
    "wheel_jacobians_front_forward",
    "wheel_jacobians_front_refuted"
   ],
   "note": "Proved for all modelled error terms except the front wheels of the car, where it is refuted for a wheel that rolls backwards; the steering Jacobian is undefined for a wheel that moves sideways. The pose error term is C116."
  },
  {
   "property": "C51",
   "status": "proved",
   "theorems": [
    "set_covariance_no_effect",
    "weight_follows_covariance_refuted",
    "weight_is_first_covariance"
   ],
   "note": "Everything stated is proved; the stronger expectation it names is refuted."
  },
  {
   "property": "C52",
   "status": "proved",
   "theorems": [
    "enu_axes",
    "ned_axes",
    "ned_enu",
    "ecef2enu_inverse",
    "ecef2ned_inverse",
    "frames_rigid",
    "reference_is_origin",
    "wgs84_altitude",
    "wgs84_on_ellipsoid",
    "wgs84_vertical_is_normal",
    "wgs84_moves_east",
    "wgs84_moves_north",
    "wgs84_injective",
    "wgs84_axes"
   ],
   "note": "Exact arithmetic (R); transformations modelled by matrices."
  },
  {
   "property": "C53",
   "status": "proved",
   "theorems": [
    "vision_ids",
    "vision_numbering",
    "match_target_ok",
    "match_source_iff",
    "match_source_refuted",
    "vision_reset"
   ],
   "note": "Ids proved; the first end of matches is refuted for reference frames that are not stored."
  },
  {
   "property": "C54",
   "status": "proved",
   "theorems": [
    "timestamp_compare",
    "timestamp_order",
    "timestamp_compare_double",
    "timestamp_nan_refuted",
    "timestamp_arithmetic",
    "timestamp_add_monotone",
    "timestamp_add_sub_exact",
    "timestamp_add_sub_refuted"
   ],
   "note": "IEEE doubles: the order is proved except for NaN; add/subtract is refuted in general and proved for exact sums."
  },
  {
   "property": "C55",
   "status": "proved",
   "theorems": [
    "inc_problem_add_succeeds_iff",
    "inc_problem_add_effect",
    "inc_problem_add_order"
   ],
   "note": ""
  },
  {
   "property": "C56",
   "status": "proved",
   "theorems": [
    "inc_problem_no_undefined_behaviour"
   ],
   "note": ""
  },
  {
   "property": "C57",
   "status": "proved",
   "theorems": [
    "estimator_contains_accepted_batches"
   ],
   "note": ""
  },
  {
   "property": "C58",
   "status": "proved",
   "theorems": [
    "estimator_published_after_accept",
    "estimator_published_after_reoptimize",
    "user_settings",
    "user_values"
   ],
   "note": "Includes that the options, activity flags and marginalised group are those the user set last, and values written by the user persist."
  },
  {
   "property": "C59",
   "status": "proved",
   "theorems": [
    "grid_point_to_cell_double",
    "grid_point_to_cell_double_refuted",
    "grid_constructor_double_refuted",
    "histogram_in_range_sample_double_refuted",
    "histogram_add_double"
   ],
   "note": "No undefined behaviour in lookups is proved for all doubles; that every in-range point has a cell is refuted."
  },
  {
   "property": "C60",
   "status": "proved",
   "theorems": [
    "normal1_double_variance",
    "normal1_double_nan_variance_refuted",
    "ml1_double_empty_range_valid_refuted",
    "double_constants"
   ],
   "note": "Everything stated is proved. The stronger expectation: refuted for NaN."
  },
  {
   "property": "C61",
   "status": "proved",
   "theorems": [
    "mlM_running_estimate",
    "mlM_order_independent",
    "mlM_covariance_symmetric",
    "mlM_weighted",
    "mlM_weighted_edge"
   ],
   "note": "Exact arithmetic (R)."
  },
  {
   "property": "C62",
   "status": "proved",
   "theorems": [
    "gamma_parameters_real",
    "gamma_parameters_nat",
    "gamma_density_real",
    "gamma_mass_real",
    "gamma_moments_nat",
    "gamma_mode_real",
    "gamma_cdf_quantile",
    "gamma_cdf_inverts",
    "gamma_integral_shape"
   ],
   "note": "Exact arithmetic (R)."
  },
  {
   "property": "C63",
   "status": "proved",
   "theorems": [
    "chi_square_degrees",
    "chi_square_median"
   ],
   "note": "Exact arithmetic (R)."
  },
  {
   "property": "C64",
   "status": "proved",
   "theorems": [
    "uniform_sample_int",
    "uniform_sample_int_refuted"
   ],
   "note": "Everything stated is proved. The stronger expectation: refuted; the exact distribution is characterised."
  },
  {
   "property": "C65",
   "status": "proved",
   "theorems": [
    "get_samples"
   ],
   "note": ""
  },
  {
   "property": "C66",
   "status": "proved",
   "theorems": [
    "seed_reproducible",
    "seed_refuted"
   ],
   "note": "Everything stated is proved. The stronger expectation: refuted for the constructor's seed and for first default constructions."
  },
  {
   "property": "C67",
   "status": "proved",
   "theorems": [
    "matrix_constructor",
    "matrix_constructor_inverse_refuted",
    "set_matrix_inverse_refuted",
    "set_matrix_inverse3_refuted",
    "set_matrix_inverse_wrong_refuted",
    "set_matrix_transform"
   ],
   "note": "What a user expects first is refuted. Everything stated is proved."
  },
  {
   "property": "C68",
   "status": "proved",
   "theorems": [
    "timespec_nonnegative",
    "timespec_negative",
    "timespec_undefined",
    "timespec_refuted"
   ],
   "note": "Everything stated is proved. The stronger expectation: refuted for negative, NaN and huge times."
  },
  {
   "property": "C69",
   "status": "proved",
   "theorems": [
    "td_terms_spec",
    "car_terms_spec",
    "usable_in_range"
   ],
   "note": ""
  },
  {
   "property": "C70",
   "status": "proved",
   "theorems": [
    "car_rear_variance_refuted",
    "car_rear_variance_agreeing",
    "car_terms_spec"
   ],
   "note": "Everything stated is proved; the stronger expectation it names is refuted."
  },
  {
   "property": "C71",
   "status": "proved",
   "theorems": [
    "spline_segments",
    "spline_segments_defined",
    "spline_segments_exact",
    "spline_segments_refuted",
    "td_flush_same_time_refuted",
    "car_flush_same_time_refuted"
   ],
   "note": "The undefined case is part of the statement and is proved by spline_segments_refuted."
  },
  {
   "property": "C72",
   "status": "proved",
   "theorems": [
    "ego_reference_gap_refuted",
    "ego_reference_gap_reached",
    "ego_reference_pending_ok"
   ],
   "note": "Everything stated is proved; the stronger expectation it names is refuted."
  },
  {
   "property": "C73",
   "status": "proved",
   "theorems": [
    "calibrator_failure_refuted",
    "calibrator_failure_in_splines"
   ],
   "note": "Everything stated is proved; the stronger expectation it names is refuted."
  },
  {
   "property": "C74",
   "status": "proved",
   "theorems": [
    "motion_terms",
    "motion_terms_adjacent",
    "motion_terms_refuted",
    "motion_terms_unsorted_refuted"
   ],
   "note": "Everything stated is proved; the stronger expectation it names is refuted."
  },
  {
   "property": "C75",
   "status": "proved",
   "theorems": [
    "addSpline_ok",
    "addSpline_twice",
    "add_all_spec"
   ],
   "note": ""
  },
  {
   "property": "C76",
   "status": "proved",
   "theorems": [
    "getSpline_outcome",
    "addSpline_null",
    "sp_clear_outcome",
    "spline_active_added",
    "spline_clear_exactly",
    "add_spline_exactly",
    "spline_clear_refuted",
    "spline_listed_without_clear",
    "spline_owner_refuted",
    "spline_owner_without_rejection",
    "ego_getSpline_outcome",
    "ego_getSpline_refuted"
   ],
   "note": "Everything stated is proved; the stronger expectation it names is refuted."
  },
  {
   "property": "C77",
   "status": "proved",
   "theorems": [
    "estimator_exception_is_fatal",
    "full_batch_not_retried",
    "lowered_limit_never_processes",
    "zero_batch_size_never_processes",
    "process_twice_gives_empty_batch",
    "process_before_images"
   ],
   "note": "Everything stated is proved; the stronger expectation it names is refuted."
  },
  {
   "property": "C78",
   "status": "proved",
   "theorems": [
    "statistics_maximum",
    "outliers_count",
    "validator_history",
    "validator_addImage_result",
    "validator_outliers"
   ],
   "note": "Exact arithmetic (R); detector and camera geometry as parameters."
  },
  {
   "property": "C79",
   "status": "proved",
   "theorems": [
    "last_image_average_value",
    "last_image_average_refuted"
   ],
   "note": "Everything stated is proved; the stronger expectation it names is refuted."
  },
  {
   "property": "C80",
   "status": "proved",
   "theorems": [
    "keyframe_criterion",
    "first_frame",
    "incomplete_frame",
    "no_tracks_undefined"
   ],
   "note": "Disparities over R; pipeline and matcher as parameters; the thresholds, never initialised by the code, are arbitrary values."
  },
  {
   "property": "C81",
   "status": "proved",
   "theorems": [
    "sine_path_length",
    "sine_path_no_time",
    "sine_path_heading",
    "sine_path_speed"
   ],
   "note": "Exact arithmetic (R)."
  },
  {
   "property": "C82",
   "status": "proved",
   "theorems": [
    "simulation_lengths",
    "lrf_simulate_first",
    "simulated_observation_error",
    "simulated_motion_error",
    "simulated_motion_error_refuted",
    "simulated_poses",
    "noiseless_odometry",
    "sine_simulation"
   ],
   "note": "Motion error refuted at heading wraps."
  },
  {
   "property": "C83",
   "status": "proved",
   "theorems": [
    "landmarks_first_sighting",
    "landmarks_no_data",
    "landmarks_undefined_refuted",
    "landmarks_reconstructed"
   ],
   "note": "Proved for data with as many rows as poses; refuted otherwise."
  },
  {
   "property": "C84",
   "status": "proved",
   "theorems": [
    "lrf_batch_contents",
    "lrf_starts_values",
    "lrf_starts_never_ends",
    "lrf_partition",
    "lrf_program"
   ],
   "note": ""
  },
  {
   "property": "C85",
   "status": "proved",
   "theorems": [
    "online_keeps_informative",
    "online_determinant_decreases",
    "online_overrun",
    "online_never_ends",
    "online_run_no_data"
   ],
   "note": "Exact arithmetic (R); the optimisation result of each round is arbitrary."
  },
  {
   "property": "C86",
   "status": "proved",
   "theorems": [
    "integrate_position",
    "integrate_rotation",
    "integrate_no_rotation",
    "integrate_unit",
    "integrate_planar",
    "integrate_threshold"
   ],
   "note": "Exact arithmetic; the quaternion functions of sm_kinematics are modelled from their documentation."
  },
  {
   "property": "C87",
   "status": "proved",
   "theorems": [
    "td_simulation",
    "td_never_ends",
    "td_unit",
    "td_heading",
    "td_straight",
    "td_simulate_first"
   ],
   "note": "Exact arithmetic."
  },
  {
   "property": "C88",
   "status": "proved",
   "theorems": [
    "td_wheel_residual",
    "td_midpoint",
    "td_delay_opposite_sign",
    "td_delay_refuted"
   ],
   "note": "The delay's sign is refuted: the residual vanishes for minus the simulated delay."
  },
  {
   "property": "C89",
   "status": "proved",
   "theorems": [
    "ego_trajectory_single",
    "ego_trajectory_combined",
    "ego_trajectory_stamps",
    "count_exists",
    "ego_trajectory_never_ends",
    "ego_straight",
    "ego_combined_jump"
   ],
   "note": "Uniform steps refuted for the combined trajectory (ego_combined_jump); the spline fit is not modelled."
  },
  {
   "property": "C90",
   "status": "proved",
   "theorems": [
    "ego_times_spec",
    "ego_times_end",
    "ego_times_never_end",
    "ego_measurements",
    "ego_other_sensors",
    "ego_missing_calibration",
    "ego_hand_eye",
    "ego_calibrator_consistent",
    "ego_dead_reckoning"
   ],
   "note": "The fitted splines are a parameter."
  },
  {
   "property": "C91",
   "status": "proved",
   "theorems": [
    "car_driver_reads_everything",
    "car_solutions",
    "car_first_pose_origin",
    "car_pose_distances"
   ],
   "note": "Exact arithmetic; Euler angles and the time stamp corrector are parameters (an Euler angle convention meeting the hypotheses is constructed)."
  },
  {
   "property": "C92",
   "status": "proved",
   "theorems": [
    "car_position_variance_refuted",
    "car_position_variance_equal",
    "car_velocity_variance_refuted",
    "car_variances"
   ],
   "note": "Everything stated is proved; the stronger expectation it names is refuted."
  },
  {
   "property": "C93",
   "status": "proved",
   "theorems": [
    "car_wheels_and_steering",
    "car_odometer",
    "car_odometer_distance",
    "car_odometer_refuted"
   ],
   "note": "Proved for odometer times other than -1; refuted for a message stamped -1 s."
  },
  {
   "property": "C94",
   "status": "proved",
   "theorems": [
    "car_program_conservation",
    "car_program_end",
    "car_mistyped_message_refuted",
    "car_same_topic_refuted",
    "car_no_performance_refuted",
    "car_shared_topic_undefined",
    "car_same_navigation_topic_refuted",
    "car_solution_topic_shared_refuted"
   ],
   "note": "Conservation proved; the expected diagnoses are refuted."
  },
  {
   "property": "C95",
   "status": "proved",
   "theorems": [
    "point_velocity_body",
    "imu_velocity_body",
    "car_dmi_terms",
    "car_steering_terms",
    "car_front_terms",
    "car_rear_terms",
    "car_velocity_terms",
    "car_pose_terms",
    "car_terms_agree",
    "td_wheel_terms",
    "td_terms_agree"
   ],
   "note": "Exact arithmetic; the fitted splines and their derivative expressions are a parameter (they represent some differentiable motion)."
  },
  {
   "property": "C96",
   "status": "proved",
   "theorems": [
    "init_poses_consistent",
    "pose_error_at_start",
    "pose_error_gimbal_refuted"
   ],
   "note": "Everything stated is proved. The stronger expectation: refuted at pitch 90 degrees; the rest proved."
  },
  {
   "property": "C97",
   "status": "proved",
   "theorems": [
    "eval_term_weighted",
    "eval_term_errors",
    "pose_predictions",
    "velocity_predictions",
    "dmi_predictions",
    "steering_predictions",
    "front_predictions",
    "rear_predictions",
    "turned_wheel_ground_speed",
    "predict_reports_batch_errors",
    "predict_accumulates",
    "spline_fit_request",
    "predict_spline_request",
    "predict_few_poses_refuted",
    "td_predictions_errors",
    "td_predict_reports_batch_errors",
    "td_predict_times",
    "td_predict_accumulates",
    "td_predict_few_poses_refuted",
    "td_prediction_refuted",
    "td_prediction_right_refuted"
   ],
   "note": "The car's predictions are proved consistent; refuted for fewer than two poses and for the time-delay example's predicted values."
  },
  {
   "property": "C98",
   "status": "proved",
   "theorems": [
    "ego_dead_reckoned_poses",
    "ego_reference_terms_at_start",
    "ego_trajectory_total",
    "ego_predict_moves_refuted",
    "ego_predict_harmless",
    "ego_segments",
    "ego_rate_overflow"
   ],
   "note": "Everything proved except that predict() changes nothing, which is refuted; its harmlessness assumes that the library's spline fit commutes with rigid motions."
  },
  {
   "property": "C99",
   "status": "proved",
   "theorems": [
    "ego_motion_terms",
    "ego_predictions",
    "ego_predict_returns",
    "ego_predict_uncalibrated",
    "ego_window_closed",
    "ego_add_window",
    "ego_clear"
   ],
   "note": "Exact arithmetic; splines and the error function are parameters."
  },
  {
   "property": "C100",
   "status": "proved",
   "theorems": [
    "ego_uncalibrated_refuted",
    "ego_uncalibrated_reached"
   ],
   "note": "Everything stated is proved; the stronger expectation it names is refuted."
  },
  {
   "property": "C101",
   "status": "proved",
   "theorems": [
    "estimator_reoptimize_throw_refuted",
    "estimator_reoptimize_outcome"
   ],
   "note": "Everything stated is proved. The stronger expectation: refuted when the marginal analysis throws; the exact outcome is proved."
  },
  {
   "property": "C102",
   "status": "proved",
   "theorems": [
    "estimator_config_read",
    "tsvd_options_read",
    "estimator_group_id_refuted"
   ],
   "note": "Exact reading proved; refuted for a negative groupId. The optimizer's own constructor is a parameter."
  },
  {
   "property": "C103",
   "status": "proved",
   "theorems": [
    "calibrator_defaults",
    "car_options_read",
    "td_options_read",
    "ego_options_read",
    "options_total",
    "car_cutoff_refuted",
    "spline_order_default_refuted"
   ],
   "note": "Exact reading proved; refuted for cutoffs outside 16 bits and for an absent order of the translation spline."
  },
  {
   "property": "C104",
   "status": "proved",
   "theorems": [
    "trajectory_defaults",
    "td_sim_read",
    "ego_sim_sensors",
    "ego_trajectory_read",
    "ego_sim_duplicate_refuted"
   ],
   "note": "Exact reading proved; refuted for repeated sensor ids."
  },
  {
   "property": "C105",
   "status": "proved",
   "theorems": [
    "adapter_solve",
    "adapter_analyze",
    "adapter_init",
    "adapter_history",
    "adapter_curvature_refuted",
    "estimator_failed_analysis_refuted"
   ],
   "note": "Adapter proved; refuted that a failed analysis surfaces."
  },
  {
   "property": "C106",
   "status": "proved",
   "theorems": [
    "adapter_memory",
    "adapter_leak_refuted"
   ],
   "note": "The exact count is proved; that nothing leaks is refuted."
  },
  {
   "property": "C107",
   "status": "proved",
   "theorems": [
    "td_simulated_run",
    "td_simulator_conservation",
    "td_simulator_returns"
   ],
   "note": "Splines and estimator are parameters."
  },
  {
   "property": "C108",
   "status": "proved",
   "theorems": [
    "ego_simulated_run",
    "ego_simulated_run_returns",
    "ego_simulator_conservation",
    "ego_simulator_returns",
    "ego_simulator_end_refuted"
   ],
   "note": "Conservation proved; normal end proved without delays and refuted with them."
  },
  {
   "property": "C109",
   "status": "proved",
   "theorems": [
    "write_spline_samples",
    "samples_times",
    "write_all_good",
    "write_all_missing_rotation",
    "write_spline_never_ends",
    "write_all_other_batch_refuted"
   ],
   "note": "Exact output proved; termination for periods below a nanosecond and batches without splines refuted. Text formatting is not modelled."
  },
  {
   "property": "C110",
   "status": "proved",
   "theorems": [
    "cam_program_batches",
    "cam_program_failure",
    "cam_program_last_failure",
    "cam_program_empty",
    "cam_program_no_target_refuted",
    "cam_program_empty_batch_refuted",
    "cam_saved_images_refuted"
   ],
   "note": "Exact sequence of batches and saved images proved; empty last batch, exception for a log without target and unsaved images refuted. The detector and the estimator's decision are inputs."
  },
  {
   "property": "C111",
   "status": "proved",
   "theorems": [
    "cam_write_values",
    "cam_type_roundtrip",
    "cam_type_refused",
    "cam_sigma_order",
    "cam_std_defined",
    "cam_write_no_batch_refuted",
    "cam_sigma_order_refuted"
   ],
   "note": "Content of the file proved for every result with an accepted batch; without one undefined; standard deviations refuted for one of the two enumeration orders of the variables."
  },
  {
   "property": "C112",
   "status": "proved",
   "theorems": [
    "cam_options_read",
    "cam_options_defaults",
    "cam_option_default",
    "camv_option_default",
    "cam_default_options",
    "cam_options_total",
    "cam_validator_agrees",
    "cam_calibrator_config",
    "cam_calibrator_bad_type",
    "cam_huge_batch",
    "cam_required_keys_refuted",
    "cam_negative_batch_refuted",
    "cam_group_ids_refuted"
   ],
   "note": "Key by key equivalence proved; defaults of the detector options, negative batch sizes and group ids refuted. The property tree and the optimizer's own options are external."
  },
  {
   "property": "C113",
   "status": "proved",
   "theorems": [
    "exception_text",
    "exception_text_unambiguous",
    "exception_text_refuted"
   ],
   "note": "Proved for texts without NUL (and, for unambiguity, printed values without closing bracket); refuted otherwise."
  },
  {
   "property": "C114",
   "status": "proved",
   "theorems": [
    "stream_text",
    "object_text_unambiguous",
    "grid_text",
    "stream_round_trip_refuted"
   ],
   "note": "Texts proved; refuted that a file gets what the console gets and that reading restores anything. Formatting of numbers is a parameter."
  },
  {
   "property": "C115",
   "status": "proved",
   "theorems": [
    "validator_program",
    "validator_stale_image_refuted",
    "validator_first_image_refuted",
    "validator_first_image_outcome"
   ],
   "note": "Report proved for every log; refuted that a saved image belongs to its time stamp, and that there is a report when the first image to save has no target. Detector and image writer are parameters."
  },
  {
   "property": "C116",
   "status": "proved",
   "theorems": [
    "pose_jacobian_derivative",
    "s_matrix_defining",
    "s_matrix_unique",
    "pose_jacobian_gimbal_refuted"
   ],
   "note": "Proved wherever the matrix exists; refuted at pitch +-90 degrees. The S matrix of the library is characterised uniquely by its documented property; the perturbation convention of the library's transformation expressions is part of the specification."
  },
  {
   "property": "C117",
   "status": "proved",
   "theorems": [
    "normalM_mahalanobis",
    "normalM_density",
    "normalM_KL",
    "normalM_estimator_states"
   ],
   "note": "Exact arithmetic (R); Eigen's Cholesky factor, inverse and determinant by their contracts."
  },
  {
   "property": "C118",
   "status": "proved",
   "theorems": [
    "singleton_at_most_one",
    "singleton_getInstance",
    "singleton_second_construction_refused",
    "singleton_first_construction",
    "singleton_destroyed",
    "singleton_same_until_destroyed",
    "singleton_threads_never_null",
    "singleton_threads_after_first",
    "singleton_single_thread",
    "singleton_threads_throw_refuted",
    "singleton_threads_two_objects_refuted"
   ],
   "note": "One thread proved; simultaneous first calls refuted. The class declaration is not in the repository; an access to the static member is one step."
  },
  {
   "property": "C119",
   "status": "proved",
   "theorems": [
    "python_no_dangling_owner",
    "python_problem_kept",
    "python_no_references_safe",
    "python_growing_safe",
    "python_rejected_batch_growing",
    "python_no_removal_safe",
    "python_reference_after_remove_refuted",
    "python_batch_dangles_refuted",
    "python_rejected_again_dangles_refuted"
   ],
   "note": "Proved for programs without getOptimizationProblem and for programs in which no batch leaves a problem; refuted when both occur. Boost.Python's call policies and conversions are taken from its manual."
  },
  {
   "property": "C120",
   "status": "proved",
   "theorems": [
    "uniform_support_unsigned",
    "uniform_mass_unsigned",
    "uniform_whole_unsigned_refuted",
    "uniformM_mass_int",
    "uniform_mass_floating",
    "uniform_mean_floating",
    "uniform_box_unsigned",
    "uniform_long_double_refuted"
   ],
   "note": "Proved for float, double, signed integers in any dimension and unsigned integers whose support is not the whole type; refuted for the whole unsigned type (area 0, variance -1/12) and for long double (classified as an integer). Floating types in exact arithmetic."
  },
  {
   "property": "C121",
   "status": "proved",
   "theorems": [
    "poisson_integral",
    "poisson_double",
    "poisson_integral_mean_refuted",
    "exponential_integral_refuted",
    "geometric_integral_refuted",
    "gamma_integral_refuted",
    "categorical_integral_refuted",
    "poisson_double_large_mean_refuted"
   ],
   "note": "The exact samples; what a user would expect instead is refuted. The library's exp in doubles is an argument (poisson_double) with the one property that it is 0 below the smallest double (the refutation)."
  },
  {
   "property": "C122",
   "status": "proved",
   "theorems": [
    "est_double_sums",
    "est_double_order",
    "est_double_variance",
    "est_double_accepts",
    "est_double_constant",
    "est_double_valid_iff",
    "est_double_poisoned_refuted",
    "est_double_distinct_refuted",
    "est_double_equal_refuted",
    "est_double_order_refuted"
   ],
   "note": "Everything stated is proved in Flocq's binary64, for whole-numbered points; the expectations beyond that range are refuted by concrete points."
  },
  {
   "property": "C123",
   "status": "proved",
   "theorems": [
    "td_verbose_report",
    "ego_verbose_report",
    "car_verbose_report_refuted",
    "car_report_refuted",
    "td_report_labels_refuted",
    "td_report_complete_iff",
    "ego_report_complete_iff",
    "td_report_content",
    "car_report_content",
    "estimator_marginal_order"
   ],
   "note": "Everything stated is proved, assuming that the linear solver's row space has one row per column of the marginal block; the expectation that every name gets its own number is refuted for partly optimised variables and for the car."
  },
  {
   "property": "C124",
   "status": "proved",
   "theorems": [
    "poisson_law",
    "exponential_law",
    "geometric_law",
    "categorical_law",
    "uniform_law",
    "gamma_integer_law",
    "gamma_fraction_law",
    "gamma_shape_law",
    "normal_law",
    "normal_termination_law",
    "normal_termination_limit",
    "uniform_int_law_refuted"
   ],
   "note": "Exact arithmetic (R). Volumes are iterated Riemann integrals (Spec_Volume.v). The law of sampleGamma for every shape is gamma_integer_law when the shape is integral and gamma_shape_law otherwise (a fraction below 2^-52 is taken for zero by the code)."
  },
  {
   "property": "C125",
   "status": "proved",
   "theorems": [
    "distribution_text",
    "estimator_text",
    "value_text",
    "vector_text",
    "calibration_text",
    "car_text",
    "report_unambiguous",
    "randomizer_text",
    "randomizer_generator",
    "randomizer_seed_refuted"
   ],
   "note": "Everything stated is proved; estimators in exact arithmetic and for fewer than 2^32 points (beyond, see C34). Refuted: the shown seed of a Randomizer reproduces its samples. Formatting of numbers, rows and matrices is a parameter."
  },
  {
   "property": "C126",
   "status": "proved",
   "theorems": [
    "car_program_deviations_refuted",
    "car_deviations_refuted",
    "car_deviations_content"
   ],
   "note": "The expectation is refuted for every history; what the file holds instead is proved, assuming that the linear solver's covariance has one diagonal entry per column of the marginal block. The text of the numbers is left out (C113)."
  },
  {
   "property": "C127",
   "status": "proved",
   "theorems": [
    "car_files_are_calls",
    "car_files_times",
    "car_files_complete",
    "car_files_times_refuted"
   ],
   "note": "Everything stated is proved, in exact arithmetic, for a log that is read to its end (an exception of the calibrator ends the program). An odometer message at time -1 is taken for none (C93) and excluded from the statement about the order of the times. The text of the numbers is left out (C113)."
  },
  {
   "property": "C128",
   "status": "proved",
   "theorems": [
    "history_files",
    "history_files_step",
    "ego_history_files",
    "history_files_failed_refuted",
    "history_files_rejected_refuted"
   ],
   "note": "Everything stated is proved, for numbers and rows whose text has no newline; their formatting is a parameter. Refuted: line numbers are window numbers; only accepted windows have lines."
  },
  {
   "property": "C129",
   "status": "proved",
   "theorems": [
    "function_objects",
    "function_objects_total",
    "gamma_functions_complementary",
    "loggamma_for_logfactorial_refuted"
   ],
   "note": "Everything stated is proved in exact arithmetic with Boost's and cmath's functions as parameters; complementarity of Boost's P and Q is an explicit hypothesis. Refuted: substitutability of the integer log-gamma."
  },
  {
   "property": "C130",
   "status": "proved",
   "theorems": [
    "objects_are_values",
    "same_biography",
    "calls_are_local"
   ],
   "note": "Proved for the copy constructors and assignment operators member by member; a call is any function on the members of its object. That members are not shared is a fact about their types (numbers, vectors, Eigen matrices) and is built into the model."
  },
  {
   "property": "C131",
   "status": "proved",
   "theorems": [
    "template_formulas",
    "template_selection",
    "one_overload",
    "template_names_refuted"
   ],
   "note": "Everything stated is proved for the compiler's choice of specialisations as modelled. Refuted: what the names IsInteger and IsNumeric promise; rejection of arguments that are no truth values."
  }
 ]
}
