# Axioms under each theorem

Generated with `Print Assumptions` for every `Cnn_...` theorem of `rocq/theories/*Props.v`.
All axioms are those of Coq's standard library.

## No axioms (closed under the global context)

46 theorems: `C02_noop`, `C05_resample_shape`, `C09_resize_empty_is_undefined`, `C09_resize_shape`, `C09_resize_to_zero_empties`, `C11_undefined_before_resample`, `C12_defined`, `C12_symmetric`, `C13_empty_is_undefined`, `C14_append`, `C14_bias`, `C14_noise`, `C14_predict`, `C16_process_sees`, `C17_conservation`, `C17_dropped_only_on_failure_or_reset`, `C18_bounded`, `C19_composition`, `C20_progress`, `C20_single_sensor`, `C21_failed_cloud`, `C22_buffer_is_the_last_cloud`, `C22_pass_through`, `C23_positive_limit_is_safe`, `C23_zero_limit_is_undefined`, `C52_distinct_voxels_distinct_cells`, `C64_unambiguous`, `C65_monotone`, `C65_work_bound`, `C66_empty`, `C66_uniform`, `C67_distinct_points`, `C67_small_cloud`, `C74_double_coordinates_refuted`, `C74_failure_changes_nothing`, `C74_points`, `C74_reused_output_keeps_stale_fields`, `C74_success_iff`, `C74_value_unique`, `C79_returns`, `C83_one_in_every_skip`, `C113_queue_sizes`, `C116_negative_counts`, `C120_uniform_sampler`, `C127_filter`, `C127_same_schedules`

## `ClassicalDedekindReals.sig_forall_dec`

2 theorems: `C71_non_numeric_refuted`, `C71_rename`

## `ClassicalDedekindReals.sig_forall_dec`, `FunctionalExtensionality.functional_extensionality_dep`

37 theorems: `C24_metric`, `C24_misses_nothing`, `C24_nearest`, `C25_ids_are_cloud_ids`, `C25_remap_defined`, `C26_count`, `C26_equals_whole_cloud`, `C27_guard_insufficient_refuted`, `C27_throws_iff`, `C28_before_load`, `C28_no_memory`, `C29_small_weight_refuted`, `C39_not_commutative`, `C40_composition`, `C40_double_cover`, `C44_difference_then_sum`, `C44_other_order_position`, `C44_other_order_rotation_refuted`, `C46_generator_returns_mean`, `C47_rigid_motions_form_a_group`, `C52_empty_map_undefined`, `C52_grid_built_iff`, `C52_overflow_refuted`, `C56_equal_stamp_refuted`, `C56_grid_is_current`, `C58_search_exists`, `C62_sum_laws`, `C73_default_level`, `C73_levels`, `C73_names`, `C78_kept_cells`, `C78_some_cell_is_kept`, `C93_dda_state_survives_newer_maps`, `C100_built_poses`, `C101_determinant`, `C116_conversions`, `C116_heading_count_rounding`

## `ClassicalDedekindReals.sig_forall_dec`, `ClassicalDedekindReals.sig_not_dec`, `FunctionalExtensionality.functional_extensionality_dep`

83 theorems: `C34_constant_passes`, `C34_vec3_componentwise`, `C35_angle_converges`, `C35_converges`, `C35_error_monotone`, `C35_geometric`, `C36_no_overshoot`, `C36_short_time_constant_refuted`, `C37_full_turns`, `C37_nearest_representative`, `C37_tie_refuted`, `C38_geometric`, `C38_rejects_constants`, `C39_algebra`, `C40_non_unit_scales`, `C40_rigid`, `C41_elementary`, `C41_set_is_yaw_pitch_roll`, `C42_set_is_rotation`, `C43_general`, `C43_half_turn_refuted`, `C43_restores`, `C45_transform_rigid`, `C52_no_access_outside`, `C53_outside_start`, `C53_terminates`, `C54_below_map_refuted`, `C54_chain_along_ray`, `C54_never_passes_end`, `C54_tie_refuted`, `C55_collision_criterion`, `C55_z_grid_ignored`, `C57_uniform_samples`, `C58_collision_iff_near`, `C58_incidence`, `C58_incidence_exact`, `C58_radii_in_range`, `C58_sine_in_range`, `C58_weighted_sine_refuted`, `C59_status_unambiguous`, `C62_empty_map`, `C62_exact_score`, `C62_score`, `C63_exact_ratio`, `C63_no_points`, `C63_ratio_in_range`, `C67_zero_spread_eigenvalues`, `C68_mirrored`, `C68_nonnegative_covariance`, `C68_robot_frame`, `C68_wrong_direction_refuted`, `C69_density`, `C70_argument_range`, `C71_deprecated_name_takes_effect`, `C71_new_name_wins`, `C72_dda_voxels_not_smaller_than_grid`, `C72_fails_iff_both_fake`, `C72_grid_bounds`, `C89_no_voxel_skipped`, `C91_headings`, `C102_flat_direction`, `C102_mean_and_covariance`, `C102_no_covariance`, `C112_first_correction_refuted`, `C112_no_overshoot`, `C113_every_event_handled_once`, `C113_interface`, `C113_names_distinct`, `C113_one_real_sensor`, `C113_startup`, `C116_documented_defaults`, `C116_names_distinct`, `C116_other_settings`, `C116_own_setting`, `C116_settings`, `C116_unknown_ignored`, `C122_defaults_run`, `C127_likelihood`, `C127_likelihood_band`, `C127_shift_keeps_noise`, `C128_likelihood_points`, `C128_map_points`, `C131_band`

## `ClassicalDedekindReals.sig_forall_dec`, `ClassicalDedekindReals.sig_not_dec`, `Classical_Prop.classic`, `FunctionalExtensionality.functional_extensionality_dep`

250 theorems: `C01_bayes`, `C01_float_bayes`, `C02_nan_likelihood`, `C03_weights_add_up_to_one`, `C03_weights_in_unit_interval`, `C04_entropy`, `C04_extremes`, `C06_low_variance`, `C07_dead_not_selected`, `C07_unstable_sort_selects_dead_refuted`, `C07_zero_offset_selects_dead_refuted`, `C08_first_copy_is_perturbed`, `C08_only_repeats_perturbed`, `C09_resize_low_variance`, `C10_biased`, `C10_convex`, `C10_expectation`, `C10_order_independent`, `C11_most_probable_refuted`, `C11_prefix`, `C12_all_particles`, `C12_empty_sample_is_nan`, `C12_entries`, `C12_positive_semidefinite`, `C13_max`, `C13_max_biased`, `C15_float_distribution`, `C15_stays_distribution`, `C30_latest_only_refuted`, `C30_map_history`, `C30_updates_accumulate`, `C31_no_null_dereference`, `C31_search_and_published_agree`, `C32_pending_update_dropped`, `C33_map_loaded_iff`, `C33_no_localization_without_map`, `C33_only_the_status_message`, `C41_get_after_set`, `C41_gimbal_lock_loses_heading`, `C41_ranges`, `C41_set_after_get`, `C42_cut_off`, `C42_round_trip`, `C42_weighted`, `C46_mean_position_becomes_error`, `C46_noise_with_zero_sigma`, `C46_resample_with_zero_sigma`, `C46_zero_noise_is_neutral`, `C47_prediction_composes`, `C48_predictions_telescope`, `C49_for_every_chain`, `C49_rotation_stays_unit`, `C50_long_gaps_diverge_refuted`, `C50_never_grows`, `C50_vanishes`, `C51_biased_mean_of_agreeing_particles`, `C51_mean_of_agreeing_particles`, `C52_ieee_roundings`, `C59_beam_status`, `C59_dda_beam`, `C59_kdtree_beam`, `C60_beam_likelihood`, `C60_binary32_range`, `C60_law`, `C60_no_points`, `C60_zero_alpha`, `C61_law_with_default_beams`, `C61_reduced_beams_refuted`, `C64_clip`, `C64_nan_is_kept`, `C65_budget`, `C65_initial_budget`, `C67_terminates`, `C67_weights`, `C67_zero_spread_diverges_refuted`, `C69_float_density`, `C69_shape`, `C69_zero_sigma_is_nan`, `C70_argument_above_one_refuted`, `C70_best_when_aligned`, `C70_depends_on_angle`, `C70_float_above_one_only_aligned`, `C70_float_cosine`, `C70_float_far_particles_are_safe`, `C70_nan_drops_update`, `C70_yaw_invariant`, `C75_applied_displacements`, `C75_close_message_is_merged`, `C75_telescopes`, `C75_time_jump_reinitialises`, `C76_stream`, `C76_when_applied`, `C77_accepted`, `C77_infinity_is_discarded`, `C77_nan_passes_refuted`, `C77_rejected`, `C78_one_particle_per_cell_and_heading`, `C78_small_weight_refuted`, `C79_count_returns`, `C79_history`, `C79_one_step`, `C80_status_window`, `C81_convergence`, `C81_diagnostics`, `C81_first_step_not_protected`, `C82_jump_publishes_estimate`, `C82_pitch_90_refuted`, `C82_transform_gives_pose`, `C83_every_skip_th_measures`, `C83_negative_never_measures`, `C83_other_clouds_are_silent`, `C83_zero_is_undefined`, `C84_every_point_has_an_origin`, `C85_stamp_range`, `C85_tolerance_range`, `C86_computed_entropy_stays`, `C86_uninitialised_entropy_refuted`, `C87_overflow_destroys_weights`, `C88_covariance_psd`, `C88_deviations`, `C88_wrap_terminates`, `C90_configured_searches_are_complete`, `C90_defaults_meet_conditions`, `C90_unmatched_output_refuted`, `C92_latest_clouds_exactly_once`, `C92_no_cloud_is_used_twice`, `C92_success_is_reported`, `C93_dda_casts_with_every_representable_map`, `C93_kdtree_casts_with_every_map`, `C93_node_never_fails`, `C94_particles_stay_usable`, `C95_covariance_sample`, `C95_localization_step`, `C96_localization_shows_prior_particles`, `C96_match_ratio_is_the_best`, `C96_other_events_show_new_particles`, `C97_matched_and_unmatched`, `C97_report_rate`, `C98_collected_points`, `C99_landmark`, `C99_no_difference`, `C99_selection`, `C100_automatic_expansion_removes_noise`, `C100_expansion_removes_noise`, `C100_initially_noiseless`, `C100_noiseless_until_localization`, `C101_density`, `C101_float_coefficient`, `C101_independent`, `C101_landmark`, `C101_shape`, `C101_singular_covariance`, `C102_initial_pose`, `C103_first_step_prefers_origin`, `C103_initial_error`, `C104_markers`, `C104_node`, `C104_same_casts`, `C105_initial_pose`, `C105_points_and_origins`, `C106_agreeing_particle_loses`, `C106_fake_imu_ignores_tilt`, `C107_dead_reckoning`, `C107_exact_estimate`, `C107_from_start`, `C107_published_particles`, `C107_start`, `C107_without_time_jumps`, `C108_published_particles`, `C108_start`, `C108_true_pose_is_kept`, `C109_expansion_answer_refuted`, `C109_service_answers`, `C110_publications`, `C111_fake_acceleration_refuted`, `C111_fake_imu`, `C111_fake_odom`, `C112_published_transform`, `C112_steady`, `C114_points_lost`, `C114_stamps`, `C115_convergence`, `C115_default_never_warns`, `C115_latest_thresholds`, `C115_start`, `C115_transparent`, `C115_values`, `C117_parameters`, `C117_steps`, `C118_never_fails`, `C118_points`, `C118_points_not_found`, `C118_refines`, `C119_only_the_first_particles`, `C120_engine`, `C120_engine_untouched`, `C120_points_drawn`, `C120_weighted_sampler`, `C121_mean_preserved`, `C121_unbiased`, `C122_started_node_never_fails`, `C123_close_to_documented`, `C123_closer_is_better`, `C123_nan_distance`, `C123_particle_likelihood`, `C123_same_code`, `C123_score_and_ratio`, `C123_weights_stay_usable`, `C124_edge_of_the_radius_refuted`, `C124_nothing_is_invented`, `C124_nothing_near_is_missed`, `C124_own_chunk`, `C125_bounded_deviation`, `C125_effect`, `C125_sign_of_quaternion_refuted`, `C125_slow_turn_refuted`, `C125_standing_still`, `C125_straight_line`, `C126_exact_is_the_model`, `C126_never_drifts`, `C126_normalize`, `C126_normalize_everywhere_refuted`, `C126_product`, `C126_tracks_exact`, `C126_zero_orientation_poisons`, `C127_gravity`, `C127_mean`, `C127_odometry_frame`, `C127_operations`, `C127_shift_covariance`, `C127_shift_estimate`, `C128_beam_points`, `C128_covariance`, `C128_estimates`, `C128_measure`, `C128_predict_bias`, `C128_resample_depends_on_the_order`, `C129_buffer_grows`, `C129_never_measures`, `C130_constant_never_drifts`, `C130_constant_unchanged_refuted`, `C130_settles`, `C130_stays_in_range`, `C130_tracks`, `C130_vector_tracks`, `C131_clip`, `C131_not_finite`, `C132_rotation`, `C132_stays_rigid`, `C132_transform`

