{
 "claims": [
  {
   "property": "C01",
   "status": "proved",
   "theorems": [
    "C01_float_bayes",
    "C01_bayes"
   ],
   "note": "arithmetic: reals; IEEE binary32 (Flocq)."
  },
  {
   "property": "C02",
   "status": "proved",
   "theorems": [
    "C02_noop",
    "C02_nan_likelihood"
   ],
   "note": "arithmetic: any arithmetic (no laws), hence also IEEE with NaN/inf; IEEE binary32 (Flocq)."
  },
  {
   "property": "C03",
   "status": "proved",
   "theorems": [
    "C03_weights_add_up_to_one",
    "C03_weights_in_unit_interval"
   ],
   "note": "arithmetic: IEEE binary32 (Flocq)."
  },
  {
   "property": "C04",
   "status": "proved",
   "theorems": [
    "C04_entropy",
    "C04_extremes"
   ],
   "note": "arithmetic: reals."
  },
  {
   "property": "C05",
   "status": "proved",
   "theorems": [
    "C05_resample_shape"
   ],
   "note": "arithmetic: any arithmetic (no laws), hence also IEEE with NaN/inf."
  },
  {
   "property": "C06",
   "status": "proved",
   "theorems": [
    "C06_low_variance"
   ],
   "note": "arithmetic: reals."
  },
  {
   "property": "C07",
   "status": "proved",
   "theorems": [
    "C07_dead_not_selected",
    "C07_unstable_sort_selects_dead_refuted",
    "C07_zero_offset_selects_dead_refuted"
   ],
   "note": "arithmetic: reals. the positive half needs ties kept in order and a positive offset; the two _refuted theorems show that both side conditions are needed."
  },
  {
   "property": "C08",
   "status": "proved",
   "theorems": [
    "C08_only_repeats_perturbed",
    "C08_first_copy_is_perturbed"
   ],
   "note": "arithmetic: reals. for every legal sort outcome; C05 gives the weaker shape in any arithmetic."
  },
  {
   "property": "C09",
   "status": "proved",
   "theorems": [
    "C09_resize_shape",
    "C09_resize_low_variance",
    "C09_resize_empty_is_undefined",
    "C09_resize_to_zero_empties"
   ],
   "note": "arithmetic: any arithmetic (no laws), hence also IEEE with NaN/inf; reals for the counts."
  },
  {
   "property": "C10",
   "status": "proved",
   "theorems": [
    "C10_expectation",
    "C10_convex",
    "C10_order_independent",
    "C10_biased"
   ],
   "note": "arithmetic: reals. vector-valued states (ParticleWeightedMean); the quaternion mean of State6DOF is C51."
  },
  {
   "property": "C11",
   "status": "proved",
   "theorems": [
    "C11_undefined_before_resample",
    "C11_most_probable_refuted",
    "C11_prefix"
   ],
   "note": "arithmetic: reals. the claim a user would expect is refuted: undefined before the first resample, wrong selection afterwards."
  },
  {
   "property": "C12",
   "status": "proved",
   "theorems": [
    "C12_symmetric",
    "C12_defined",
    "C12_entries",
    "C12_positive_semidefinite",
    "C12_all_particles",
    "C12_empty_sample_is_nan"
   ],
   "note": "arithmetic: any arithmetic (no laws), hence also IEEE with NaN/inf; reals; IEEE binary32 (Flocq)."
  },
  {
   "property": "C13",
   "status": "proved",
   "theorems": [
    "C13_max",
    "C13_max_biased",
    "C13_empty_is_undefined"
   ],
   "note": "arithmetic: any arithmetic (no laws), hence also IEEE with NaN/inf; reals."
  },
  {
   "property": "C14",
   "status": "proved",
   "theorems": [
    "C14_predict",
    "C14_bias",
    "C14_noise",
    "C14_append"
   ],
   "note": "arithmetic: any arithmetic (no laws), hence also IEEE with NaN/inf."
  },
  {
   "property": "C15",
   "status": "proved",
   "theorems": [
    "C15_float_distribution",
    "C15_stays_distribution"
   ],
   "note": "arithmetic: reals; IEEE binary32 (Flocq)."
  },
  {
   "property": "C16",
   "status": "proved",
   "theorems": [
    "C16_process_sees"
   ],
   "note": "arithmetic: discrete (no arithmetic)."
  },
  {
   "property": "C17",
   "status": "proved",
   "theorems": [
    "C17_conservation",
    "C17_dropped_only_on_failure_or_reset"
   ],
   "note": "arithmetic: discrete (no arithmetic)."
  },
  {
   "property": "C18",
   "status": "proved",
   "theorems": [
    "C18_bounded"
   ],
   "note": "arithmetic: discrete (no arithmetic)."
  },
  {
   "property": "C19",
   "status": "proved",
   "theorems": [
    "C19_composition"
   ],
   "note": "arithmetic: discrete (no arithmetic)."
  },
  {
   "property": "C20",
   "status": "proved",
   "theorems": [
    "C20_progress",
    "C20_single_sensor"
   ],
   "note": "arithmetic: discrete (no arithmetic)."
  },
  {
   "property": "C21",
   "status": "proved",
   "theorems": [
    "C21_failed_cloud"
   ],
   "note": "arithmetic: discrete (no arithmetic)."
  },
  {
   "property": "C22",
   "status": "proved",
   "theorems": [
    "C22_pass_through",
    "C22_buffer_is_the_last_cloud"
   ],
   "note": "arithmetic: discrete (no arithmetic)."
  },
  {
   "property": "C23",
   "status": "proved",
   "theorems": [
    "C23_positive_limit_is_safe",
    "C23_zero_limit_is_undefined"
   ],
   "note": "arithmetic: discrete (no arithmetic)."
  },
  {
   "property": "C24",
   "status": "proved",
   "theorems": [
    "C24_metric",
    "C24_misses_nothing",
    "C24_nearest"
   ],
   "note": "arithmetic: reals."
  },
  {
   "property": "C25",
   "status": "proved",
   "theorems": [
    "C25_ids_are_cloud_ids",
    "C25_remap_defined"
   ],
   "note": "arithmetic: reals."
  },
  {
   "property": "C26",
   "status": "proved",
   "theorems": [
    "C26_equals_whole_cloud",
    "C26_count"
   ],
   "note": "arithmetic: reals."
  },
  {
   "property": "C27",
   "status": "proved",
   "theorems": [
    "C27_throws_iff",
    "C27_guard_insufficient_refuted"
   ],
   "note": "arithmetic: reals."
  },
  {
   "property": "C28",
   "status": "proved",
   "theorems": [
    "C28_no_memory",
    "C28_before_load"
   ],
   "note": "arithmetic: discrete (no arithmetic)."
  },
  {
   "property": "C29",
   "status": "proved",
   "theorems": [
    "C29_small_weight_refuted"
   ],
   "note": "arithmetic: reals."
  },
  {
   "property": "C30",
   "status": "proved",
   "theorems": [
    "C30_map_history",
    "C30_updates_accumulate",
    "C30_latest_only_refuted"
   ],
   "note": "arithmetic: reals. the claim \"latest update only\" is refuted: pc_map2_ aliases pc_map_, so updates accumulate (proved)."
  },
  {
   "property": "C31",
   "status": "proved",
   "theorems": [
    "C31_search_and_published_agree",
    "C31_no_null_dereference"
   ],
   "note": "arithmetic: reals."
  },
  {
   "property": "C32",
   "status": "proved",
   "theorems": [
    "C32_pending_update_dropped"
   ],
   "note": "arithmetic: reals."
  },
  {
   "property": "C33",
   "status": "proved",
   "theorems": [
    "C33_no_localization_without_map",
    "C33_only_the_status_message",
    "C33_map_loaded_iff"
   ],
   "note": "arithmetic: reals."
  },
  {
   "property": "C34",
   "status": "proved",
   "theorems": [
    "C34_constant_passes",
    "C34_vec3_componentwise"
   ],
   "note": "arithmetic: reals."
  },
  {
   "property": "C35",
   "status": "proved",
   "theorems": [
    "C35_geometric",
    "C35_converges",
    "C35_error_monotone",
    "C35_angle_converges"
   ],
   "note": "arithmetic: reals."
  },
  {
   "property": "C36",
   "status": "proved",
   "theorems": [
    "C36_no_overshoot",
    "C36_short_time_constant_refuted"
   ],
   "note": "arithmetic: reals."
  },
  {
   "property": "C37",
   "status": "proved",
   "theorems": [
    "C37_full_turns",
    "C37_nearest_representative",
    "C37_tie_refuted"
   ],
   "note": "arithmetic: reals."
  },
  {
   "property": "C38",
   "status": "proved",
   "theorems": [
    "C38_geometric",
    "C38_rejects_constants"
   ],
   "note": "arithmetic: reals."
  },
  {
   "property": "C39",
   "status": "proved",
   "theorems": [
    "C39_algebra",
    "C39_not_commutative"
   ],
   "note": "arithmetic: reals."
  },
  {
   "property": "C40",
   "status": "proved",
   "theorems": [
    "C40_rigid",
    "C40_composition",
    "C40_non_unit_scales",
    "C40_double_cover"
   ],
   "note": "arithmetic: reals."
  },
  {
   "property": "C41",
   "status": "proved",
   "theorems": [
    "C41_set_is_yaw_pitch_roll",
    "C41_elementary",
    "C41_get_after_set",
    "C41_set_after_get",
    "C41_ranges",
    "C41_gimbal_lock_loses_heading"
   ],
   "note": "arithmetic: reals."
  },
  {
   "property": "C42",
   "status": "proved",
   "theorems": [
    "C42_set_is_rotation",
    "C42_round_trip",
    "C42_cut_off",
    "C42_weighted"
   ],
   "note": "arithmetic: reals."
  },
  {
   "property": "C43",
   "status": "proved",
   "theorems": [
    "C43_restores",
    "C43_general",
    "C43_half_turn_refuted"
   ],
   "note": "arithmetic: reals."
  },
  {
   "property": "C44",
   "status": "proved",
   "theorems": [
    "C44_difference_then_sum",
    "C44_other_order_position",
    "C44_other_order_rotation_refuted"
   ],
   "note": "arithmetic: reals."
  },
  {
   "property": "C45",
   "status": "proved",
   "theorems": [
    "C45_transform_rigid"
   ],
   "note": "arithmetic: reals."
  },
  {
   "property": "C46",
   "status": "proved",
   "theorems": [
    "C46_generator_returns_mean",
    "C46_zero_noise_is_neutral",
    "C46_resample_with_zero_sigma",
    "C46_noise_with_zero_sigma",
    "C46_mean_position_becomes_error"
   ],
   "note": "arithmetic: reals."
  },
  {
   "property": "C47",
   "status": "proved",
   "theorems": [
    "C47_prediction_composes",
    "C47_rigid_motions_form_a_group"
   ],
   "note": "arithmetic: reals."
  },
  {
   "property": "C48",
   "status": "proved",
   "theorems": [
    "C48_predictions_telescope"
   ],
   "note": "arithmetic: reals."
  },
  {
   "property": "C49",
   "status": "proved",
   "theorems": [
    "C49_rotation_stays_unit",
    "C49_for_every_chain"
   ],
   "note": "arithmetic: reals."
  },
  {
   "property": "C50",
   "status": "proved",
   "theorems": [
    "C50_never_grows",
    "C50_vanishes",
    "C50_long_gaps_diverge_refuted"
   ],
   "note": "arithmetic: reals."
  },
  {
   "property": "C51",
   "status": "proved",
   "theorems": [
    "C51_mean_of_agreeing_particles",
    "C51_biased_mean_of_agreeing_particles"
   ],
   "note": "arithmetic: reals."
  },
  {
   "property": "C52",
   "status": "proved",
   "theorems": [
    "C52_no_access_outside",
    "C52_grid_built_iff",
    "C52_empty_map_undefined",
    "C52_distinct_voxels_distinct_cells",
    "C52_ieee_roundings",
    "C52_overflow_refuted"
   ],
   "note": "arithmetic: reals; IEEE binary32 (Flocq). the conversion of a huge float index to int is refuted separately (overflow_refuted)."
  },
  {
   "property": "C53",
   "status": "proved",
   "theorems": [
    "C53_terminates",
    "C53_outside_start"
   ],
   "note": "arithmetic: reals."
  },
  {
   "property": "C54",
   "status": "proved",
   "theorems": [
    "C54_chain_along_ray",
    "C54_never_passes_end",
    "C54_tie_refuted",
    "C54_below_map_refuted"
   ],
   "note": "arithmetic: reals."
  },
  {
   "property": "C55",
   "status": "proved",
   "theorems": [
    "C55_collision_criterion",
    "C55_z_grid_ignored"
   ],
   "note": "arithmetic: reals."
  },
  {
   "property": "C56",
   "status": "proved",
   "theorems": [
    "C56_grid_is_current",
    "C56_equal_stamp_refuted"
   ],
   "note": "arithmetic: reals."
  },
  {
   "property": "C57",
   "status": "proved",
   "theorems": [
    "C57_uniform_samples"
   ],
   "note": "arithmetic: reals."
  },
  {
   "property": "C58",
   "status": "proved",
   "theorems": [
    "C58_incidence",
    "C58_incidence_exact",
    "C58_collision_iff_near",
    "C58_sine_in_range",
    "C58_weighted_sine_refuted",
    "C58_radii_in_range",
    "C58_search_exists"
   ],
   "note": "arithmetic: reals."
  },
  {
   "property": "C59",
   "status": "proved",
   "theorems": [
    "C59_beam_status",
    "C59_status_unambiguous",
    "C59_dda_beam",
    "C59_kdtree_beam"
   ],
   "note": "arithmetic: reals."
  },
  {
   "property": "C60",
   "status": "proved",
   "theorems": [
    "C60_beam_likelihood",
    "C60_law",
    "C60_zero_alpha",
    "C60_binary32_range",
    "C60_no_points"
   ],
   "note": "arithmetic: reals; IEEE binary32 (Flocq)."
  },
  {
   "property": "C61",
   "status": "proved",
   "theorems": [
    "C61_law_with_default_beams",
    "C61_reduced_beams_refuted"
   ],
   "note": "arithmetic: reals."
  },
  {
   "property": "C62",
   "status": "proved",
   "theorems": [
    "C62_score",
    "C62_exact_score",
    "C62_sum_laws",
    "C62_empty_map"
   ],
   "note": "arithmetic: reals."
  },
  {
   "property": "C63",
   "status": "proved",
   "theorems": [
    "C63_ratio_in_range",
    "C63_exact_ratio",
    "C63_no_points"
   ],
   "note": "arithmetic: reals."
  },
  {
   "property": "C64",
   "status": "proved",
   "theorems": [
    "C64_clip",
    "C64_unambiguous",
    "C64_nan_is_kept"
   ],
   "note": "arithmetic: any arithmetic (no laws), hence also IEEE with NaN/inf."
  },
  {
   "property": "C65",
   "status": "proved",
   "theorems": [
    "C65_budget",
    "C65_work_bound",
    "C65_monotone",
    "C65_initial_budget"
   ],
   "note": "arithmetic: reals."
  },
  {
   "property": "C66",
   "status": "proved",
   "theorems": [
    "C66_uniform",
    "C66_empty"
   ],
   "note": "arithmetic: discrete (no arithmetic)."
  },
  {
   "property": "C67",
   "status": "proved",
   "theorems": [
    "C67_distinct_points",
    "C67_small_cloud",
    "C67_weights",
    "C67_terminates",
    "C67_zero_spread_eigenvalues",
    "C67_zero_spread_diverges_refuted"
   ],
   "note": "arithmetic: reals."
  },
  {
   "property": "C68",
   "status": "proved",
   "theorems": [
    "C68_nonnegative_covariance",
    "C68_mirrored",
    "C68_wrong_direction_refuted",
    "C68_robot_frame"
   ],
   "note": "arithmetic: reals."
  },
  {
   "property": "C69",
   "status": "proved",
   "theorems": [
    "C69_float_density",
    "C69_density",
    "C69_shape",
    "C69_zero_sigma_is_nan"
   ],
   "note": "arithmetic: reals; IEEE binary32 (Flocq)."
  },
  {
   "property": "C70",
   "status": "proved",
   "theorems": [
    "C70_float_cosine",
    "C70_float_above_one_only_aligned",
    "C70_float_far_particles_are_safe",
    "C70_argument_range",
    "C70_depends_on_angle",
    "C70_yaw_invariant",
    "C70_best_when_aligned",
    "C70_argument_above_one_refuted",
    "C70_nan_drops_update"
   ],
   "note": "arithmetic: reals; IEEE binary32 (Flocq)."
  },
  {
   "property": "C71",
   "status": "proved",
   "theorems": [
    "C71_rename",
    "C71_non_numeric_refuted",
    "C71_deprecated_name_takes_effect",
    "C71_new_name_wins"
   ],
   "note": "arithmetic: discrete (no arithmetic)."
  },
  {
   "property": "C72",
   "status": "proved",
   "theorems": [
    "C72_fails_iff_both_fake",
    "C72_grid_bounds",
    "C72_dda_voxels_not_smaller_than_grid"
   ],
   "note": "arithmetic: reals."
  },
  {
   "property": "C73",
   "status": "proved",
   "theorems": [
    "C73_levels",
    "C73_default_level",
    "C73_names"
   ],
   "note": "arithmetic: discrete (no arithmetic)."
  },
  {
   "property": "C74",
   "status": "proved",
   "theorems": [
    "C74_success_iff",
    "C74_failure_changes_nothing",
    "C74_points",
    "C74_value_unique",
    "C74_double_coordinates_refuted",
    "C74_reused_output_keeps_stale_fields"
   ],
   "note": "arithmetic: discrete (no arithmetic)."
  },
  {
   "property": "C75",
   "status": "proved",
   "theorems": [
    "C75_applied_displacements",
    "C75_telescopes",
    "C75_close_message_is_merged",
    "C75_time_jump_reinitialises"
   ],
   "note": "arithmetic: reals."
  },
  {
   "property": "C76",
   "status": "proved",
   "theorems": [
    "C76_when_applied",
    "C76_stream"
   ],
   "note": "arithmetic: reals."
  },
  {
   "property": "C77",
   "status": "proved",
   "theorems": [
    "C77_rejected",
    "C77_accepted",
    "C77_nan_passes_refuted",
    "C77_infinity_is_discarded"
   ],
   "note": "arithmetic: reals."
  },
  {
   "property": "C78",
   "status": "proved",
   "theorems": [
    "C78_kept_cells",
    "C78_some_cell_is_kept",
    "C78_one_particle_per_cell_and_heading",
    "C78_small_weight_refuted"
   ],
   "note": "arithmetic: reals."
  },
  {
   "property": "C79",
   "status": "proved",
   "theorems": [
    "C79_one_step",
    "C79_history",
    "C79_returns",
    "C79_count_returns"
   ],
   "note": "arithmetic: reals."
  },
  {
   "property": "C80",
   "status": "proved",
   "theorems": [
    "C80_status_window"
   ],
   "note": "arithmetic: reals."
  },
  {
   "property": "C81",
   "status": "proved",
   "theorems": [
    "C81_convergence",
    "C81_diagnostics",
    "C81_first_step_not_protected"
   ],
   "note": "arithmetic: reals."
  },
  {
   "property": "C82",
   "status": "proved",
   "theorems": [
    "C82_transform_gives_pose",
    "C82_jump_publishes_estimate",
    "C82_pitch_90_refuted"
   ],
   "note": "arithmetic: reals."
  },
  {
   "property": "C83",
   "status": "proved",
   "theorems": [
    "C83_every_skip_th_measures",
    "C83_other_clouds_are_silent",
    "C83_zero_is_undefined",
    "C83_one_in_every_skip",
    "C83_negative_never_measures"
   ],
   "note": "arithmetic: reals."
  },
  {
   "property": "C84",
   "status": "proved",
   "theorems": [
    "C84_every_point_has_an_origin"
   ],
   "note": "arithmetic: reals."
  },
  {
   "property": "C85",
   "status": "proved",
   "theorems": [
    "C85_tolerance_range",
    "C85_stamp_range"
   ],
   "note": "arithmetic: reals."
  },
  {
   "property": "C86",
   "status": "proved",
   "theorems": [
    "C86_computed_entropy_stays",
    "C86_uninitialised_entropy_refuted"
   ],
   "note": "arithmetic: reals."
  },
  {
   "property": "C87",
   "status": "proved",
   "theorems": [
    "C87_overflow_destroys_weights"
   ],
   "note": "arithmetic: IEEE binary32 (Flocq)."
  },
  {
   "property": "C88",
   "status": "proved",
   "theorems": [
    "C88_deviations",
    "C88_wrap_terminates",
    "C88_covariance_psd"
   ],
   "note": "arithmetic: reals."
  },
  {
   "property": "C89",
   "status": "proved",
   "theorems": [
    "C89_no_voxel_skipped"
   ],
   "note": "arithmetic: reals."
  },
  {
   "property": "C90",
   "status": "proved",
   "theorems": [
    "C90_configured_searches_are_complete",
    "C90_defaults_meet_conditions",
    "C90_unmatched_output_refuted"
   ],
   "note": "arithmetic: reals."
  },
  {
   "property": "C91",
   "status": "proved",
   "theorems": [
    "C91_headings"
   ],
   "note": "arithmetic: reals."
  },
  {
   "property": "C92",
   "status": "proved",
   "theorems": [
    "C92_latest_clouds_exactly_once",
    "C92_no_cloud_is_used_twice",
    "C92_success_is_reported"
   ],
   "note": "arithmetic: reals."
  },
  {
   "property": "C93",
   "status": "proved",
   "theorems": [
    "C93_node_never_fails",
    "C93_kdtree_casts_with_every_map",
    "C93_dda_state_survives_newer_maps",
    "C93_dda_casts_with_every_representable_map"
   ],
   "note": "arithmetic: reals. \"legal\" is NodeAliveSpec.legal: what a message, a map and the oracles must satisfy; it is listed there clause by clause."
  },
  {
   "property": "C94",
   "status": "proved",
   "theorems": [
    "C94_particles_stay_usable"
   ],
   "note": "arithmetic: reals."
  },
  {
   "property": "C95",
   "status": "proved",
   "theorems": [
    "C95_localization_step",
    "C95_covariance_sample"
   ],
   "note": "arithmetic: reals."
  },
  {
   "property": "C96",
   "status": "proved",
   "theorems": [
    "C96_localization_shows_prior_particles",
    "C96_other_events_show_new_particles",
    "C96_match_ratio_is_the_best"
   ],
   "note": "arithmetic: reals."
  },
  {
   "property": "C97",
   "status": "proved",
   "theorems": [
    "C97_report_rate",
    "C97_matched_and_unmatched"
   ],
   "note": "arithmetic: reals."
  },
  {
   "property": "C98",
   "status": "proved",
   "theorems": [
    "C98_collected_points"
   ],
   "note": "arithmetic: reals."
  },
  {
   "property": "C99",
   "status": "proved",
   "theorems": [
    "C99_landmark",
    "C99_no_difference",
    "C99_selection"
   ],
   "note": "arithmetic: reals."
  },
  {
   "property": "C100",
   "status": "proved",
   "theorems": [
    "C100_expansion_removes_noise",
    "C100_automatic_expansion_removes_noise",
    "C100_noiseless_until_localization",
    "C100_initially_noiseless",
    "C100_built_poses"
   ],
   "note": "arithmetic: reals."
  },
  {
   "property": "C101",
   "status": "proved",
   "theorems": [
    "C101_float_coefficient",
    "C101_determinant",
    "C101_density",
    "C101_independent",
    "C101_shape",
    "C101_singular_covariance",
    "C101_landmark"
   ],
   "note": "arithmetic: reals; IEEE binary32 (Flocq) for the singular case and the coefficient."
  },
  {
   "property": "C102",
   "status": "proved",
   "theorems": [
    "C102_mean_and_covariance",
    "C102_no_covariance",
    "C102_flat_direction",
    "C102_initial_pose"
   ],
   "note": "arithmetic: reals."
  },
  {
   "property": "C103",
   "status": "proved",
   "theorems": [
    "C103_initial_error",
    "C103_first_step_prefers_origin"
   ],
   "note": "arithmetic: reals."
  },
  {
   "property": "C104",
   "status": "proved",
   "theorems": [
    "C104_markers",
    "C104_same_casts",
    "C104_node"
   ],
   "note": "arithmetic: reals."
  },
  {
   "property": "C105",
   "status": "proved",
   "theorems": [
    "C105_points_and_origins",
    "C105_initial_pose"
   ],
   "note": "arithmetic: reals. orientation of an initial pose: for unit quaternions."
  },
  {
   "property": "C106",
   "status": "proved",
   "theorems": [
    "C106_fake_imu_ignores_tilt",
    "C106_agreeing_particle_loses"
   ],
   "note": "arithmetic: reals. the property states a defect."
  },
  {
   "property": "C107",
   "status": "proved",
   "theorems": [
    "C107_dead_reckoning",
    "C107_published_particles",
    "C107_without_time_jumps",
    "C107_exact_estimate",
    "C107_start",
    "C107_from_start"
   ],
   "note": "arithmetic: reals. odometry orientations are unit quaternions; fake_odom off; std::sort sorts (C09)."
  },
  {
   "property": "C108",
   "status": "proved",
   "theorems": [
    "C108_true_pose_is_kept",
    "C108_published_particles",
    "C108_start"
   ],
   "note": "arithmetic: reals. only the sensor noise free case; a sort that may reorder sorted lists could lose it (C07)."
  },
  {
   "property": "C109",
   "status": "proved",
   "theorems": [
    "C109_service_answers",
    "C109_expansion_answer_refuted"
   ],
   "note": "arithmetic: reals."
  },
  {
   "property": "C110",
   "status": "proved",
   "theorems": [
    "C110_publications"
   ],
   "note": "arithmetic: reals."
  },
  {
   "property": "C111",
   "status": "proved",
   "theorems": [
    "C111_fake_imu",
    "C111_fake_odom",
    "C111_fake_acceleration_refuted"
   ],
   "note": "arithmetic: reals; exact real arithmetic for the wrong tilt. the property states a defect."
  },
  {
   "property": "C112",
   "status": "proved",
   "theorems": [
    "C112_published_transform",
    "C112_no_overshoot",
    "C112_steady",
    "C112_first_correction_refuted"
   ],
   "note": "arithmetic: reals. the published orientation is characterised by its roll, pitch and yaw filters."
  },
  {
   "property": "C113",
   "status": "proved",
   "theorems": [
    "C113_startup",
    "C113_interface",
    "C113_queue_sizes",
    "C113_names_distinct",
    "C113_every_event_handled_once",
    "C113_one_real_sensor"
   ],
   "note": "arithmetic: no arithmetic. remapping of names is not modelled."
  },
  {
   "property": "C114",
   "status": "proved",
   "theorems": [
    "C114_stamps",
    "C114_points_lost"
   ],
   "note": "arithmetic: reals."
  },
  {
   "property": "C115",
   "status": "proved",
   "theorems": [
    "C115_transparent",
    "C115_latest_thresholds",
    "C115_values",
    "C115_start",
    "C115_convergence",
    "C115_default_never_warns"
   ],
   "note": "arithmetic: reals. the library dynamic_reconfigure is modelled by its documented behaviour; narrowing the default (DBL_MAX) to float is out of range and formally undefined in C++, hence the hypothesis on rf."
  },
  {
   "property": "C116",
   "status": "proved",
   "theorems": [
    "C116_conversions",
    "C116_negative_counts",
    "C116_heading_count_rounding",
    "C116_settings",
    "C116_other_settings",
    "C116_names_distinct",
    "C116_own_setting",
    "C116_unknown_ignored",
    "C116_documented_defaults"
   ],
   "note": "arithmetic: real numbers; floats through an arbitrary rounding."
  },
  {
   "property": "C117",
   "status": "proved",
   "theorems": [
    "C117_steps",
    "C117_parameters"
   ],
   "note": "arithmetic: reals. std::sort is a function of the weights (blind)."
  },
  {
   "property": "C118",
   "status": "proved",
   "theorems": [
    "C118_refines",
    "C118_never_fails",
    "C118_points",
    "C118_points_not_found"
   ],
   "note": "arithmetic: reals. the eigen solver and the distributions of the standard library are oracles."
  },
  {
   "property": "C119",
   "status": "proved",
   "theorems": [
    "C119_only_the_first_particles"
   ],
   "note": "arithmetic: reals."
  },
  {
   "property": "C120",
   "status": "proved",
   "theorems": [
    "C120_points_drawn",
    "C120_engine",
    "C120_engine_untouched",
    "C120_weighted_sampler",
    "C120_uniform_sampler"
   ],
   "note": "arithmetic: reals. a second eigenvalue of 0 divides by zero: see C67_zero_spread_diverges_refuted for the float behaviour."
  },
  {
   "property": "C121",
   "status": "proved",
   "theorems": [
    "C121_unbiased",
    "C121_mean_preserved"
   ],
   "note": "arithmetic: reals. the mean is over the uniform distribution on the open range; real arithmetic."
  },
  {
   "property": "C122",
   "status": "proved",
   "theorems": [
    "C122_started_node_never_fails",
    "C122_defaults_run"
   ],
   "note": "arithmetic: real numbers; floats through an arbitrary rounding."
  },
  {
   "property": "C123",
   "status": "proved",
   "theorems": [
    "C123_same_code",
    "C123_score_and_ratio",
    "C123_closer_is_better",
    "C123_close_to_documented",
    "C123_nan_distance",
    "C123_particle_likelihood",
    "C123_weights_stay_usable"
   ],
   "note": "arithmetic: binary32 (Flocq), round to nearest even. the searches and the transformation of the points are inputs (their float results)."
  },
  {
   "property": "C124",
   "status": "proved",
   "theorems": [
    "C124_nothing_near_is_missed",
    "C124_nothing_is_invented",
    "C124_own_chunk",
    "C124_edge_of_the_radius_refuted"
   ],
   "note": "arithmetic: binary32 (Flocq), round to nearest even. the kd-tree inside a chunk is the library; conversions outside the int range are excluded by the bound on the coordinates."
  },
  {
   "property": "C125",
   "status": "proved",
   "theorems": [
    "C125_effect",
    "C125_bounded_deviation",
    "C125_standing_still",
    "C125_slow_turn_refuted",
    "C125_straight_line",
    "C125_sign_of_quaternion_refuted"
   ],
   "note": "arithmetic: real arithmetic."
  },
  {
   "property": "C126",
   "status": "proved",
   "theorems": [
    "C126_tracks_exact",
    "C126_exact_is_the_model",
    "C126_normalize",
    "C126_product",
    "C126_never_drifts",
    "C126_zero_orientation_poisons",
    "C126_normalize_everywhere_refuted"
   ],
   "note": "arithmetic: binary32. sinf/cosf are parameters."
  },
  {
   "property": "C127",
   "status": "proved",
   "theorems": [
    "C127_filter",
    "C127_same_schedules",
    "C127_operations",
    "C127_shift_keeps_noise",
    "C127_odometry_frame",
    "C127_mean",
    "C127_shift_estimate",
    "C127_shift_covariance",
    "C127_likelihood",
    "C127_likelihood_band",
    "C127_gravity"
   ],
   "note": "arithmetic: any arithmetic for the filter, R for poses and scores. the beam model is not covered: its rays are quantized by the grid of the map, so a turn changes them."
  },
  {
   "property": "C128",
   "status": "proved",
   "theorems": [
    "C128_measure",
    "C128_predict_bias",
    "C128_estimates",
    "C128_covariance",
    "C128_resample_depends_on_the_order",
    "C128_likelihood_points",
    "C128_beam_points",
    "C128_map_points"
   ],
   "note": "arithmetic: R. in floating point sums depend on the order: C101/C69-style bounds (IeeeErrProps) limit by how much."
  },
  {
   "property": "C129",
   "status": "proved",
   "theorems": [
    "C129_never_measures",
    "C129_buffer_grows"
   ],
   "note": "arithmetic: exact integers."
  },
  {
   "property": "C130",
   "status": "proved",
   "theorems": [
    "C130_tracks",
    "C130_stays_in_range",
    "C130_constant_never_drifts",
    "C130_vector_tracks",
    "C130_settles",
    "C130_constant_unchanged_refuted"
   ],
   "note": "arithmetic: binary32 with the double literals of the source, against R. asserts of filter.h shown never to fail in this range."
  },
  {
   "property": "C131",
   "status": "proved",
   "theorems": [
    "C131_clip",
    "C131_band",
    "C131_not_finite"
   ],
   "note": "arithmetic: binary32."
  },
  {
   "property": "C132",
   "status": "proved",
   "theorems": [
    "C132_transform",
    "C132_rotation",
    "C132_stays_rigid"
   ],
   "note": "arithmetic: binary32 against R."
  }
 ]
}