{
 "claims": [
  {
   "property": "C01",
   "status": "proved",
   "theorems": [
    "C01_integrate_memory_safety"
   ],
   "note": ""
  },
  {
   "property": "C02",
   "status": "proved",
   "theorems": [
    "C02_trapz_is_integral_of_interpolant"
   ],
   "note": ""
  },
  {
   "property": "C03",
   "status": "proved",
   "theorems": [
    "C03_trapz_paths_agree_on_uniform_grid"
   ],
   "note": ""
  },
  {
   "property": "C04",
   "status": "proved",
   "theorems": [
    "C04_simpson_exact_on_cubics"
   ],
   "note": ""
  },
  {
   "property": "C05",
   "status": "proved",
   "theorems": [
    "C05_simpson_fallback_is_trapz"
   ],
   "note": ""
  },
  {
   "property": "C06",
   "status": "proved",
   "theorems": [
    "C06_threads_do_not_matter"
   ],
   "note": ""
  },
  {
   "property": "C07",
   "status": "proved",
   "theorems": [
    "C07_parallel_trapz_any_schedule",
    "C07_parallel_simpson_any_schedule",
    "C07_parallel_trapz_unequal_race_refuted"
   ],
   "note": ""
  },
  {
   "property": "C08",
   "status": "proved",
   "theorems": [
    "C08_method_meaning_is_history_independent"
   ],
   "note": ""
  },
  {
   "property": "C09",
   "status": "proved",
   "theorems": [
    "C09_integrate_linear",
    "C09_integrate_additive"
   ],
   "note": ""
  },
  {
   "property": "C10",
   "status": "proved",
   "theorems": [
    "C10_equally_spaced_flag_wrong_on_chebyshev_grid"
   ],
   "note": ""
  },
  {
   "property": "C11",
   "status": "proved",
   "theorems": [
    "C11_limb_darkening_elementwise"
   ],
   "note": ""
  },
  {
   "property": "C12",
   "status": "proved",
   "theorems": [
    "C12_in_place_limb_darkening_applied_twice",
    "C12_in_place_equals_law_refuted"
   ],
   "note": ""
  },
  {
   "property": "C13",
   "status": "proved",
   "theorems": [
    "C13_unknown_limb_darkening_is_eddington"
   ],
   "note": ""
  },
  {
   "property": "C14",
   "status": "proved",
   "theorems": [
    "C14_disc_integrals_keep_visible_points"
   ],
   "note": ""
  },
  {
   "property": "C15",
   "status": "proved",
   "theorems": [
    "C15_disc_integral_formulas_any_arithmetic"
   ],
   "note": ""
  },
  {
   "property": "C16",
   "status": "proved",
   "theorems": [
    "C16_disc_integrals_on_uniform_points",
    "C16_disc_integral_nonuniform_refuted"
   ],
   "note": ""
  },
  {
   "property": "C17",
   "status": "proved",
   "theorems": [
    "C17_fornberg_weights_exact"
   ],
   "note": ""
  },
  {
   "property": "C18",
   "status": "proved",
   "theorems": [
    "C18_grid_derivative_exact"
   ],
   "note": ""
  },
  {
   "property": "C19",
   "status": "proved",
   "theorems": [
    "C19_fornberg_definedness"
   ],
   "note": ""
  },
  {
   "property": "C20",
   "status": "proved",
   "theorems": [
    "C20_forward_exact_for_affine",
    "C20_backward_exact_for_affine",
    "C20_center_exact_for_quadratics",
    "C20_center2_exact_for_quartics",
    "C20_missing_second_order_stencils",
    "C20_gradient_method"
   ],
   "note": ""
  },
  {
   "property": "C21",
   "status": "proved",
   "theorems": [
    "C21_cantor_bijection",
    "C21_inverse_needs_numpy_offset"
   ],
   "note": ""
  },
  {
   "property": "C22",
   "status": "proved",
   "theorems": [
    "C22_symmetric_pairing"
   ],
   "note": ""
  },
  {
   "property": "C23",
   "status": "proved",
   "theorems": [
    "C23_symmetric_inverse_fails_exactly_on_diagonal"
   ],
   "note": ""
  },
  {
   "property": "C24",
   "status": "proved",
   "theorems": [
    "C24_xie_bijection"
   ],
   "note": ""
  },
  {
   "property": "C25",
   "status": "proved",
   "theorems": [
    "C25_ieee_agrees_below_bound",
    "C25_ieee_collisions"
   ],
   "note": ""
  },
  {
   "property": "C26",
   "status": "proved",
   "theorems": [
    "C26_cartesian_combinations"
   ],
   "note": ""
  },
  {
   "property": "C27",
   "status": "proved",
   "theorems": [
    "C27_single_set_combinations"
   ],
   "note": ""
  },
  {
   "property": "C28",
   "status": "proved",
   "theorems": [
    "C28_symmetric_product_complete",
    "C28_symmetric_product_exact_when_orders_agree",
    "C28_symmetric_product_wrong_for_other_orders"
   ],
   "note": ""
  },
  {
   "property": "C29",
   "status": "proved",
   "theorems": [
    "C29_generator_single_range",
    "C29_generator_two_ranges_complete",
    "C29_generator_two_ranges_swaps_daughters"
   ],
   "note": ""
  },
  {
   "property": "C30",
   "status": "proved",
   "theorems": [
    "C30_azimuthal_rule",
    "C30_default_conjugation"
   ],
   "note": ""
  },
  {
   "property": "C31",
   "status": "proved",
   "theorems": [
    "C31_meridional_rule",
    "C31_orders_of_permuted_triads",
    "C31_other_triads_wrong"
   ],
   "note": ""
  },
  {
   "property": "C32",
   "status": "proved",
   "theorems": [
    "C32_resonance_scenarios",
    "C32_accepted_scenarios"
   ],
   "note": ""
  },
  {
   "property": "C33",
   "status": "proved",
   "theorems": [
    "C33_gate",
    "C33_polytropes_not_checked",
    "C33_computed_triads_are_stable"
   ],
   "note": ""
  },
  {
   "property": "C34",
   "status": "proved",
   "theorems": [
    "C34_equivalent_criterion",
    "C34_opposite_for_growing_total"
   ],
   "note": ""
  },
  {
   "property": "C35",
   "status": "proved",
   "theorems": [
    "C35_original_criterion",
    "C35_ratio_of_leading_coefficients"
   ],
   "note": ""
  },
  {
   "property": "C36",
   "status": "proved",
   "theorems": [
    "C36_accepted_iff_decaying",
    "C36_hyperbolicity_always_fails",
    "C36_hyperbolicity_negated_frequencies"
   ],
   "note": ""
  },
  {
   "property": "C37",
   "status": "proved",
   "theorems": [
    "C37_direct_test_exact",
    "C37_parametric_test"
   ],
   "note": ""
  },
  {
   "property": "C38",
   "status": "proved",
   "theorems": [
    "C38_stationary_amplitudes",
    "C38_stationary_phase"
   ],
   "note": ""
  },
  {
   "property": "C39",
   "status": "proved",
   "theorems": [
    "C39_parent_above_threshold",
    "C39_threshold_is_parametric_instability"
   ],
   "note": ""
  },
  {
   "property": "C40",
   "status": "proved",
   "theorems": [
    "C40_conversion_preserves_frequency",
    "C40_conversions_compose",
    "C40_round_trip",
    "C40_linear",
    "C40_unsupported",
    "C40_dictionary_conversion",
    "C40_object_conversion"
   ],
   "note": ""
  },
  {
   "property": "C41",
   "status": "proved",
   "theorems": [
    "C41_stored_frequencies",
    "C41_angular_conversion_factor",
    "C41_uninitialised_corotating_frequency",
    "C41_doppler_shift",
    "C41_detuning_frame_independent_iff",
    "C41_construction_succeeds",
    "C41_spin_parameter",
    "C41_nonadiabatic_frequencies",
    "C41_unit_independence"
   ],
   "note": ""
  },
  {
   "property": "C42",
   "status": "proved",
   "theorems": [
    "C42_quality_products"
   ],
   "note": ""
  },
  {
   "property": "C43",
   "status": "proved",
   "theorems": [
    "C43_s_term_is_sum_over_assignments",
    "C43_assignments_are_the_bijections",
    "C43_missing_weight_raises"
   ],
   "note": ""
  },
  {
   "property": "C44",
   "status": "proved",
   "theorems": [
    "C44_coupling_invariant_under_relabelling",
    "C44_profile_invariant_under_relabelling",
    "C44_normalised_coefficient_depends_on_first_mode"
   ],
   "note": ""
  },
  {
   "property": "C45",
   "status": "proved",
   "theorems": [
    "C45_self_coupling_term",
    "C45_shortcut_right_for_unit_weights",
    "C45_kappa_1_error"
   ],
   "note": ""
  },
  {
   "property": "C46",
   "status": "proved",
   "theorems": [
    "C46_azimuthal_rule",
    "C46_other_conjugation_arguments",
    "C46_theta_integral",
    "C46_forbidden_triads_do_not_couple"
   ],
   "note": ""
  },
  {
   "property": "C47",
   "status": "proved",
   "theorems": [
    "C47_profile",
    "C47_complex_mode_never_works"
   ],
   "note": ""
  },
  {
   "property": "C48",
   "status": "proved",
   "theorems": [
    "C48_hemispheres_agree",
    "C48_second_derivative_wrong_sign_in_the_south"
   ],
   "note": ""
  },
  {
   "property": "C49",
   "status": "proved",
   "theorems": [
    "C49_normalisation"
   ],
   "note": ""
  },
  {
   "property": "C50",
   "status": "proved",
   "theorems": [
    "C50_radial_function_solves_tidal_equation",
    "C50_horizontal_components",
    "C50_radial_function_is_an_expansion"
   ],
   "note": ""
  },
  {
   "property": "C51",
   "status": "proved",
   "theorems": [
    "C51_eigenfunctions_are_factor_times_original",
    "C51_iteration_limit",
    "C51_flags_describe_final_state",
    "C51_one_step_reaches_goal",
    "C51_python_bool_flags_everything",
    "C51_zero_iterations_fail",
    "C51_unknown_convention",
    "C51_success_on_last_iteration_is_still_logged"
   ],
   "note": ""
  },
  {
   "property": "C52",
   "status": "proved",
   "theorems": [
    "C52_counts_are_bin_populations",
    "C52_each_datum_in_exactly_one_bin",
    "C52_maximum_in_last_bin",
    "C52_mass_conserved_whenever_counts_are_returned",
    "C52_constant_data_undefined_for_two_bins"
   ],
   "note": ""
  },
  {
   "property": "C53",
   "status": "proved",
   "theorems": [
    "C53_returned_histogram_is_normalised",
    "C53_log_density_integrates_to_one",
    "C53_log_probability_sums",
    "C53_numexpr_log_probability_too_small_with_nans",
    "C53_blas_log_density_integrates_to_more_than_one",
    "C53_single_datum_ignores_representation"
   ],
   "note": ""
  },
  {
   "property": "C54",
   "status": "proved",
   "theorems": [
    "C54_iterator_returns_first_maximum",
    "C54_table_returns_first_maximum",
    "C54_iterator_default",
    "C54_table_raises_without_admissible",
    "C54_admissible_iff",
    "C54_log_search_returns_first_maximum",
    "C54_log_search_raises_without_admissible"
   ],
   "note": ""
  },
  {
   "property": "C55",
   "status": "proved",
   "theorems": [
    "C55_edge_counts",
    "C55_each_datum_in_exactly_one_bin",
    "C55_complete_with_minimum_length",
    "C55_logarithmic_bins",
    "C55_numpy_density_raises_on_trailing_empty_bins",
    "C55_cython_density_reads_out_of_bounds"
   ],
   "note": ""
  },
  {
   "property": "C56",
   "status": "proved",
   "theorems": [
    "C56_factor_matches_iff",
    "C56_likelihood_offset",
    "C56_cython_selects_another_histogram"
   ],
   "note": ""
  },
  {
   "property": "C57",
   "status": "proved",
   "theorems": [
    "C57_isolation_mask_meaning",
    "C57_isolation_mask_determined",
    "C57_succeeds_iff_no_parent_is_alone",
    "C57_tables_of_lonely_parents_always_fail",
    "C57_flagged_minimal_triads_have_the_lowest_threshold",
    "C57_flag_ignores_the_triads_own_threshold",
    "C57_daughter_order_is_irrelevant"
   ],
   "note": ""
  },
  {
   "property": "C58",
   "status": "proved",
   "theorems": [
    "C58_user_values_override_defaults",
    "C58_bad_value_raises",
    "C58_defaults_file_required"
   ],
   "note": ""
  },
  {
   "property": "C59",
   "status": "proved",
   "theorems": [
    "C59_integers",
    "C59_quoted_strings",
    "C59_inner_quotes_are_lost",
    "C59_words",
    "C59_boolean_lists_collapse",
    "C59_literals",
    "C59_exponents",
    "C59_bare_words_raise",
    "C59_plus_in_exponent_raises",
    "C59_blank_in_list_raises",
    "C59_line_breaks_in_strings_double"
   ],
   "note": ""
  },
  {
   "property": "C60",
   "status": "proved",
   "theorems": [
    "C60_write_mode_starts_afresh",
    "C60_default_mode",
    "C60_append_keeps_old_values",
    "C60_other_datasets_untouched",
    "C60_new_dataset_is_stored",
    "C60_readwrite_replaces",
    "C60_readwrite_repeats_single_row",
    "C60_readwrite_keeps_empty_dataset",
    "C60_group_in_the_way",
    "C60_group_swallows_the_value",
    "C60_readwrite_needs_a_file",
    "C60_second_run_append",
    "C60_second_run_readwrite",
    "C60_second_run_single_triad",
    "C60_empty_run_destroys_file"
   ],
   "note": ""
  },
  {
   "property": "C61",
   "status": "proved",
   "theorems": [
    "C61_results_read_back",
    "C61_slot_of_triad",
    "C61_wu_dataset_holds_mean_order",
    "C61_wu_dataset_wrong",
    "C61_magnitudes_are_signed",
    "C61_hypotheses_met"
   ],
   "note": ""
  },
  {
   "property": "C62",
   "status": "proved",
   "theorems": [
    "C62_each_triad_in_its_slot",
    "C62_first_failure",
    "C62_success_means_all_triads",
    "C62_same_triad_same_results",
    "C62_second_call",
    "C62_saved_results",
    "C62_hypotheses_met"
   ],
   "note": ""
  },
  {
   "property": "C63",
   "status": "proved",
   "theorems": [
    "C63_strides_are_ignored",
    "C63_strided_view_refuted"
   ],
   "note": ""
  },
  {
   "property": "C64",
   "status": "proved",
   "theorems": [
    "C64_interpolated_differentiation_drops_points"
   ],
   "note": ""
  },
  {
   "property": "C65",
   "status": "proved",
   "theorems": [
    "C65_dimensionless_frequencies",
    "C65_dimensionless_cyclic_frequencies",
    "C65_right_iff_seconds"
   ],
   "note": ""
  },
  {
   "property": "C66",
   "status": "proved",
   "theorems": [
    "C66_symbolic_gradients",
    "C66_structure_derivatives"
   ],
   "note": ""
  },
  {
   "property": "C67",
   "status": "proved",
   "theorems": [
    "C67_mode_energy_counts_azimuth_twice",
    "C67_eta_off_by_two_pi"
   ],
   "note": ""
  },
  {
   "property": "C68",
   "status": "proved",
   "theorems": [
    "C68_coupling_is_trilinear_in_amplitudes",
    "C68_library_integrator_homogeneous"
   ],
   "note": ""
  },
  {
   "property": "C69",
   "status": "proved",
   "theorems": [
    "C69_chebyshev_gauss_exact"
   ],
   "note": ""
  },
  {
   "property": "C70",
   "status": "proved",
   "theorems": [
    "C70_chebyshev_integration_never_succeeds",
    "C70_chebyshev_coupling_exits"
   ],
   "note": ""
  },
  {
   "property": "C71",
   "status": "proved",
   "theorems": [
    "C71_collocation_matrices"
   ],
   "note": ""
  },
  {
   "property": "C72",
   "status": "proved",
   "theorems": [
    "C72_nearest_negative_eigenvalue",
    "C72_construction"
   ],
   "note": ""
  },
  {
   "property": "C73",
   "status": "proved",
   "theorems": [
    "C73_calling_twice"
   ],
   "note": ""
  },
  {
   "property": "C74",
   "status": "proved",
   "theorems": [
    "C74_azimuthal_derivative_of_adjusted_definitions"
   ],
   "note": ""
  },
  {
   "property": "C75",
   "status": "proved",
   "theorems": [
    "C75_coupler_energies_and_coefficient",
    "C75_coefficient_independent_of_input_amplitudes"
   ],
   "note": ""
  },
  {
   "property": "C76",
   "status": "proved",
   "theorems": [
    "C76_cython_phase_always_fails",
    "C76_numexpr_phase_shifts_up",
    "C76_blas_phase_shifts_down",
    "C76_blas_phase_one_has_two_extra_bins",
    "C76_reported_edges_and_phase_ignore_the_phase"
   ],
   "note": ""
  },
  {
   "property": "C77",
   "status": "proved",
   "theorems": [
    "C77_numexpr_equals_iterator",
    "C77_blas_equals_iterator"
   ],
   "note": ""
  },
  {
   "property": "C78",
   "status": "proved",
   "theorems": [
    "C78_verbose_search_never_returns",
    "C78_given_width_only_works_with_blas",
    "C78_blas_given_width_normalised",
    "C78_numpy_given_bins",
    "C78_numpy_no_bins"
   ],
   "note": ""
  },
  {
   "property": "C79",
   "status": "proved",
   "theorems": [
    "C79_threshold_luminosity_mask",
    "C79_kept_triads_reach_the_minimum",
    "C79_monotone_in_the_minimum",
    "C79_depends_on_daughter_order"
   ],
   "note": ""
  },
  {
   "property": "C80",
   "status": "proved",
   "theorems": [
    "C80_combined_masks",
    "C80_fails_exactly_when_isolation_fails",
    "C80_detuning_mask"
   ],
   "note": ""
  },
  {
   "property": "C81",
   "status": "proved",
   "theorems": [
    "C81_harmonic_matrix_charpoly",
    "C81_harmonic_matrix_is_not_the_jacobian"
   ],
   "note": ""
  },
  {
   "property": "C82",
   "status": "proved",
   "theorems": [
    "C82_nonlinear_frequencies",
    "C82_frequencies_lock",
    "C82_frequencies_of_the_stationary_solution",
    "C82_no_frequencies_without_net_rate",
    "C82_relative_shifts"
   ],
   "note": ""
  },
  {
   "property": "C83",
   "status": "proved",
   "theorems": [
    "C83_threshold_luminosity",
    "C83_proportional_luminosity"
   ],
   "note": ""
  },
  {
   "property": "C84",
   "status": "proved",
   "theorems": [
    "C84_parametric_ratios",
    "C84_direct_ratios",
    "C84_no_ratio_for_other_triads",
    "C84_no_ratio_without_denominator"
   ],
   "note": ""
  },
  {
   "property": "C85",
   "status": "proved",
   "theorems": [
    "C85_relative_detuning",
    "C85_validity_test",
    "C85_spin_parameters",
    "C85_validity_estimators",
    "C85_quality_factor"
   ],
   "note": ""
  },
  {
   "property": "C86",
   "status": "proved",
   "theorems": [
    "C86_counts_add_up",
    "C86_conditions",
    "C86_reports_only_named_models"
   ],
   "note": ""
  },
  {
   "property": "C87",
   "status": "proved",
   "theorems": [
    "C87_lookup",
    "C87_lookup_sound",
    "C87_string_index_is_read_letter_by_letter",
    "C87_string_index_is_its_letters"
   ],
   "note": ""
  },
  {
   "property": "C88",
   "status": "proved",
   "theorems": [
    "C88_reading_toml",
    "C88_missing_top_level",
    "C88_arrays_are_left_alone"
   ],
   "note": ""
  },
  {
   "property": "C89",
   "status": "proved",
   "theorems": [
    "C89_settings_dictionary",
    "C89_mixed_entries_raise",
    "C89_missing_negated_is_true",
    "C89_negated_switch"
   ],
   "note": ""
  },
  {
   "property": "C90",
   "status": "proved",
   "theorems": [
    "C90_settings_list",
    "C90_two_key_positions_are_misread"
   ],
   "note": ""
  },
  {
   "property": "C91",
   "status": "proved",
   "theorems": [
    "C91_path_to_inlist",
    "C91_without_base_directory",
    "C91_default_inlist"
   ],
   "note": ""
  },
  {
   "property": "C92",
   "status": "proved",
   "theorems": [
    "C92_solve_run_never_computes",
    "C92_command_line",
    "C92_computes_only_with_save_name",
    "C92_save_name_reaches_the_computation",
    "C92_inlist_that_is_read"
   ],
   "note": ""
  },
  {
   "property": "C93",
   "status": "proved",
   "theorems": [
    "C93_analysis_needs_other_directory",
    "C93_analysis_command_line",
    "C93_solve_needs_directory"
   ],
   "note": ""
  },
  {
   "property": "C94",
   "status": "proved",
   "theorems": [
    "C94_solve_settings",
    "C94_terms_required"
   ],
   "note": ""
  },
  {
   "property": "C95",
   "status": "proved",
   "theorems": [
    "C95_log_level",
    "C95_switches"
   ],
   "note": ""
  },
  {
   "property": "C96",
   "status": "proved",
   "theorems": [
    "C96_one_action",
    "C96_switches"
   ],
   "note": ""
  },
  {
   "property": "C97",
   "status": "proved",
   "theorems": [
    "C97_luminosity_phase_adds_nothing",
    "C97_nonadiabatic_fluctuations_vanish",
    "C97_adiabatic_fluctuations_not_normalised",
    "C97_hypotheses_met"
   ],
   "note": ""
  },
  {
   "property": "C98",
   "status": "proved",
   "theorems": [
    "C98_formats",
    "C98_not_in_subdirectory",
    "C98_requests_collide",
    "C98_trailing_slash_doubled",
    "C98_example"
   ],
   "note": ""
  },
  {
   "property": "C99",
   "status": "proved",
   "theorems": [
    "C99_suffix_inserted",
    "C99_quantum_numbers_distinguish",
    "C99_hyphenated_names_collide",
    "C99_directory_renamed",
    "C99_example"
   ],
   "note": ""
  },
  {
   "property": "C100",
   "status": "proved",
   "theorems": [
    "C100_validity_criterion",
    "C100_slow_modes_only",
    "C100_masks_partition_the_star",
    "C100_fully_valid_star_rejected",
    "C100_fully_invalid_star",
    "C100_some_invalid_stars_rejected",
    "C100_no_coupling_object",
    "C100_hypotheses_met"
   ],
   "note": ""
  },
  {
   "property": "C101",
   "status": "proved",
   "theorems": [
    "C101_adjusted_value",
    "C101_adjusted_profile_invalid_core",
    "C101_adjusted_profile_valid_core",
    "C101_valid_core_and_surface",
    "C101_terms_add_up",
    "C101_hypotheses_met",
    "C101_hypotheses_met_valid_core"
   ],
   "note": ""
  },
  {
   "property": "C102",
   "status": "proved",
   "theorems": [
    "C102_adjusted_amplitudes",
    "C102_adjusted_threshold_fluctuation",
    "C102_hypotheses_met"
   ],
   "note": ""
  },
  {
   "property": "C103",
   "status": "proved",
   "theorems": [
    "C103_coupling_is_interaction_energy",
    "C103_library_integrator_linear",
    "C103_hough_arrays",
    "C103_hypotheses_met"
   ],
   "note": ""
  },
  {
   "property": "C104",
   "status": "proved",
   "theorems": [
    "C104_conjugation_of_the_fields_ignored",
    "C104_not_an_interaction_energy",
    "C104_right_without_azimuthal_displacement"
   ],
   "note": ""
  },
  {
   "property": "C105",
   "status": "proved",
   "theorems": [
    "C105_coefficient_from_radial_kernels",
    "C105_rows_radial",
    "C105_rows_angular",
    "C105_other_numbers",
    "C105_needs_derivative_profile",
    "C105_hypotheses_met"
   ],
   "note": ""
  },
  {
   "property": "C106",
   "status": "proved",
   "theorems": [
    "C106_shown_is_announced_iff",
    "C106_labels_1_2_4",
    "C106_labels_3",
    "C106_hypotheses_met"
   ],
   "note": ""
  },
  {
   "property": "C107",
   "status": "proved",
   "theorems": [
    "C107_polytrope_arrays",
    "C107_dimensionless",
    "C107_surface"
   ],
   "note": ""
  },
  {
   "property": "C108",
   "status": "proved",
   "theorems": [
    "C108_centre"
   ],
   "note": ""
  },
  {
   "property": "C109",
   "status": "proved",
   "theorems": [
    "C109_selected_by_name",
    "C109_conventional_names",
    "C109_digits_are_decimal",
    "C109_decimal_digits"
   ],
   "note": ""
  },
  {
   "property": "C110",
   "status": "proved",
   "theorems": [
    "C110_negative_radial_orders_never_match",
    "C110_negative_requests_never_match",
    "C110_last_l_wins",
    "C110_bar_is_minus"
   ],
   "note": ""
  },
  {
   "property": "C111",
   "status": "proved",
   "theorems": [
    "C111_one_file_per_mode",
    "C111_listing_order",
    "C111_no_directory"
   ],
   "note": ""
  },
  {
   "property": "C112",
   "status": "proved",
   "theorems": [
    "C112_inferred_directories",
    "C112_given_directories_not_joined",
    "C112_no_base_directory"
   ],
   "note": ""
  },
  {
   "property": "C113",
   "status": "proved",
   "theorems": [
    "C113_si_is_rescaled_cgs",
    "C113_other_spellings"
   ],
   "note": ""
  },
  {
   "property": "C114",
   "status": "proved",
   "theorems": [
    "C114_dimensional_quantities",
    "C114_missing_scale",
    "C114_polytropes"
   ],
   "note": ""
  },
  {
   "property": "C115",
   "status": "proved",
   "theorems": [
    "C115_structure_name",
    "C115_one_structure_file",
    "C115_plain_substring_refused"
   ],
   "note": ""
  },
  {
   "property": "C116",
   "status": "proved",
   "theorems": [
    "C116_resampling",
    "C116_bad_samples",
    "C116_exact",
    "C116_double_points"
   ],
   "note": ""
  },
  {
   "property": "C117",
   "status": "proved",
   "theorems": [
    "C117_mesa_grid",
    "C117_mesa_structure"
   ],
   "note": ""
  },
  {
   "property": "C118",
   "status": "proved",
   "theorems": [
    "C118_first_mode_longest"
   ],
   "note": ""
  },
  {
   "property": "C119",
   "status": "proved",
   "theorems": [
    "C119_polytrope_points"
   ],
   "note": ""
  },
  {
   "property": "C120",
   "status": "proved",
   "theorems": [
    "C120_cut_exactly",
    "C120_unknown_group",
    "C120_missing_array",
    "C120_list_polytrope"
   ],
   "note": ""
  },
  {
   "property": "C121",
   "status": "proved",
   "theorems": [
    "C121_normalisation"
   ],
   "note": ""
  },
  {
   "property": "C122",
   "status": "proved",
   "theorems": [
    "C122_complex_arrays",
    "C122_complex_parts",
    "C122_real_arrays",
    "C122_other_values"
   ],
   "note": ""
  },
  {
   "property": "C123",
   "status": "proved",
   "theorems": [
    "C123_polytrope_numeric",
    "C123_polytrope_analytic",
    "C123_missing_derivative",
    "C123_no_brunt"
   ],
   "note": ""
  },
  {
   "property": "C124",
   "status": "proved",
   "theorems": [
    "C124_plotter_reads_what_was_computed",
    "C124_polytropes_cannot_be_plotted",
    "C124_hypotheses_met"
   ],
   "note": ""
  },
  {
   "property": "C125",
   "status": "proved",
   "theorems": [
    "C125_single_paths_are_one_model",
    "C125_lists_of_paths_are_models",
    "C125_missing_file"
   ],
   "note": ""
  },
  {
   "property": "C126",
   "status": "proved",
   "theorems": [
    "C126_overview_categories",
    "C126_exactly_one_category",
    "C126_fails_if_a_parent_is_alone",
    "C126_case"
   ],
   "note": ""
  },
  {
   "property": "C127",
   "status": "proved",
   "theorems": [
    "C127_smallest_nonlinear_frequency",
    "C127_agrees_with_the_analyzer",
    "C127_mirroring",
    "C127_mirrored_values_are_aliases",
    "C127_third_mirror_operation_is_wrong",
    "C127_not_mirrored"
   ],
   "note": ""
  },
  {
   "property": "C128",
   "status": "proved",
   "theorems": [
    "C128_points_of_the_categories",
    "C128_every_triad_drawn_once",
    "C128_no_tables",
    "C128_two_points",
    "C128_case"
   ],
   "note": ""
  },
  {
   "property": "C129",
   "status": "proved",
   "theorems": [
    "C129_sharpness_masks",
    "C129_sharpness_data",
    "C129_sharpness_value",
    "C129_succeeds",
    "C129_no_tables",
    "C129_harmonics_are_counted"
   ],
   "note": ""
  },
  {
   "property": "C130",
   "status": "proved",
   "theorems": [
    "C130_pooling_changes_the_categories",
    "C130_tables_formed"
   ],
   "note": ""
  },
  {
   "property": "C131",
   "status": "proved",
   "theorems": [
    "C131_paths",
    "C131_loads_what_was_saved",
    "C131_saved_then_loaded",
    "C131_hyphenated_runs_are_not_found",
    "C131_missing_settings_raise",
    "C131_whole_number_xc",
    "C131_quantum_numbers_distinguish",
    "C131_name_and_specification_merge",
    "C131_example",
    "C131_standard_example"
   ],
   "note": ""
  },
  {
   "property": "C132",
   "status": "proved",
   "theorems": [
    "C132_folders",
    "C132_text_becomes_letters",
    "C132_example"
   ],
   "note": ""
  },
  {
   "property": "C133",
   "status": "proved",
   "theorems": [
    "C133_mesa_gyre",
    "C133_polytrope",
    "C133_only_these_directories",
    "C133_settings_without_effect",
    "C133_all_folders_required",
    "C133_example"
   ],
   "note": ""
  },
  {
   "property": "C134",
   "status": "proved",
   "theorems": [
    "C134_grid_settings",
    "C134_profile_settings",
    "C134_hypotheses_met"
   ],
   "note": ""
  },
  {
   "property": "C135",
   "status": "proved",
   "theorems": [
    "C135_one_range",
    "C135_two_ranges",
    "C135_no_selection",
    "C135_bad_bounds",
    "C135_hypotheses_met"
   ],
   "note": ""
  },
  {
   "property": "C136",
   "status": "proved",
   "theorems": [
    "C136_grid_run_saved",
    "C136_models_loaded"
   ],
   "note": ""
  },
  {
   "property": "C137",
   "status": "proved",
   "theorems": [
    "C137_one_file_at_most",
    "C137_failing_triad",
    "C137_failing_setup",
    "C137_unusable_save_settings",
    "C137_no_triads",
    "C137_missing_directories"
   ],
   "note": ""
  },
  {
   "property": "C138",
   "status": "proved",
   "theorems": [
    "C138_never_succeeds",
    "C138_no_figures",
    "C138_figures"
   ],
   "note": ""
  },
  {
   "property": "C139",
   "status": "proved",
   "theorems": [
    "C139_figure_names_distinct",
    "C139_later_run_overwrites"
   ],
   "note": ""
  },
  {
   "property": "C140",
   "status": "proved",
   "theorems": [
    "C140_spectrum_unchanged",
    "C140_adjusted_check_agrees"
   ],
   "note": ""
  },
  {
   "property": "C141",
   "status": "proved",
   "theorems": [
    "C141_coloured_iff_stable",
    "C141_symmetric"
   ],
   "note": ""
  },
  {
   "property": "C142",
   "status": "proved",
   "theorems": [
    "C142_grid_and_placement",
    "C142_published_panels"
   ],
   "note": ""
  },
  {
   "property": "C143",
   "status": "proved",
   "theorems": [
    "C143_stable_iff_detuned_enough",
    "C143_domains_are_nested",
    "C143_strong_damping"
   ],
   "note": ""
  },
  {
   "property": "C144",
   "status": "proved",
   "theorems": [
    "C144_original_contains_corrected",
    "C144_difference_of_the_domains"
   ],
   "note": ""
  },
  {
   "property": "C145",
   "status": "proved",
   "theorems": [
    "C145_least_squares_estimate",
    "C145_too_few_points"
   ],
   "note": ""
  },
  {
   "property": "C146",
   "status": "proved",
   "theorems": [
    "C146_independent_of_the_partition",
    "C146_missing_points_filled_from_the_other_side"
   ],
   "note": ""
  },
  {
   "property": "C147",
   "status": "proved",
   "theorems": [
    "C147_uncertainty",
    "C147_published_numbers"
   ],
   "note": ""
  },
  {
   "property": "C148",
   "status": "proved",
   "theorems": [
    "C148_table_of_a_mode",
    "C148_tables_distinct",
    "C148_negative_orders_never_found"
   ],
   "note": ""
  },
  {
   "property": "C149",
   "status": "proved",
   "theorems": [
    "C149_stored_values",
    "C149_from_tables",
    "C149_failures"
   ],
   "note": ""
  },
  {
   "property": "C150",
   "status": "proved",
   "theorems": [
    "C150_bars_of_the_figure",
    "C150_heights_add_up",
    "C150_no_triads",
    "C150_one_triad_raises",
    "C150_single_triad_figure_raises",
    "C150_equal_sharpness",
    "C150_case"
   ],
   "note": ""
  },
  {
   "property": "C151",
   "status": "proved",
   "theorems": [
    "C151_files",
    "C151_distinct_files",
    "C151_compound_format"
   ],
   "note": ""
  },
  {
   "property": "C152",
   "status": "proved",
   "theorems": [
    "C152_eigenfunction_figures",
    "C152_missing_mode",
    "C152_no_base_directory",
    "C152_other_settings_ignored"
   ],
   "note": ""
  },
  {
   "property": "C153",
   "status": "proved",
   "theorems": [
    "C153_mass_coordinate"
   ],
   "note": ""
  },
  {
   "property": "C154",
   "status": "proved",
   "theorems": [
    "C154_profile_figures",
    "C154_missing_column",
    "C154_coordinate_range",
    "C154_kinds"
   ],
   "note": ""
  },
  {
   "property": "C155",
   "status": "proved",
   "theorems": [
    "C155_pairs_of_panels",
    "C155_mixed_arguments",
    "C155_mode_numbers",
    "C155_parts",
    "C155_frequency_unit"
   ],
   "note": ""
  },
  {
   "property": "C156",
   "status": "proved",
   "theorems": [
    "C156_files",
    "C156_without_derivative_profile",
    "C156_hypotheses_met"
   ],
   "note": ""
  },
  {
   "property": "C157",
   "status": "proved",
   "theorems": [
    "C157_angular_panels",
    "C157_radial_panels",
    "C157_second_contribution",
    "C157_hypotheses_met"
   ],
   "note": ""
  },
  {
   "property": "C158",
   "status": "proved",
   "theorems": [
    "C158_radial_panels",
    "C158_angular_panels",
    "C158_radial_single",
    "C158_angular_single",
    "C158_hypotheses_met"
   ],
   "note": ""
  },
  {
   "property": "C159",
   "status": "proved",
   "theorems": [
    "C159_single_legend",
    "C159_radial_label_identifies",
    "C159_angular_label_identifies",
    "C159_hypotheses_met"
   ],
   "note": ""
  },
  {
   "property": "C160",
   "status": "proved",
   "theorems": [
    "C160_by_position",
    "C160_comment_and_value",
    "C160_missing_value_shifts",
    "C160_hypotheses_met"
   ],
   "note": ""
  },
  {
   "property": "C161",
   "status": "proved",
   "theorems": [
    "C161_unknown_comment_exits",
    "C161_comment_sign_in_value_exits",
    "C161_hypotheses_met"
   ],
   "note": ""
  },
  {
   "property": "C162",
   "status": "proved",
   "theorems": [
    "C162_failing_value",
    "C162_blank_in_tuple",
    "C162_hypotheses_met"
   ],
   "note": ""
  },
  {
   "property": "C163",
   "status": "proved",
   "theorems": [
    "C163_off",
    "C163_mesa",
    "C163_poly",
    "C163_succeeds",
    "C163_empty_array"
   ],
   "note": ""
  },
  {
   "property": "C164",
   "status": "proved",
   "theorems": [
    "C164_structure",
    "C164_first_mode",
    "C164_modes"
   ],
   "note": ""
  },
  {
   "property": "C165",
   "status": "proved",
   "theorems": [
    "C165_radial",
    "C165_hough"
   ],
   "note": ""
  },
  {
   "property": "C166",
   "status": "proved",
   "theorems": [
    "C166_shown",
    "C166_announced",
    "C166_profile_prints",
    "C166_none_without",
    "C166_filled_in"
   ],
   "note": ""
  },
  {
   "property": "C167",
   "status": "proved",
   "theorems": [
    "C167_one_purpose",
    "C167_profile_dictionary_required",
    "C167_contradictory_request",
    "C167_profile_object_asked_for_grid",
    "C167_grid_object_asked_for_profile",
    "C167_normal_return",
    "C167_hypotheses_met"
   ],
   "note": ""
  },
  {
   "property": "C168",
   "status": "proved",
   "theorems": [
    "C168_same_components",
    "C168_grid_call",
    "C168_history_does_not_matter",
    "C168_profile_call",
    "C168_profile_history",
    "C168_hypotheses_met"
   ],
   "note": ""
  },
  {
   "property": "C169",
   "status": "proved",
   "theorems": [
    "C169_driving_rates",
    "C169_print_mode_info",
    "C169_coupling_profile",
    "C169_hypotheses_met"
   ],
   "note": ""
  },
  {
   "property": "C170",
   "status": "proved",
   "theorems": [
    "C170_objects",
    "C170_order_irrelevant",
    "C170_itself",
    "C170_types"
   ],
   "note": ""
  },
  {
   "property": "C171",
   "status": "proved",
   "theorems": [
    "C171_small_integers",
    "C171_large_integers",
    "C171_functions",
    "C171_lists_of_functions",
    "C171_empty",
    "C171_none_differs_from_everything",
    "C171_inside_containers"
   ],
   "note": ""
  },
  {
   "property": "C172",
   "status": "proved",
   "theorems": [
    "C172_arrays",
    "C172_itself",
    "C172_repeated",
    "C172_empty_array",
    "C172_order_matters",
    "C172_mixed"
   ],
   "note": ""
  },
  {
   "property": "C173",
   "status": "proved",
   "theorems": [
    "C173_entries_of_the_first",
    "C173_dictionaries",
    "C173_lists",
    "C173_dictionary_and_list"
   ],
   "note": ""
  },
  {
   "property": "C174",
   "status": "proved",
   "theorems": [
    "C174_passes",
    "C174_zero_is_not_checked",
    "C174_no_elements"
   ],
   "note": ""
  },
  {
   "property": "C175",
   "status": "proved",
   "theorems": [
    "C175_trapezoid_error",
    "C175_uniform_trapezoid_error",
    "C175_simpson_error",
    "C175_distance_to_the_integral"
   ],
   "note": ""
  },
  {
   "property": "C176",
   "status": "proved",
   "theorems": [
    "C176_parallel_trapezoid_error",
    "C176_parallel_simpson_error",
    "C176_schedules_agree_up_to_rounding"
   ],
   "note": ""
  },
  {
   "property": "C177",
   "status": "proved",
   "theorems": [
    "C177_monotone",
    "C177_nonnegative"
   ],
   "note": ""
  },
  {
   "property": "C178",
   "status": "proved",
   "theorems": [
    "C178_exact_trapezoid",
    "C178_exact_uniform_trapezoid"
   ],
   "note": ""
  },
  {
   "property": "C179",
   "status": "proved",
   "theorems": [
    "C179_spelled_correctly",
    "C179_no_tens",
    "C179_groups",
    "C179_negative"
   ],
   "note": ""
  },
  {
   "property": "C180",
   "status": "proved",
   "theorems": [
    "C180_returned_number",
    "C180_announced_range_not_enforced",
    "C180_errors",
    "C180_message_names_an_older_number"
   ],
   "note": ""
  },
  {
   "property": "C181",
   "status": "proved",
   "theorems": [
    "C181_every_datum_counted_once",
    "C181_bins_up_to_rounding",
    "C181_exact_away_from_the_edges",
    "C181_implementations_agree_away_from_the_edges",
    "C181_finding_implementations_disagree_on_an_edge",
    "C181_finding_equal_data",
    "C181_finding_scale"
   ],
   "note": ""
  },
  {
   "property": "C182",
   "status": "proved",
   "theorems": [
    "C182_files",
    "C182_single_figure",
    "C182_masked_figure",
    "C182_term_figure",
    "C182_curves_add_up",
    "C182_lower_panel_ends_at_printed_value",
    "C182_valid_core_lower_panel_ends_at_zero",
    "C182_lists",
    "C182_single_legend",
    "C182_hypotheses_met"
   ],
   "note": ""
  },
  {
   "property": "C183",
   "status": "proved",
   "theorems": [
    "C183_colours",
    "C183_labels_do_not_matter",
    "C183_distinct_colours",
    "C183_fifth_of_ten",
    "C183_one_curve_and_empty_palette",
    "C183_hypotheses_met"
   ],
   "note": ""
  },
  {
   "property": "C184",
   "status": "proved",
   "theorems": [
    "C184_periastron_never_matters",
    "C184_checked_triads",
    "C184_luminosity_phase",
    "C184_inclination",
    "C184_splines_always_built",
    "C184_hypotheses_met"
   ],
   "note": ""
  },
  {
   "property": "C185",
   "status": "proved",
   "theorems": [
    "C185_failures",
    "C185_amplitudes_are_numbers"
   ],
   "note": ""
  },
  {
   "property": "C186",
   "status": "proved",
   "theorems": [
    "C186_check_in_physical_units",
    "C186_unit_does_not_matter",
    "C186_star_without_rotation",
    "C186_hypotheses_met"
   ],
   "note": ""
  },
  {
   "property": "C187",
   "status": "proved",
   "theorems": [
    "C187_angular_frequencies_of_a_numbered_mode",
    "C187_cyclic_frequencies_of_a_numbered_mode",
    "C187_dimensionless_frequencies_of_a_numbered_mode",
    "C187_numbering",
    "C187_detunings",
    "C187_nonadiabatic_frequencies_of_a_numbered_mode",
    "C187_nonadiabatic_detuning"
   ],
   "note": ""
  },
  {
   "property": "C188",
   "status": "proved",
   "theorems": [
    "C188_contributions_add_up",
    "C188_profile_ends_at_the_coefficient",
    "C188_partial_computation_replaces_the_coefficient",
    "C188_nothing_computed_yet"
   ],
   "note": ""
  },
  {
   "property": "C189",
   "status": "proved",
   "theorems": [
    "C189_stored_functions",
    "C189_tidal_equation",
    "C189_wrong_signs",
    "C189_grid",
    "C189_nothing_else_changes",
    "C189_estimates",
    "C189_without_eigenvalue",
    "C189_no_modes"
   ],
   "note": ""
  }
 ]
}