# Axioms of each theorem

Generated by `tools/assumptions.py` from `Print Assumptions`; all of them are axioms of Coq's standard library.

## none (closed under the global context)

C08_checks_pass_exactly, C111_restless, C114_failure, C114_lines, C114_multiline_refuted, C114_pieces, C114_unchanged, C114_variables, C13_infer_accepted_iff, C13_missing_keys_ValueError_refuted, C13_missing_keys_never_accepted, C13_only_approximate_is_added, C13_plain_dict_refuted, C13_wrong_lengths, C66_empty_grid, C69_construction, C70_attribute_is_item, C70_method_names_shadow_items, C70_missing_attribute, C70_missing_attribute_refuted, C71_str_lists_every_key_once_sorted, C71_str_of_empty_raises, C72_index_inverts_names, C72_names_distinct, C72_unknown_name_KeyError, C73_M7_not_integer_refuted, C73_rows_combine_primaries, C73_shallow_has_rows, C73_shallow_or_primary, C83_contents, C83_errors, C83_succeeds, C84_errors, C84_lines, C84_nothing, C85_cleaned, C85_constants, C85_errors, C85_idempotent, C85_single_string_refuted, C85_white_space_refuted

## `ClassicalDedekindReals.sig_forall_dec`

C60_columns

## `ClassicalDedekindReals.sig_forall_dec`, `FunctionalExtensionality.functional_extensionality_dep`

C01_datetimes_become_day_numbers, C01_day_value_defined, C01_day_value_unique, C01_solve_uses_day_numbers, C02_same_internal_times, C03_distinct_instants_refuted, C03_error_below_1ms, C03_millisecond_grid_distinct, C03_order_preserved, C04_non_numeric_with_epoch_rejected, C04_numeric_with_epoch_accepted, C04_numeric_without_epoch_is_milliseconds, C04_numeric_without_epoch_rejected_refuted, C04_unparsable_epoch_rejected, C05_fitted_samples_scalar, C05_fitted_samples_vector, C06_masked_times_excluded_refuted, C07_record_length_and_reftime_scalar, C07_record_length_and_reftime_vector, C09_KeyError_iff_unknown, C102_order, C12_order_constit_values, C17_Z0_separation_zero, C17_separation_is_a_difference, C17_without_comparison_zero, C21_wrapped, C23_shallow, C29_Z0, C29_level, C29_one_band, C62_cluster, C66_band_averages, C66_between, C68_bands, C68_lomb_frequencies, C68_per_band, C68_whole_grid, C69_update_None, C69_update_values, C72_cycles_per_hour, C72_frequencies_increasing, C72_hours_per_cycle_is_reciprocal, C73_argument_of_shallow, C73_frequency_of_shallow, C73_integer_multipliers

## `ClassicalDedekindReals.sig_forall_dec`, `ClassicalDedekindReals.sig_not_dec`, `FunctionalExtensionality.functional_extensionality_dep`

C15_automatic_selection, C15_longer_records_lose_nothing, C15_selected_iff_separated, C16_K1_M2_refuted, C16_selected_pairs_resolved, C17_comparison_selected_refuted, C18_explicit_names, C18_unknown_name, C19_first_group_disjoint, C19_known_names_accepted, C19_layout, C19_unknown_names_KeyError, C20_requests_kept_together, C22_M7_refuted, C22_wrapping_invisible, C52_unusable_names, C52_usable_names, C53_maxit_refuted, C54_no_pass, C55_converged_refuted, C56_rotation_refuted, C56_scale, C56_shift_and_factor, C57_undefined, C58_zero, C59_scalar, C59_vector, C64_errors, C64_result, C64_semidefinite_kept, C67_cross_bound, C67_cross_scaling, C67_cross_values, C67_length, C67_non_negative, C67_scaling, C67_total_cross_power, C67_total_power, C67_values, C67_window, C74_exact_data, C75_leverage, C75_range, C76_inferred_refuted, C86_keywords, C86_not_a_dict, C86_unknown_keyword, C89_robustfit, C96_exchange

## `ClassicalDedekindReals.sig_forall_dec`, `ClassicalDedekindReals.sig_not_dec`, `Classical_Prop.classic`, `FunctionalExtensionality.functional_extensionality_dep`

C02_reconstruct_independent_of_convention, C02_solve_independent_of_convention, C04_reconstruct_rejects, C04_solve_rejects, C05_one_weight_per_valid_sample, C05_solve_fits_them, C06_invalid_times_have_no_effect, C06_time_mask_is_ignored, C07_blanking_data, C07_even_spacing, C07_even_spacing_converse, C07_reported_reftime, C08_bad_arguments_rejected, C08_lists_rejected, C08_success_implies_checks, C09_MC_n_is_ignored, C09_accepted_options_are_documented, C09_settings_take_effect, C09_strict_rejected, C09_unknown_option_rejected, C100_equator, C100_linear_intervals, C100_no_constituents, C100_no_intervals, C100_one_time, C101_energy, C101_never_worse, C101_nothing_invented, C101_wider, C102_accuracy, C102_equal_steps_refuted, C102_even, C102_exact, C102_matlab, C103_accepted, C103_identifiable, C103_more_samples, C103_noise, C103_one_pass, C104_attained, C104_half, C104_period, C104_range, C104_range_plain, C104_smooth, C105_contraction, C105_one_sample, C105_split, C106_no_chance, C106_predictions, C106_reconstruct, C106_same_but_intervals, C107_intervals, C107_linear, C107_noise, C107_spare, C107_vector, C107_white, C108_linear, C108_needed, C108_positive, C108_robust, C109_own_series, C109_reconstruct_arrays, C109_reconstruct_unchanged, C109_reconstruct_value, C109_session, C109_solve_unchanged, C109_solve_value, C10_correction_modes, C110_accepted, C110_nobody_else, C110_references, C110_unknown_names, C111_accepted, C111_all_or_none, C111_approximate, C111_equator, C111_equator_result, C111_numbers, C112_linear, C112_needed, C113_approximate, C113_inferred, C113_ratios, C11_bad_conf_int_rejected, C11_conf_int_values, C11_none_has_no_intervals, C11_none_reconstructs_everything, C11_otherwise_has_intervals, C13_solve_used_a_wellformed_infer, C14_every_other_method_is_robust, C14_ols_weights_are_one, C15_names_of_a_run, C16_pairs_of_a_run, C18_names_of_a_run, C18_string, C18_unknown_name_in_a_run, C21_rates, C22_M7_jumps, C23_derivative, C24_modes, C25_entries, C25_shortcut, C26_equator_refuted, C26_finite, C26_near_equator, C27_basis, C27_constant_modulus, C27_linear, C27_none, C27_unit_modulus, C28_rowwise, C30_rows, C30_scalar, C30_solve, C30_vector, C31_motion, C31_rotation_sense, C31_scalar, C31_scalar_unique, C31_unique, C32_energy, C32_extremes, C32_scalar_energy, C33_circular_refuted, C33_negation, C33_rotation, C33_scalar_scaling, C33_scaling, C33_swap, C34_accuracy, C34_half_open_refuted, C34_representable, C34_scalar_range, C34_upper_end, C34_vector_half_open_refuted, C34_vector_range, C35_model_fit, C35_reconstruct, C36_least_squares, C36_output, C37_output, C37_predictions, C37_recovered, C37_reproduced, C38_output, C38_residuals, C38_variance, C39_linear, C39_negated, C39_scaled_and_shifted, C40_amplitude_phase, C40_rotary, C41_approximate, C41_approximate_fit_refuted, C41_approximate_refused, C41_approximate_residuals, C41_approximate_single, C41_exact, C42_all_names, C42_named_rows_intact, C42_same_rows, C43_name_sequence, C43_sorted, C43_unknown_name, C44_order_irrelevant, C45_SNR, C45_no_energy_NaN, C45_non_negative, C45_percent_of_total, C45_present, C45_scaling, C45_sum_is_100, C46_independent_of_order, C46_table, C47_harmonic_sum, C47_solve_output, C48_concatenation, C48_dimensions, C48_equator_refuted, C48_nan_exactly_at_invalid_times, C48_shape, C48_time_by_time, C49_named, C49_only_known_names_matter, C49_string, C49_string_refuted, C49_thresholds, C50_monotone, C50_reported, C50_reported_refuted, C51_additive, C51_background, C52_weights, C53_solve, C53_weights_match, C54_passes, C54_smallest, C55_rms, C57_half_widths, C57_half_widths_scalar, C57_scalar, C57_vector, C58_refuted, C59_swap_refuted, C59_u_ignored_refuted, C60_inference_refuted, C60_no_inference, C61_solve, C63_orientation_refuted, C63_scalar, C63_vector, C65_solve, C65_stage, C66_even_residual, C66_too_few_uneven, C66_uneven_residual, C67_level_scaling, C67_levels, C67_methods_agree, C67_uneven_bounds, C67_uneven_values, C73_nodal_factor_of_shallow, C73_nodal_phase_of_shallow, C76_scalar, C76_vector, C77_exists, C77_scalar, C77_vector, C78_basis, C78_primary, C78_scalar_tide, C78_shallow, C78_vector_tide, C79_noise_levels, C80_scalar, C80_vector, C81_exists, C81_scalar, C81_vector, C82_scalar, C82_vector, C86_default, C86_solve, C87_datum, C87_datum_refuted, C87_exists, C87_scalar, C87_vector, C88_coloured, C88_white, C89_negated, C89_scaled, C90_ols, C90_robust, C91_datum, C91_scalar, C91_vector, C92_residuals_again, C92_residuals_output, C92_sum, C92_sum_output, C92_tide_added, C92_tide_output, C93_components, C93_output, C94_any_order_refuted, C94_coefficients, C94_output, C94_reference_time, C94_whole, C95_choice, C95_latitude, C95_only_minimum, C95_options, C95_output, C95_same_model, C96_mirrored, C96_mirrored_output, C96_turned, C96_turned_output, C97_discarded, C97_equal_weights, C97_ols_output, C97_ols_weights, C97_output, C98_filled, C98_filled_output, C98_repeated, C98_thinned, C98_thinned_output, C98_union, C99_arguments_unchanged_refuted, C99_frame, C99_history, C99_kept, C99_own_result_refuted, C99_reconstruct, C99_value
