{
 "claims": [
  {
   "property": "C01",
   "status": "proved",
   "theorems": [
    "C01_datetimes_become_day_numbers",
    "C01_day_value_defined",
    "C01_day_value_unique",
    "C01_solve_uses_day_numbers"
   ],
   "note": ""
  },
  {
   "property": "C02",
   "status": "proved",
   "theorems": [
    "C02_same_internal_times",
    "C02_solve_independent_of_convention",
    "C02_reconstruct_independent_of_convention"
   ],
   "note": ""
  },
  {
   "property": "C03",
   "status": "proved",
   "theorems": [
    "C03_order_preserved",
    "C03_error_below_1ms",
    "C03_millisecond_grid_distinct",
    "C03_distinct_instants_refuted"
   ],
   "note": ""
  },
  {
   "property": "C04",
   "status": "proved",
   "theorems": [
    "C04_numeric_with_epoch_accepted",
    "C04_non_numeric_with_epoch_rejected",
    "C04_unparsable_epoch_rejected",
    "C04_solve_rejects",
    "C04_reconstruct_rejects",
    "C04_numeric_without_epoch_rejected_refuted",
    "C04_numeric_without_epoch_is_milliseconds"
   ],
   "note": ""
  },
  {
   "property": "C05",
   "status": "proved",
   "theorems": [
    "C05_fitted_samples_scalar",
    "C05_fitted_samples_vector",
    "C05_solve_fits_them",
    "C05_one_weight_per_valid_sample"
   ],
   "note": ""
  },
  {
   "property": "C06",
   "status": "proved",
   "theorems": [
    "C06_invalid_times_have_no_effect",
    "C06_time_mask_is_ignored",
    "C06_masked_times_excluded_refuted"
   ],
   "note": ""
  },
  {
   "property": "C07",
   "status": "proved",
   "theorems": [
    "C07_even_spacing",
    "C07_even_spacing_converse",
    "C07_record_length_and_reftime_scalar",
    "C07_record_length_and_reftime_vector",
    "C07_reported_reftime",
    "C07_blanking_data"
   ],
   "note": ""
  },
  {
   "property": "C08",
   "status": "proved",
   "theorems": [
    "C08_bad_arguments_rejected",
    "C08_checks_pass_exactly",
    "C08_success_implies_checks",
    "C08_lists_rejected"
   ],
   "note": ""
  },
  {
   "property": "C09",
   "status": "proved",
   "theorems": [
    "C09_unknown_option_rejected",
    "C09_KeyError_iff_unknown",
    "C09_strict_rejected",
    "C09_accepted_options_are_documented",
    "C09_settings_take_effect",
    "C09_MC_n_is_ignored"
   ],
   "note": "The defaults table is an immutable value in the model; 'earlier calls cannot influence later ones' holds by construction. The keyword 'strict' is rejected with TypeError instead of KeyError."
  },
  {
   "property": "C10",
   "status": "proved",
   "theorems": [
    "C10_correction_modes"
   ],
   "note": ""
  },
  {
   "property": "C11",
   "status": "proved",
   "theorems": [
    "C11_conf_int_values",
    "C11_bad_conf_int_rejected",
    "C11_none_has_no_intervals",
    "C11_otherwise_has_intervals",
    "C11_none_reconstructs_everything"
   ],
   "note": ""
  },
  {
   "property": "C12",
   "status": "proved",
   "theorems": [
    "C12_order_constit_values"
   ],
   "note": ""
  },
  {
   "property": "C13",
   "status": "proved",
   "theorems": [
    "C13_infer_accepted_iff",
    "C13_only_approximate_is_added",
    "C13_wrong_lengths",
    "C13_solve_used_a_wellformed_infer",
    "C13_missing_keys_never_accepted",
    "C13_missing_keys_ValueError_refuted",
    "C13_plain_dict_refuted"
   ],
   "note": "The documented ValueError for missing keys and the documented plain dict are refuted."
  },
  {
   "property": "C14",
   "status": "proved",
   "theorems": [
    "C14_every_other_method_is_robust",
    "C14_ols_weights_are_one"
   ],
   "note": ""
  },
  {
   "property": "C15",
   "status": "proved",
   "theorems": [
    "C15_automatic_selection",
    "C15_selected_iff_separated",
    "C15_names_of_a_run",
    "C15_longer_records_lose_nothing"
   ],
   "note": ""
  },
  {
   "property": "C16",
   "status": "proved",
   "theorems": [
    "C16_selected_pairs_resolved",
    "C16_pairs_of_a_run",
    "C16_K1_M2_refuted"
   ],
   "note": ""
  },
  {
   "property": "C17",
   "status": "proved",
   "theorems": [
    "C17_separation_is_a_difference",
    "C17_without_comparison_zero",
    "C17_Z0_separation_zero",
    "C17_comparison_selected_refuted"
   ],
   "note": ""
  },
  {
   "property": "C18",
   "status": "proved",
   "theorems": [
    "C18_string",
    "C18_explicit_names",
    "C18_names_of_a_run",
    "C18_unknown_name",
    "C18_unknown_name_in_a_run"
   ],
   "note": ""
  },
  {
   "property": "C19",
   "status": "proved",
   "theorems": [
    "C19_layout",
    "C19_first_group_disjoint",
    "C19_known_names_accepted",
    "C19_unknown_names_KeyError"
   ],
   "note": ""
  },
  {
   "property": "C20",
   "status": "proved",
   "theorems": [
    "C20_requests_kept_together"
   ],
   "note": ""
  },
  {
   "property": "C21",
   "status": "proved",
   "theorems": [
    "C21_rates",
    "C21_wrapped"
   ],
   "note": ""
  },
  {
   "property": "C22",
   "status": "proved",
   "theorems": [
    "C22_wrapping_invisible",
    "C22_M7_refuted",
    "C22_M7_jumps"
   ],
   "note": "Proved for the 145 constituents other than M7; for M7 the jump is exhibited (C22_M7_refuted) and discontinuity of its basis function proved."
  },
  {
   "property": "C23",
   "status": "proved",
   "theorems": [
    "C23_derivative",
    "C23_shallow"
   ],
   "note": ""
  },
  {
   "property": "C24",
   "status": "proved",
   "theorems": [
    "C24_modes"
   ],
   "note": ""
  },
  {
   "property": "C25",
   "status": "proved",
   "theorems": [
    "C25_shortcut",
    "C25_entries"
   ],
   "note": ""
  },
  {
   "property": "C26",
   "status": "proved",
   "theorems": [
    "C26_finite",
    "C26_near_equator",
    "C26_equator_refuted"
   ],
   "note": "Finiteness proved for every latitude with 0 < |lat| <= 90; at latitude 0 the claim is refuted for every primary constituent with a satellite carrying the diurnal latitude factor."
  },
  {
   "property": "C27",
   "status": "proved",
   "theorems": [
    "C27_none",
    "C27_linear",
    "C27_basis",
    "C27_unit_modulus",
    "C27_constant_modulus"
   ],
   "note": ""
  },
  {
   "property": "C28",
   "status": "proved",
   "theorems": [
    "C28_rowwise"
   ],
   "note": ""
  },
  {
   "property": "C29",
   "status": "proved",
   "theorems": [
    "C29_one_band",
    "C29_level",
    "C29_Z0"
   ],
   "note": ""
  },
  {
   "property": "C30",
   "status": "proved",
   "theorems": [
    "C30_vector",
    "C30_scalar",
    "C30_rows",
    "C30_solve"
   ],
   "note": ""
  },
  {
   "property": "C31",
   "status": "proved",
   "theorems": [
    "C31_motion",
    "C31_rotation_sense",
    "C31_unique",
    "C31_scalar",
    "C31_scalar_unique"
   ],
   "note": ""
  },
  {
   "property": "C32",
   "status": "proved",
   "theorems": [
    "C32_extremes",
    "C32_energy",
    "C32_scalar_energy"
   ],
   "note": ""
  },
  {
   "property": "C33",
   "status": "proved",
   "theorems": [
    "C33_rotation",
    "C33_circular_refuted",
    "C33_swap",
    "C33_scaling",
    "C33_scalar_scaling",
    "C33_negation"
   ],
   "note": ""
  },
  {
   "property": "C34",
   "status": "proved",
   "theorems": [
    "C34_scalar_range",
    "C34_vector_range",
    "C34_representable",
    "C34_accuracy",
    "C34_upper_end",
    "C34_half_open_refuted",
    "C34_vector_half_open_refuted"
   ],
   "note": "Angle arithmetic in binary64 (Flocq formats, round to nearest even, no overflow); closed ranges proved, half-open ranges refuted."
  },
  {
   "property": "C35",
   "status": "proved",
   "theorems": [
    "C35_model_fit",
    "C35_reconstruct"
   ],
   "note": ""
  },
  {
   "property": "C36",
   "status": "proved",
   "theorems": [
    "C36_least_squares",
    "C36_output"
   ],
   "note": ""
  },
  {
   "property": "C37",
   "status": "proved",
   "theorems": [
    "C37_reproduced",
    "C37_recovered",
    "C37_output",
    "C37_predictions"
   ],
   "note": ""
  },
  {
   "property": "C38",
   "status": "proved",
   "theorems": [
    "C38_residuals",
    "C38_variance",
    "C38_output"
   ],
   "note": ""
  },
  {
   "property": "C39",
   "status": "proved",
   "theorems": [
    "C39_scaled_and_shifted",
    "C39_negated",
    "C39_linear"
   ],
   "note": ""
  },
  {
   "property": "C40",
   "status": "proved",
   "theorems": [
    "C40_rotary",
    "C40_amplitude_phase"
   ],
   "note": ""
  },
  {
   "property": "C41",
   "status": "proved",
   "theorems": [
    "C41_exact",
    "C41_approximate",
    "C41_approximate_residuals",
    "C41_approximate_fit_refuted",
    "C41_approximate_single",
    "C41_approximate_refused"
   ],
   "note": ""
  },
  {
   "property": "C42",
   "status": "proved",
   "theorems": [
    "C42_same_rows",
    "C42_named_rows_intact",
    "C42_all_names"
   ],
   "note": ""
  },
  {
   "property": "C43",
   "status": "proved",
   "theorems": [
    "C43_sorted",
    "C43_name_sequence",
    "C43_unknown_name"
   ],
   "note": ""
  },
  {
   "property": "C44",
   "status": "proved",
   "theorems": [
    "C44_order_irrelevant"
   ],
   "note": ""
  },
  {
   "property": "C45",
   "status": "proved",
   "theorems": [
    "C45_percent_of_total",
    "C45_sum_is_100",
    "C45_non_negative",
    "C45_scaling",
    "C45_no_energy_NaN",
    "C45_SNR",
    "C45_present"
   ],
   "note": ""
  },
  {
   "property": "C46",
   "status": "proved",
   "theorems": [
    "C46_table",
    "C46_independent_of_order"
   ],
   "note": ""
  },
  {
   "property": "C47",
   "status": "proved",
   "theorems": [
    "C47_harmonic_sum",
    "C47_solve_output"
   ],
   "note": ""
  },
  {
   "property": "C48",
   "status": "proved",
   "theorems": [
    "C48_shape",
    "C48_nan_exactly_at_invalid_times",
    "C48_equator_refuted",
    "C48_time_by_time",
    "C48_concatenation",
    "C48_dimensions"
   ],
   "note": "NaN exactly at invalid times holds when nodal corrections are off or the latitude is not 0 (0 < |lat| <= 90); C48_equator_refuted shows NaN at valid times on the equator."
  },
  {
   "property": "C49",
   "status": "proved",
   "theorems": [
    "C49_string",
    "C49_string_refuted",
    "C49_named",
    "C49_only_known_names_matter",
    "C49_thresholds"
   ],
   "note": ""
  },
  {
   "property": "C50",
   "status": "proved",
   "theorems": [
    "C50_monotone",
    "C50_reported",
    "C50_reported_refuted"
   ],
   "note": "Selection uses the reported PE and SNR for every order that keeps all constituents; for an order_constit list naming only some, C50_reported_refuted shows the PE used differs from the PE reported."
  },
  {
   "property": "C51",
   "status": "proved",
   "theorems": [
    "C51_additive",
    "C51_background"
   ],
   "note": ""
  },
  {
   "property": "C52",
   "status": "proved",
   "theorems": [
    "C52_weights",
    "C52_usable_names",
    "C52_unusable_names"
   ],
   "note": ""
  },
  {
   "property": "C53",
   "status": "proved",
   "theorems": [
    "C53_weights_match",
    "C53_solve",
    "C53_maxit_refuted"
   ],
   "note": "Proved for stops by convergence or deterioration (robustfit and solve level, any solver meeting lstsq_contract); C53_maxit_refuted shows the returned weights do not match after maxit passes."
  },
  {
   "property": "C54",
   "status": "proved",
   "theorems": [
    "C54_passes",
    "C54_smallest",
    "C54_no_pass"
   ],
   "note": ""
  },
  {
   "property": "C55",
   "status": "proved",
   "theorems": [
    "C55_rms",
    "C55_converged_refuted"
   ],
   "note": "Proved: rms of the returned coefficients, or of the previous pass after convergence; C55_converged_refuted shows the two differ."
  },
  {
   "property": "C56",
   "status": "proved",
   "theorems": [
    "C56_scale",
    "C56_shift_and_factor",
    "C56_rotation_refuted"
   ],
   "note": "The rotation part is refuted (C56_rotation_refuted)."
  },
  {
   "property": "C57",
   "status": "proved",
   "theorems": [
    "C57_vector",
    "C57_scalar",
    "C57_undefined",
    "C57_half_widths",
    "C57_half_widths_scalar"
   ],
   "note": "C57_vector and C57_half_widths include the case Xv = 0, where minor axis and orientation get 0 (see C58)."
  },
  {
   "property": "C58",
   "status": "proved",
   "theorems": [
    "C58_zero",
    "C58_refuted"
   ],
   "note": "For Xv <> 0 see C57_vector; C58_zero and C58_refuted cover Xv = 0."
  },
  {
   "property": "C59",
   "status": "proved",
   "theorems": [
    "C59_scalar",
    "C59_vector",
    "C59_u_ignored_refuted",
    "C59_swap_refuted"
   ],
   "note": "Scalar rescaling proved; for vectors u is not rescaled (two refutations)."
  },
  {
   "property": "C60",
   "status": "proved",
   "theorems": [
    "C60_columns",
    "C60_no_inference",
    "C60_inference_refuted"
   ],
   "note": "Proved without inference; refuted for every constituent as soon as there is at least one reference and one non-reference constituent."
  },
  {
   "property": "C61",
   "status": "proved",
   "theorems": [
    "C61_solve"
   ],
   "note": ""
  },
  {
   "property": "C62",
   "status": "proved",
   "theorems": [
    "C62_cluster"
   ],
   "note": ""
  },
  {
   "property": "C63",
   "status": "proved",
   "theorems": [
    "C63_vector",
    "C63_scalar",
    "C63_orientation_refuted"
   ],
   "note": "What the half-widths are is proved; independence of the branch of the orientations is refuted."
  },
  {
   "property": "C64",
   "status": "proved",
   "theorems": [
    "C64_result",
    "C64_errors",
    "C64_semidefinite_kept"
   ],
   "note": "The last theorem needs an exact SVD (hypothesis on the library)."
  },
  {
   "property": "C65",
   "status": "proved",
   "theorems": [
    "C65_stage",
    "C65_solve"
   ],
   "note": ""
  },
  {
   "property": "C66",
   "status": "proved",
   "theorems": [
    "C66_band_averages",
    "C66_between",
    "C66_empty_grid",
    "C66_even_residual",
    "C66_uneven_residual",
    "C66_too_few_uneven"
   ],
   "note": "scipy.signal.lombscargle is an oracle satisfying lomb_contract (S_Period)."
  },
  {
   "property": "C67",
   "status": "proved",
   "theorems": [
    "C67_values",
    "C67_cross_values",
    "C67_length",
    "C67_non_negative",
    "C67_scaling",
    "C67_cross_scaling",
    "C67_total_power",
    "C67_total_cross_power",
    "C67_window",
    "C67_cross_bound",
    "C67_levels",
    "C67_level_scaling",
    "C67_uneven_values",
    "C67_uneven_bounds",
    "C67_methods_agree"
   ],
   "note": "Uneven spectra: values and bounds at frequencies resolved by the sample times, under lomb_contract."
  },
  {
   "property": "C68",
   "status": "proved",
   "theorems": [
    "C68_lomb_frequencies",
    "C68_per_band",
    "C68_whole_grid",
    "C68_bands"
   ],
   "note": ""
  },
  {
   "property": "C69",
   "status": "proved",
   "theorems": [
    "C69_update_values",
    "C69_update_None",
    "C69_construction"
   ],
   "note": ""
  },
  {
   "property": "C70",
   "status": "proved",
   "theorems": [
    "C70_attribute_is_item",
    "C70_method_names_shadow_items",
    "C70_missing_attribute",
    "C70_missing_attribute_refuted"
   ],
   "note": "A missing attribute raises AttributeError for every name except t_mpl (KeyError), shown by the refutation."
  },
  {
   "property": "C71",
   "status": "proved",
   "theorems": [
    "C71_str_lists_every_key_once_sorted",
    "C71_str_of_empty_raises"
   ],
   "note": ""
  },
  {
   "property": "C72",
   "status": "proved",
   "theorems": [
    "C72_names_distinct",
    "C72_index_inverts_names",
    "C72_unknown_name_KeyError",
    "C72_frequencies_increasing",
    "C72_cycles_per_hour",
    "C72_hours_per_cycle_is_reciprocal"
   ],
   "note": ""
  },
  {
   "property": "C73",
   "status": "proved",
   "theorems": [
    "C73_shallow_or_primary",
    "C73_rows_combine_primaries",
    "C73_shallow_has_rows",
    "C73_integer_multipliers",
    "C73_M7_not_integer_refuted",
    "C73_frequency_of_shallow",
    "C73_argument_of_shallow",
    "C73_nodal_phase_of_shallow",
    "C73_nodal_factor_of_shallow"
   ],
   "note": ""
  },
  {
   "property": "C74",
   "status": "proved",
   "theorems": [
    "C74_exact_data"
   ],
   "note": ""
  },
  {
   "property": "C75",
   "status": "proved",
   "theorems": [
    "C75_leverage",
    "C75_range"
   ],
   "note": "The range is proved for pseudo-inverses whose hat matrix is a projection (hypothesis on the library's pinv)."
  },
  {
   "property": "C76",
   "status": "proved",
   "theorems": [
    "C76_inferred_refuted",
    "C76_scalar",
    "C76_vector"
   ],
   "note": "The propagated intervals are refuted; C76_scalar and C76_vector give the reported ones of a whole analysis in terms of the variances behind the reference's intervals."
  },
  {
   "property": "C77",
   "status": "proved",
   "theorems": [
    "C77_exists",
    "C77_scalar",
    "C77_vector"
   ],
   "note": "Under exact least squares and exact matrix inversion (hypotheses on numpy.linalg.lstsq and inv). For Xv = 0 the minor-axis and orientation half-widths are 0 (see C58)."
  },
  {
   "property": "C78",
   "status": "proved",
   "theorems": [
    "C78_primary",
    "C78_shallow",
    "C78_basis",
    "C78_scalar_tide",
    "C78_vector_tide"
   ],
   "note": ""
  },
  {
   "property": "C79",
   "status": "proved",
   "theorems": [
    "C79_noise_levels"
   ],
   "note": ""
  },
  {
   "property": "C80",
   "status": "proved",
   "theorems": [
    "C80_scalar",
    "C80_vector"
   ],
   "note": ""
  },
  {
   "property": "C81",
   "status": "proved",
   "theorems": [
    "C81_exists",
    "C81_scalar",
    "C81_vector"
   ],
   "note": "Under exact least squares, exact matrix inversion and shape-correct draws (hypotheses on numpy); the sampler itself is an oracle."
  },
  {
   "property": "C82",
   "status": "proved",
   "theorems": [
    "C82_scalar",
    "C82_vector"
   ],
   "note": "Even sampling, exact least squares, inversion and 2x2 SVD, shape-correct draws (hypotheses on numpy); the sampler is an oracle. In the vector case the repaired covariance is stated as the result of nearestSPD."
  },
  {
   "property": "C83",
   "status": "proved",
   "theorems": [
    "C83_contents",
    "C83_succeeds",
    "C83_errors"
   ],
   "note": "scipy.io.loadmat and numpy.load are oracles giving the file's contents; contents are assumed well formed (as many elements as the shape says, distinct field names)."
  },
  {
   "property": "C84",
   "status": "proved",
   "theorems": [
    "C84_lines",
    "C84_nothing",
    "C84_errors"
   ],
   "note": "The texts of numbers and of shape and dtype are supplied by the formatter (arguments of the model)."
  },
  {
   "property": "C85",
   "status": "proved",
   "theorems": [
    "C85_cleaned",
    "C85_errors",
    "C85_idempotent",
    "C85_constants",
    "C85_single_string_refuted",
    "C85_white_space_refuted"
   ],
   "note": "Two sentences of the docstring are refuted."
  },
  {
   "property": "C86",
   "status": "proved",
   "theorems": [
    "C86_solve",
    "C86_default",
    "C86_keywords",
    "C86_unknown_keyword",
    "C86_not_a_dict"
   ],
   "note": "Under the least-squares contract for every rcond (hypothesis on numpy.linalg.lstsq); pinv is whatever the library returns. Approximate inference excluded."
  },
  {
   "property": "C87",
   "status": "proved",
   "theorems": [
    "C87_exists",
    "C87_scalar",
    "C87_vector",
    "C87_datum",
    "C87_datum_refuted"
   ],
   "note": "Under exact matrix inversion (hypothesis on numpy.linalg.inv). Independence of the datum is refuted by two robust analyses of seven samples; C87_datum gives the change."
  },
  {
   "property": "C88",
   "status": "proved",
   "theorems": [
    "C88_white",
    "C88_coloured"
   ],
   "note": "Under exact least squares and matrix inversion (hypotheses on numpy.linalg); sample times that tell the coefficients apart; for uneven times and coloured noise the Lomb-Scargle power is assumed quadratic in the data."
  },
  {
   "property": "C89",
   "status": "proved",
   "theorems": [
    "C89_robustfit",
    "C89_scaled",
    "C89_negated"
   ],
   "note": "Under the least-squares contract for every rcond (hypothesis on numpy.linalg.lstsq), without approximate inference for whole analyses."
  },
  {
   "property": "C90",
   "status": "proved",
   "theorems": [
    "C90_ols",
    "C90_robust"
   ],
   "note": "Linearised intervals (or none); Monte-Carlo intervals depend on random draws and are not covered. Least squares as in C35 (ols) or C86 (robust); for uneven times and coloured noise the Lomb-Scargle power is assumed quadratic in the data. Ordinary least squares: no approximate inference, identifiable coefficients."
  },
  {
   "property": "C91",
   "status": "proved",
   "theorems": [
    "C91_scalar",
    "C91_vector",
    "C91_datum"
   ],
   "note": "Under exact matrix inversion (hypothesis on numpy.linalg.inv); C91_datum under the least-squares contract for every rcond, and for uneven times with a Lomb-Scargle power quadratic in the data. The first component of vector data keeps the white-noise measure, so vector intervals do depend on the datum (C87)."
  },
  {
   "property": "C92",
   "status": "proved",
   "theorems": [
    "C92_sum_output",
    "C92_tide_output",
    "C92_residuals_output",
    "C92_sum",
    "C92_tide_added",
    "C92_residuals_again"
   ],
   "note": "Under exact least squares (hypothesis on numpy.linalg.lstsq); approximate inference excluded (C41 shows why); complete times in all series (the samples of each have the same times)."
  },
  {
   "property": "C93",
   "status": "proved",
   "theorems": [
    "C93_output",
    "C93_components"
   ],
   "note": "Under exact least squares (hypothesis on numpy.linalg.lstsq), without inference (the inference options of scalar and vector analyses differ in form)."
  },
  {
   "property": "C94",
   "status": "proved",
   "theorems": [
    "C94_output",
    "C94_coefficients",
    "C94_whole",
    "C94_reference_time",
    "C94_any_order_refuted"
   ],
   "note": "Under exact least squares (hypothesis on numpy.linalg.lstsq); approximate inference excluded. That any order is harmless is refuted by a rising level with the last two samples exchanged (mean 2 and mean 1). With coloured noise the order of the samples enters the spectra; not covered."
  },
  {
   "property": "C95",
   "status": "proved",
   "theorems": [
    "C95_only_minimum",
    "C95_choice",
    "C95_same_model",
    "C95_options",
    "C95_latitude",
    "C95_output"
   ],
   "note": "C95_only_minimum and C95_choice under exact least squares (hypothesis on numpy.linalg.lstsq), approximate inference excluded; C95_options and C95_latitude without numerical hypotheses."
  },
  {
   "property": "C96",
   "status": "proved",
   "theorems": [
    "C96_turned_output",
    "C96_mirrored_output",
    "C96_turned",
    "C96_mirrored",
    "C96_exchange"
   ],
   "note": "Under exact least squares (hypothesis on numpy.linalg.lstsq); approximate inference excluded. Intervals are not covered: linearised half-widths for one component at a time are not invariant (C58)."
  },
  {
   "property": "C97",
   "status": "proved",
   "theorems": [
    "C97_discarded",
    "C97_equal_weights",
    "C97_ols_weights",
    "C97_output",
    "C97_ols_output"
   ],
   "note": "Under exact least squares (hypothesis lstsq_contract on numpy.linalg.lstsq for every rcond); approximate inference excluded. A run that used up maxit passes is left open by C97_discarded and C97_equal_weights (C53_maxit_refuted shows why), not by C97_ols_weights."
  },
  {
   "property": "C98",
   "status": "proved",
   "theorems": [
    "C98_filled",
    "C98_thinned",
    "C98_repeated",
    "C98_union",
    "C98_filled_output",
    "C98_thinned_output"
   ],
   "note": "Under exact least squares (hypothesis on numpy.linalg.lstsq); approximate inference excluded. Half-widths change with the number of samples and are not covered."
  },
  {
   "property": "C99",
   "status": "proved",
   "theorems": [
    "C99_frame",
    "C99_value",
    "C99_history",
    "C99_kept",
    "C99_reconstruct",
    "C99_arguments_unchanged_refuted",
    "C99_own_result_refuted"
   ],
   "note": "Dictionaries and Bunches are objects, everything else is a value; arrays inside them are not shared objects of the model. That arguments are never changed is refuted by an infer Bunch without approximate. That a result may be edited without consequences is refuted by an item written to its robust_kw, which belongs to the package."
  },
  {
   "property": "C100",
   "status": "proved",
   "theorems": [
    "C100_no_intervals",
    "C100_linear_intervals",
    "C100_one_time",
    "C100_equator",
    "C100_no_constituents"
   ],
   "note": "Hypotheses on numpy: lstsq and inv return (lstsq_returns for matrices with a row, inv_returns for regular matrices). Monte-Carlo intervals, robust analyses and inference are not covered. In C100_linear_intervals that the samples tell the coefficients apart is said of the analysis without intervals, which exists by C100_no_intervals."
  },
  {
   "property": "C101",
   "status": "proved",
   "theorems": [
    "C101_never_worse",
    "C101_nothing_invented",
    "C101_energy",
    "C101_wider"
   ],
   "note": "Under exact least squares (hypothesis on numpy.linalg.lstsq) for the wider model; nothing is assumed of the routine used for the narrower one. No inference, except in C101_energy (exact inference allowed). Exact arithmetic."
  },
  {
   "property": "C102",
   "status": "proved",
   "theorems": [
    "C102_accuracy",
    "C102_order",
    "C102_exact",
    "C102_matlab",
    "C102_even",
    "C102_equal_steps_refuted"
   ],
   "note": "Binary64 round to nearest even; overflow and signed zeros not modelled; np.var as two rounded sums in any order of additions and rounded quotients. That the rounded times are themselves evenly spaced is refuted (hourly dates)."
  },
  {
   "property": "C103",
   "status": "proved",
   "theorems": [
    "C103_accepted",
    "C103_one_pass",
    "C103_more_samples",
    "C103_identifiable",
    "C103_noise"
   ],
   "note": "Hypotheses on numpy: lstsq reports the sum of squares for full-rank overdetermined matrices (lstsq_sums) and not otherwise (lstsq_no_sums), pinv of a full-rank matrix gives the orthogonal projection (pinv_exact). Exact arithmetic: in floating point a noiseless record leaves residuals of rounding size. Bisquare and talwar weights can vanish, so acceptance with them is stated for one pass only. All library hypotheses of the development hold together for the exact library exactL (C103_library)."
  },
  {
   "property": "C104",
   "status": "proved",
   "theorems": [
    "C104_range",
    "C104_range_plain",
    "C104_attained",
    "C104_period",
    "C104_half",
    "C104_smooth"
   ],
   "note": "Exact arithmetic. The steady case (period, half period, attained, smoothness) needs nodal False or linear_time and phase raw or linear_time; with the default settings factors and phases drift with time and only the bound on the size applies."
  },
  {
   "property": "C105",
   "status": "proved",
   "theorems": [
    "C105_split",
    "C105_contraction",
    "C105_one_sample"
   ],
   "note": "Under exact least squares (hypothesis on numpy.linalg.lstsq); approximate inference excluded; exact arithmetic. Not claimed for robust methods, where one sample can change the weights of all."
  },
  {
   "property": "C106",
   "status": "proved",
   "theorems": [
    "C106_no_chance",
    "C106_same_but_intervals",
    "C106_predictions",
    "C106_reconstruct"
   ],
   "note": "Random numbers are the results of numpy.random.multivariate_normal (oracle l_mvn), the only random routine the package calls. Rows are compared up to their order. Robust and ordinary fits are both covered."
  },
  {
   "property": "C107",
   "status": "proved",
   "theorems": [
    "C107_intervals",
    "C107_vector",
    "C107_white",
    "C107_linear",
    "C107_spare",
    "C107_noise"
   ],
   "note": "Library hypotheses: multivariate_normal draws for every square covariance, svd gives a result for every symmetric and eigvals for every square matrix; vector data with coloured noise: also an exact inverse, an exact minimiser and the Lomb-Scargle contract. Acceptance of the linearised call itself is C100_linear_intervals."
  },
  {
   "property": "C108",
   "status": "proved",
   "theorems": [
    "C108_linear",
    "C108_needed",
    "C108_positive",
    "C108_robust"
   ],
   "note": "Library hypotheses: inv gives the exact inverse of every invertible matrix (acceptance) and gives only inverses (necessity); robust acceptance: lstsq returns residual sums and pinv is exact; coloured noise: the Lomb-Scargle contract. Options without inference."
  },
  {
   "property": "C109",
   "status": "proved",
   "theorems": [
    "C109_solve_unchanged",
    "C109_reconstruct_unchanged",
    "C109_session",
    "C109_solve_value",
    "C109_reconstruct_value",
    "C109_reconstruct_arrays",
    "C109_own_series"
   ],
   "note": "An array is a list of addresses, so views and overlapping arguments are covered. Modelled in memory: arguments, the table sat.amprat, arrays created from others and then written in place, results of reconstruct. Arrays that the package creates and nobody writes to later are values; the other tables of the package are never written to. np.ma.masked_invalid is modelled as copying. The in-place steps of confidence.py on its own new arrays (_psd, nearestSPD) are values."
  },
  {
   "property": "C110",
   "status": "proved",
   "theorems": [
    "C110_accepted",
    "C110_references",
    "C110_nobody_else",
    "C110_unknown_names"
   ],
   "note": "Assumes of numpy that lstsq returns a solution of the right shape (lstsq_shape, lstsq_returns) and that argsort returns a permutation (argsort_perm). The references NO1, OO1, UPS1 (satellite ratios adding up to one or more) and M7 (a shallow-water coefficient of 3.5, so its correction is not a product of whole powers) are covered only when their correction is known not to vanish, with nodal corrections off, or with approximate inference."
  },
  {
   "property": "C111",
   "status": "proved",
   "theorems": [
    "C111_accepted",
    "C111_numbers",
    "C111_approximate",
    "C111_all_or_none",
    "C111_equator",
    "C111_equator_result",
    "C111_restless"
   ],
   "note": "The equator claims use that numpy's lstsq raises for a non-finite matrix (as in the model of _solv1); every analysis is one whose lstsq returns a solution of the right shape and whose argsort returns a permutation. With approximate inference only constituents of the fit are covered, because the corrections of inferred ones are not part of the matrix."
  },
  {
   "property": "C112",
   "status": "proved",
   "theorems": [
    "C112_linear",
    "C112_needed"
   ],
   "note": "Assumes of numpy that inv gives a matrix for a square matrix of full rank (inv_returns) and, for the converse, that what it gives is the inverse (inv_exact); coloured noise needs the Lomb periodogram contract (lomb_contract). Approximate inference, and acceptance for vector data whose two senses of rotation have different ratios, are not covered."
  },
  {
   "property": "C113",
   "status": "proved",
   "theorems": [
    "C113_approximate",
    "C113_inferred",
    "C113_ratios"
   ],
   "note": "Ordinary least squares only. Hypotheses: the least-squares oracles of both analyses minimise, the analysis without inference has a model the samples tell apart, no constituent occurs twice. The two analyses need not use the same library and may hold the samples in different orders."
  },
  {
   "property": "C114",
   "status": "proved",
   "theorems": [
    "C114_lines",
    "C114_variables",
    "C114_failure",
    "C114_unchanged",
    "C114_pieces",
    "C114_multiline_refuted"
   ],
   "note": "compile and exec are an oracle from the program text to the variable _temp_out or an exception; Python's translation of line endings is taken as done. That strings spanning lines keep their value is refuted."
  }
 ]
}