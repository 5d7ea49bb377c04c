{
 "claims": [
  {
   "property": "C01",
   "status": "proved",
   "theorems": [
    "C01_bitfield_is_bit_array"
   ],
   "note": ""
  },
  {
   "property": "C02",
   "status": "proved",
   "theorems": [
    "C02_write_read_roundtrip",
    "C02_width1_is_truthiness"
   ],
   "note": ""
  },
  {
   "property": "C03",
   "status": "proved",
   "theorems": [
    "C03_write_frame",
    "C03_writeFloat_frame"
   ],
   "note": ""
  },
  {
   "property": "C04",
   "status": "proved",
   "theorems": [
    "C04_truncated_write_read",
    "C04_read_is_the_bits_that_exist"
   ],
   "note": ""
  },
  {
   "property": "C05",
   "status": "proved",
   "theorems": [
    "C05_width0_undefined",
    "C05_wide_refused",
    "C05_ragged_area_undefined"
   ],
   "note": "Undefined cases stated as Ub theorems; widths above 32 refused."
  },
  {
   "property": "C06",
   "status": "proved",
   "theorems": [
    "C06_float_roundtrip"
   ],
   "note": ""
  },
  {
   "property": "C07",
   "status": "proved",
   "theorems": [
    "C07_uninitialised_refuses",
    "C07_setup_guard",
    "C07_dump_prefix"
   ],
   "note": ""
  },
  {
   "property": "C08",
   "status": "proved",
   "theorems": [
    "C08_generic_is_polynomial_crc",
    "C08_spec_is_functional"
   ],
   "note": ""
  },
  {
   "property": "C09",
   "status": "proved",
   "theorems": [
    "C09_crc_affine",
    "C09_crc_linear"
   ],
   "note": ""
  },
  {
   "property": "C10",
   "status": "proved",
   "theorems": [
    "C10_burst_detection"
   ],
   "note": ""
  },
  {
   "property": "C11",
   "status": "proved",
   "theorems": [
    "C11_incremental"
   ],
   "note": ""
  },
  {
   "property": "C12",
   "status": "proved",
   "theorems": [
    "C12_range",
    "C12_degenerate",
    "C12_overlong_undefined"
   ],
   "note": ""
  },
  {
   "property": "C13",
   "status": "proved",
   "theorems": [
    "C13_presets_match_documentation",
    "C13_DNP_actual_parameters",
    "C13_DNP_comment_refuted"
   ],
   "note": ""
  },
  {
   "property": "C14",
   "status": "proved",
   "theorems": [
    "C14_delay_line_holds_last_n",
    "C14_line_is_last_samples"
   ],
   "note": ""
  },
  {
   "property": "C15",
   "status": "proved",
   "theorems": [
    "C15_bad_index_is_nan",
    "C15_one_element_line_reads_out_of_bounds",
    "C15_bad_size_undefined"
   ],
   "note": ""
  },
  {
   "property": "C16",
   "status": "proved",
   "theorems": [
    "C16_transport_delay",
    "C16_delayed_is_pure_delay",
    "C16_n_tap_line_delays_n_minus_1"
   ],
   "note": ""
  },
  {
   "property": "C17",
   "status": "proved",
   "theorems": [
    "C17_sort_sorts",
    "C17_sort_stack_never_overflows",
    "C17_reversed_range_swaps_ends"
   ],
   "note": ""
  },
  {
   "property": "C18",
   "status": "proved",
   "theorems": [
    "C18_comparator_sort_is_a_rearrangement",
    "C18_comparator_sorts_refuted"
   ],
   "note": ""
  },
  {
   "property": "C19",
   "status": "proved",
   "theorems": [
    "C19_reverse",
    "C19_rotate",
    "C19_rotate_negative_multiple_undefined"
   ],
   "note": ""
  },
  {
   "property": "C20",
   "status": "proved",
   "theorems": [
    "C20_fill",
    "C20_find",
    "C20_any_of",
    "C20_all_of",
    "C20_count_if",
    "C20_for_each"
   ],
   "note": ""
  },
  {
   "property": "C21",
   "status": "proved",
   "theorems": [
    "C21_find_if_returns_last",
    "C21_find_if_first_refuted",
    "C21_replace_changes_first_only",
    "C21_replace_if_changes_first_only",
    "C21_replace_all_refuted"
   ],
   "note": ""
  },
  {
   "property": "C22",
   "status": "proved",
   "theorems": [
    "C22_binary_search"
   ],
   "note": ""
  },
  {
   "property": "C23",
   "status": "proved",
   "theorems": [
    "C23_add_exact_or_flagged",
    "C23_sub_exact_or_flagged"
   ],
   "note": ""
  },
  {
   "property": "C24",
   "status": "proved",
   "theorems": [
    "C24_mul_correct",
    "C24_mul_correct_nonnegative",
    "C24_nearest_functional",
    "C24_mul_refuted"
   ],
   "note": ""
  },
  {
   "property": "C25",
   "status": "proved",
   "theorems": [
    "C25_div_correct",
    "C25_div_by_zero",
    "C25_div_of_sentinel"
   ],
   "note": ""
  },
  {
   "property": "C26",
   "status": "proved",
   "theorems": [
    "C26_int_round_trip",
    "C26_toInt_rounds",
    "C26_floor",
    "C26_ceil",
    "C26_int_round_trip_refuted",
    "C26_rounding_refuted"
   ],
   "note": ""
  },
  {
   "property": "C27",
   "status": "proved",
   "theorems": [
    "C27_comparisons_are_rational_order",
    "C27_abs_and_neg"
   ],
   "note": ""
  },
  {
   "property": "C28",
   "status": "proved",
   "theorems": [
    "C28_wrapToPi",
    "C28_wrapTo180",
    "C28_wrapToPi_within_pi_refuted"
   ],
   "note": ""
  },
  {
   "property": "C29",
   "status": "proved",
   "theorems": [
    "C29_sqrt_rounded",
    "C29_sqrt_below_4096",
    "C29_sqrt_non_positive",
    "C29_sqrt_refuted"
   ],
   "note": ""
  },
  {
   "property": "C30",
   "status": "proved",
   "theorems": [
    "C30_toASCII",
    "C30_toASCII_length",
    "C30_toASCII_overflow"
   ],
   "note": ""
  },
  {
   "property": "C31",
   "status": "proved",
   "theorems": [
    "C31_exp_saturates",
    "C31_log_of_non_positive",
    "C31_hyperbolic_saturates",
    "C31_log2_of_powers_of_two",
    "C31_special_values_refuted"
   ],
   "note": ""
  },
  {
   "property": "C32",
   "status": "proved",
   "theorems": [
    "C32_rectangular_exact",
    "C32_trapezoidal_exact",
    "C32_quadratic_exact",
    "C32_simpson_average",
    "C32_simpson_constant",
    "C32_simpson_ramp_refuted",
    "C32_rule_weights"
   ],
   "note": ""
  },
  {
   "property": "C33",
   "status": "proved",
   "theorems": [
    "C33_two_points_exact",
    "C33_backward_exact",
    "C33_forward_exact",
    "C33_derive_keeps_value",
    "C33_no_update_keeps_history"
   ],
   "note": ""
  },
  {
   "property": "C34",
   "status": "proved",
   "theorems": [
    "C34_output_within_limits",
    "C34_limits_configured",
    "C34_exact_output_within_limits"
   ],
   "note": ""
  },
  {
   "property": "C35",
   "status": "proved",
   "theorems": [
    "C35_control_law",
    "C35_documented_law",
    "C35_derivative_refuted"
   ],
   "note": ""
  },
  {
   "property": "C36",
   "status": "proved",
   "theorems": [
    "C36_refused_changes_nothing",
    "C36_accepted_iff",
    "C36_initialised_iff",
    "C36_uninitialised_control",
    "C36_setup_tests_previous_step",
    "C36_settings",
    "C36_control_keeps_settings"
   ],
   "note": ""
  },
  {
   "property": "C37",
   "status": "proved",
   "theorems": [
    "C37_dead_band",
    "C37_reset_forgets",
    "C37_manual_ramp",
    "C37_bumpless_refuted"
   ],
   "note": ""
  },
  {
   "property": "C38",
   "status": "proved",
   "theorems": [
    "C38_gains_kept",
    "C38_window",
    "C38_gains_installed",
    "C38_enable",
    "C38_enable_zero"
   ],
   "note": ""
  },
  {
   "property": "C39",
   "status": "proved",
   "theorems": [
    "C39_lowpass_setup",
    "C39_kalman_setup",
    "C39_double_exponential_setup",
    "C39_outlier_setup",
    "C39_line_setup",
    "C39_adaptive_setup",
    "C39_gaussian_setup",
    "C39_moving_window_setup_refuted"
   ],
   "note": ""
  },
  {
   "property": "C40",
   "status": "proved",
   "theorems": [
    "C40_lowpass",
    "C40_exponential_weighting",
    "C40_exponential_mean_refuted",
    "C40_kalman"
   ],
   "note": ""
  },
  {
   "property": "C41",
   "status": "proved",
   "theorems": [
    "C41_second_order"
   ],
   "note": ""
  },
  {
   "property": "C42",
   "status": "proved",
   "theorems": [
    "C42_moving_mean",
    "C42_nan_never_leaves"
   ],
   "note": ""
  },
  {
   "property": "C43",
   "status": "proved",
   "theorems": [
    "C43_outliers",
    "C43_outliers_hull",
    "C43_constant_time_refuted"
   ],
   "note": ""
  },
  {
   "property": "C44",
   "status": "proved",
   "theorems": [
    "C44_gaussian_window",
    "C44_weights"
   ],
   "note": ""
  },
  {
   "property": "C45",
   "status": "proved",
   "theorems": [
    "C45_kalman"
   ],
   "note": ""
  },
  {
   "property": "C46",
   "status": "proved",
   "theorems": [
    "C46_difference_equation",
    "C46_response_unique",
    "C46_restart",
    "C46_delay"
   ],
   "note": ""
  },
  {
   "property": "C47",
   "status": "proved",
   "theorems": [
    "C47_discrete_output_within_limits",
    "C47_continuous_output_within_limits",
    "C47_setSaturation",
    "C47_default_limits_hide_negative_outputs",
    "C47_unit_gain_refuted"
   ],
   "note": ""
  },
  {
   "property": "C48",
   "status": "proved",
   "theorems": [
    "C48_shift",
    "C48_weighted_sum",
    "C48_plain_sum",
    "C48_bad_size_undefined"
   ],
   "note": ""
  },
  {
   "property": "C49",
   "status": "proved",
   "theorems": [
    "C49_canonical_form",
    "C49_euler_step",
    "C49_trapezoidal_step",
    "C49_steady_output_refuted",
    "C49_init_uses_first_element",
    "C49_integration_method"
   ],
   "note": ""
  },
  {
   "property": "C50",
   "status": "proved",
   "theorems": [
    "C50_lengths_must_agree",
    "C50_states_must_fit",
    "C50_refused"
   ],
   "note": ""
  },
  {
   "property": "C51",
   "status": "proved",
   "theorems": [
    "C51_knots",
    "C51_constrained_spline_knots",
    "C51_constrained_spline_refuted",
    "C51_next_refuted",
    "C51_cubic_refuted"
   ],
   "note": ""
  },
  {
   "property": "C52",
   "status": "proved",
   "theorems": [
    "C52_linear",
    "C52_affine",
    "C52_nan"
   ],
   "note": ""
  },
  {
   "property": "C53",
   "status": "proved",
   "theorems": [
    "C53_previous",
    "C53_nearest",
    "C53_next",
    "C53_next_refuted",
    "C53_nan"
   ],
   "note": ""
  },
  {
   "property": "C54",
   "status": "proved",
   "theorems": [
    "C54_configuration",
    "C54_defined",
    "C54_next_undefined",
    "C54_cubic_undefined",
    "C54_short"
   ],
   "note": ""
  },
  {
   "property": "C55",
   "status": "proved",
   "theorems": [
    "C55_polynomial",
    "C55_extrapolation",
    "C55_overshoot",
    "C55_sine_last_interval",
    "C55_sine_refuted"
   ],
   "note": ""
  },
  {
   "property": "C56",
   "status": "proved",
   "theorems": [
    "C56_construction",
    "C56_access",
    "C56_elementwise",
    "C56_product",
    "C56_algebra"
   ],
   "note": ""
  },
  {
   "property": "C57",
   "status": "proved",
   "theorems": [
    "C57_inverse",
    "C57_defined",
    "C57_pivot_refuted"
   ],
   "note": ""
  },
  {
   "property": "C58",
   "status": "proved",
   "theorems": [
    "C58_increment",
    "C58_decrement_refuted",
    "C58_norm_square",
    "C58_norm_undefined"
   ],
   "note": ""
  },
  {
   "property": "C59",
   "status": "proved",
   "theorems": [
    "C59_closed",
    "C59_exact",
    "C59_norms"
   ],
   "note": ""
  },
  {
   "property": "C60",
   "status": "proved",
   "theorems": [
    "C60_straight",
    "C60_core_support",
    "C60_curved",
    "C60_monotone",
    "C60_smooth",
    "C60_degrees_binary32",
    "C60_linz_refuted",
    "C60_gauss2_refuted"
   ],
   "note": ""
  },
  {
   "property": "C61",
   "status": "proved",
   "theorems": [
    "C61_strengths",
    "C61_strengths_binary32"
   ],
   "note": ""
  },
  {
   "property": "C62",
   "status": "proved",
   "theorems": [
    "C62_terminates",
    "C62_accepts",
    "C62_refuses",
    "C62_refuted"
   ],
   "note": ""
  },
  {
   "property": "C63",
   "status": "proved",
   "theorems": [
    "C63_range",
    "C63_mamdani",
    "C63_som_refuted",
    "C63_weighted",
    "C63_linear_consequent",
    "C63_nothing_fired"
   ],
   "note": ""
  },
  {
   "property": "C64",
   "status": "proved",
   "theorems": [
    "C64_settings",
    "C64_implication_refuted"
   ],
   "note": ""
  },
  {
   "property": "C65",
   "status": "proved",
   "theorems": [
    "C65_setup",
    "C65_params",
    "C65_range",
    "C65_constant",
    "C65_estimate",
    "C65_frozen_refuted"
   ],
   "note": ""
  },
  {
   "property": "C66",
   "status": "proved",
   "theorems": [
    "C66_floor",
    "C66_ceil",
    "C66_trunc",
    "C66_rounding"
   ],
   "note": ""
  },
  {
   "property": "C67",
   "status": "proved",
   "theorems": [
    "C67_classify",
    "C67_predicates",
    "C67_copysign",
    "C67_absf",
    "C67_sign",
    "C67_nextAfter",
    "C67_nextAfter_nan"
   ],
   "note": ""
  },
  {
   "property": "C68",
   "status": "proved",
   "theorems": [
    "C68_rexp",
    "C68_ldexp",
    "C68_ldexp_wraps",
    "C68_refuted"
   ],
   "note": ""
  },
  {
   "property": "C69",
   "status": "proved",
   "theorems": [
    "C69_coerce"
   ],
   "note": ""
  },
  {
   "property": "C70",
   "status": "proved",
   "theorems": [
    "C70_mod",
    "C70_mod_zero",
    "C70_rem",
    "C70_frac",
    "C70_refuted"
   ],
   "note": ""
  },
  {
   "property": "C71",
   "status": "proved",
   "theorems": [
    "C71_sqrt",
    "C71_special",
    "C71_refuted"
   ],
   "note": ""
  },
  {
   "property": "C72",
   "status": "proved",
   "theorems": [
    "C72_tuner_is_rls",
    "C72_exact_estimates_kept",
    "C72_tuned_gains_positive",
    "C72_series_gains"
   ],
   "note": ""
  },
  {
   "property": "C73",
   "status": "proved",
   "theorems": [
    "C73_double_exponential",
    "C73_adaptive",
    "C73_momentum_refuted"
   ],
   "note": ""
  },
  {
   "property": "C74",
   "status": "proved",
   "theorems": [
    "C74_reset_forgets",
    "C74_kalman_reset_refuted"
   ],
   "note": ""
  },
  {
   "property": "C75",
   "status": "proved",
   "theorems": [
    "C75_spline_pieces",
    "C75_spline_smooth",
    "C75_spline_affine"
   ],
   "note": ""
  },
  {
   "property": "C76",
   "status": "proved",
   "theorems": [
    "C76_matrix_operands",
    "C76_scalar_operands",
    "C76_own_element",
    "C76_own_element_refuted"
   ],
   "note": ""
  },
  {
   "property": "C77",
   "status": "proved",
   "theorems": [
    "C77_inverses",
    "C77_inverses_refuted"
   ],
   "note": ""
  },
  {
   "property": "C78",
   "status": "proved",
   "theorems": [
    "C78_fuzzify",
    "C78_inputs_binary32"
   ],
   "note": ""
  },
  {
   "property": "C79",
   "status": "proved",
   "theorems": [
    "C79_then_refuted",
    "C79_follows_text"
   ],
   "note": ""
  },
  {
   "property": "C80",
   "status": "proved",
   "theorems": [
    "C80_before_setup",
    "C80_setup",
    "C80_access",
    "C80_access_refuted",
    "C80_sets",
    "C80_region"
   ],
   "note": ""
  },
  {
   "property": "C81",
   "status": "proved",
   "theorems": [
    "C81_evaluation"
   ],
   "note": ""
  },
  {
   "property": "C82",
   "status": "proved",
   "theorems": [
    "C82_recip",
    "C82_rSqrt",
    "C82_rSqrt_special",
    "C82_refuted"
   ],
   "note": ""
  },
  {
   "property": "C83",
   "status": "proved",
   "theorems": [
    "C83_wrapTo2Pi",
    "C83_wrapTo360",
    "C83_wrapToPi",
    "C83_wrapTo180",
    "C83_refuted"
   ],
   "note": ""
  },
  {
   "property": "C84",
   "status": "proved",
   "theorems": [
    "C84_midpoint"
   ],
   "note": ""
  },
  {
   "property": "C85",
   "status": "proved",
   "theorems": [
    "C85_lerp",
    "C85_lerp_ends",
    "C85_lerp_monotone"
   ],
   "note": ""
  },
  {
   "property": "C86",
   "status": "proved",
   "theorems": [
    "C86_normalize",
    "C86_normalize_ends",
    "C86_normalize_monotone",
    "C86_map",
    "C86_map_monotone",
    "C86_map_first",
    "C86_map_last_refuted"
   ],
   "note": ""
  },
  {
   "property": "C87",
   "status": "proved",
   "theorems": [
    "C87_hypot",
    "C87_hypot_special",
    "C87_hypot_refuted",
    "C87_inCircle"
   ],
   "note": ""
  },
  {
   "property": "C88",
   "status": "proved",
   "theorems": [
    "C88_exp2_accurate",
    "C88_exp2_exact",
    "C88_exp2_limits",
    "C88_exp2_overflow_refuted",
    "C88_exp2_nan_undefined"
   ],
   "note": ""
  },
  {
   "property": "C89",
   "status": "proved",
   "theorems": [
    "C89_exp_accurate",
    "C89_exp10_accurate",
    "C89_limits",
    "C89_expm1_accurate",
    "C89_expm1_relative_refuted"
   ],
   "note": ""
  },
  {
   "property": "C90",
   "status": "proved",
   "theorems": [
    "C90_sinh_cosh_accurate",
    "C90_tanh_accurate",
    "C90_tanh_range",
    "C90_tanh_negative_refuted"
   ],
   "note": ""
  },
  {
   "property": "C91",
   "status": "proved",
   "theorems": [
    "C91_log2_accurate",
    "C91_log2_exact",
    "C91_log2_special",
    "C91_log2_refuted"
   ],
   "note": ""
  },
  {
   "property": "C92",
   "status": "proved",
   "theorems": [
    "C92_log_accurate",
    "C92_log10_accurate",
    "C92_special",
    "C92_log1p_accurate",
    "C92_log1p_relative_refuted"
   ],
   "note": ""
  },
  {
   "property": "C93",
   "status": "proved",
   "theorems": [
    "C93_pow_accurate",
    "C93_pow_zero",
    "C93_pow_exact",
    "C93_pow_base_zero",
    "C93_pow_undefined"
   ],
   "note": ""
  },
  {
   "property": "C94",
   "status": "proved",
   "theorems": [
    "C94_asinh_accurate",
    "C94_acosh_accurate",
    "C94_acosh_near_one",
    "C94_atanh_accurate",
    "C94_acosh_domain",
    "C94_asinh_negative_refuted"
   ],
   "note": ""
  },
  {
   "property": "C95",
   "status": "proved",
   "theorems": [
    "C95_no_overshoot",
    "C95_pieces",
    "C95_smooth_refuted"
   ],
   "note": ""
  },
  {
   "property": "C96",
   "status": "proved",
   "theorems": [
    "C96_hermite",
    "C96_hermite_nan"
   ],
   "note": ""
  },
  {
   "property": "C97",
   "status": "proved",
   "theorems": [
    "C97_legendre",
    "C97_associated",
    "C97_order_above_degree",
    "C97_associated_refuted"
   ],
   "note": ""
  },
  {
   "property": "C98",
   "status": "proved",
   "theorems": [
    "C98_laguerre",
    "C98_refused",
    "C98_at_zero",
    "C98_associated_at_zero_refuted",
    "C98_between_refuted"
   ],
   "note": ""
  },
  {
   "property": "C99",
   "status": "proved",
   "theorems": [
    "C99_an_argument",
    "C99_extremal",
    "C99_nan"
   ],
   "note": ""
  },
  {
   "property": "C100",
   "status": "proved",
   "theorems": [
    "C100_total",
    "C100_within_box",
    "C100_empty_refuted",
    "C100_rectangle_refuted"
   ],
   "note": ""
  },
  {
   "property": "C101",
   "status": "proved",
   "theorems": [
    "C101_factorial",
    "C101_factorial_outside"
   ],
   "note": ""
  },
  {
   "property": "C102",
   "status": "proved",
   "theorems": [
    "C102_functional_equation",
    "C102_below_one",
    "C102_factorials",
    "C102_special"
   ],
   "note": ""
  },
  {
   "property": "C103",
   "status": "proved",
   "theorems": [
    "C103_special",
    "C103_large_refuted"
   ],
   "note": ""
  },
  {
   "property": "C104",
   "status": "proved",
   "theorems": [
    "C104_symmetric",
    "C104_nan",
    "C104_large_undefined"
   ],
   "note": ""
  },
  {
   "property": "C105",
   "status": "proved",
   "theorems": [
    "C105_sin",
    "C105_cos",
    "C105_sin_odd",
    "C105_sin_range",
    "C105_sin_small",
    "C105_large_refuted"
   ],
   "note": ""
  },
  {
   "property": "C106",
   "status": "proved",
   "theorems": [
    "C106_tan"
   ],
   "note": ""
  },
  {
   "property": "C107",
   "status": "proved",
   "theorems": [
    "C107_asin",
    "C107_acos",
    "C107_asin_odd",
    "C107_domain"
   ],
   "note": ""
  },
  {
   "property": "C108",
   "status": "proved",
   "theorems": [
    "C108_atan",
    "C108_atan_odd",
    "C108_atan2",
    "C108_atan2_vertical",
    "C108_small_refuted",
    "C108_infinity_refuted",
    "C108_origin_refuted"
   ],
   "note": ""
  },
  {
   "property": "C109",
   "status": "proved",
   "theorems": [
    "C109_cbrt",
    "C109_rcbrt",
    "C109_special",
    "C109_negative_refuted",
    "C109_infinity_refuted",
    "C109_subnormal_refuted"
   ],
   "note": ""
  },
  {
   "property": "C110",
   "status": "proved",
   "theorems": [
    "C110_to_float",
    "C110_to_float_exact",
    "C110_to_double",
    "C110_from_double",
    "C110_from_float",
    "C110_out_of_range_undefined",
    "C110_double_round_trip",
    "C110_float_round_trip",
    "C110_float_round_trip_refuted",
    "C110_literals"
   ],
   "note": ""
  },
  {
   "property": "C111",
   "status": "proved",
   "theorems": [
    "C111_constants"
   ],
   "note": ""
  },
  {
   "property": "C112",
   "status": "proved",
   "theorems": [
    "C112_complete_first",
    "C112_domain"
   ],
   "note": ""
  },
  {
   "property": "C113",
   "status": "proved",
   "theorems": [
    "C113_even",
    "C113_complete_domain",
    "C113_incomplete_domain",
    "C113_end_points"
   ],
   "note": ""
  },
  {
   "property": "C114",
   "status": "proved",
   "theorems": [
    "C114_positive",
    "C114_relative",
    "C114_spec_derivative"
   ],
   "note": ""
  },
  {
   "property": "C115",
   "status": "proved",
   "theorems": [
    "C115_special",
    "C115_large_refuted",
    "C115_monotone_refuted",
    "C115_sign_refuted",
    "C115_infinity_refuted"
   ],
   "note": ""
  },
  {
   "property": "C116",
   "status": "proved",
   "theorems": [
    "C116_domain",
    "C116_spherical_domain",
    "C116_at_zero",
    "C116_spherical_at_zero"
   ],
   "note": ""
  },
  {
   "property": "C117",
   "status": "proved",
   "theorems": [
    "C117_modified_undefined",
    "C117_neumann_undefined",
    "C117_spherical_undefined"
   ],
   "note": ""
  },
  {
   "property": "C118",
   "status": "proved",
   "theorems": [
    "C118_order_zero",
    "C118_order_one",
    "C118_spec_equations",
    "C118_modified_first_refuted",
    "C118_modified_second_refuted"
   ],
   "note": ""
  },
  {
   "property": "C119",
   "status": "proved",
   "theorems": [
    "C119_value",
    "C119_order_above_degree",
    "C119_nan"
   ],
   "note": ""
  },
  {
   "property": "C120",
   "status": "proved",
   "theorems": [
    "C120_large",
    "C120_special",
    "C120_left_refuted",
    "C120_negative_refuted",
    "C120_global_at_19",
    "C120_spec_bounds"
   ],
   "note": ""
  },
  {
   "property": "C121",
   "status": "proved",
   "theorems": [
    "C121_sin_total",
    "C121_sin_accurate",
    "C121_sin_near_pi_refuted",
    "C121_cos_accurate",
    "C121_cos_total",
    "C121_cos_undefined",
    "C121_cos_near_half_pi_refuted",
    "C121_tan_accurate",
    "C121_tan_refuted"
   ],
   "note": ""
  },
  {
   "property": "C122",
   "status": "proved",
   "theorems": [
    "C122_exp_positive",
    "C122_exp_negative",
    "C122_cosh_accurate",
    "C122_sinh_accurate",
    "C122_tanh_accurate",
    "C122_hyperbolic_saturation_refuted"
   ],
   "note": ""
  },
  {
   "property": "C123",
   "status": "proved",
   "theorems": [
    "C123_log2_accurate",
    "C123_log_accurate",
    "C123_log_smallest_refuted"
   ],
   "note": ""
  },
  {
   "property": "C124",
   "status": "proved",
   "theorems": [
    "C124_atan2_accurate",
    "C124_atan2_undefined",
    "C124_atan_accurate",
    "C124_atan_undefined",
    "C124_asin_accurate",
    "C124_acos_accurate",
    "C124_ends_refuted",
    "C124_small_refuted"
   ],
   "note": ""
  },
  {
   "property": "C125",
   "status": "proved",
   "theorems": [
    "C125_pow_integer",
    "C125_pow_general",
    "C125_zero_exponent",
    "C125_zero_exponent_negative_refuted",
    "C125_even_negative_refuted"
   ],
   "note": ""
  },
  {
   "property": "C126",
   "status": "proved",
   "theorems": [
    "C126_range",
    "C126_accuracy_refuted",
    "C126_zero_refuted",
    "C126_saturates",
    "C126_nan_undefined"
   ],
   "note": ""
  },
  {
   "property": "C127",
   "status": "proved",
   "theorems": [
    "C127_program_exact",
    "C127_deterministic",
    "C127_comparisons",
    "C127_compound_is_assignment",
    "C127_post_increment",
    "C127_overflow_lost_refuted",
    "C127_negated_overflow_undefined",
    "C127_counting_loop_refuted",
    "C127_sum_loop"
   ],
   "note": ""
  },
  {
   "property": "C128",
   "status": "proved",
   "theorems": [
    "C128_forward_error",
    "C128_exact",
    "C128_inner_product",
    "C128_horner"
   ],
   "note": ""
  },
  {
   "property": "C129",
   "status": "proved",
   "theorems": [
    "C129_hull",
    "C129_settles",
    "C129_settles_refuted"
   ],
   "note": ""
  },
  {
   "property": "C130",
   "status": "proved",
   "theorems": [
    "C130_weighted_sum",
    "C130_plain_sum",
    "C130_simple_bound",
    "C130_finite",
    "C130_cancellation_refuted"
   ],
   "note": ""
  },
  {
   "property": "C131",
   "status": "proved",
   "theorems": [
    "C131_backward",
    "C131_coefficients",
    "C131_forward"
   ],
   "note": ""
  },
  {
   "property": "C132",
   "status": "proved",
   "theorems": [
    "C132_drift_bound",
    "C132_recovery_refuted"
   ],
   "note": ""
  },
  {
   "property": "C133",
   "status": "proved",
   "theorems": [
    "C133_drift_bound",
    "C133_stagnation",
    "C133_growth_refuted"
   ],
   "note": ""
  },
  {
   "property": "C134",
   "status": "proved",
   "theorems": [
    "C134_hull",
    "C134_exact_hull_refuted"
   ],
   "note": ""
  },
  {
   "property": "C135",
   "status": "proved",
   "theorems": [
    "C135_accuracy",
    "C135_constant_2points",
    "C135_constant_refuted"
   ],
   "note": ""
  },
  {
   "property": "C136",
   "status": "proved",
   "theorems": [
    "C136_hull",
    "C136_constant_refuted"
   ],
   "note": ""
  },
  {
   "property": "C137",
   "status": "proved",
   "theorems": [
    "C137_accuracy",
    "C137_constant",
    "C137_knots_refuted"
   ],
   "note": ""
  },
  {
   "property": "C138",
   "status": "proved",
   "theorems": [
    "C138_previous_next",
    "C138_nearest",
    "C138_knots",
    "C138_nearest_refuted"
   ],
   "note": ""
  },
  {
   "property": "C139",
   "status": "proved",
   "theorems": [
    "C139_accuracy",
    "C139_finite",
    "C139_forgets",
    "C139_narrow_refuted"
   ],
   "note": ""
  },
  {
   "property": "C140",
   "status": "proved",
   "theorems": [
    "C140_normalised",
    "C140_constant"
   ],
   "note": ""
  }
 ]
}