{
 "claims": [
  {
   "property": "C01",
   "status": "proved",
   "theorems": [
    "C01_components_add_up"
   ],
   "note": ""
  },
  {
   "property": "C02",
   "status": "proved",
   "theorems": [
    "C02_returned_rows",
    "C02_returned_sum"
   ],
   "note": ""
  },
  {
   "property": "C03",
   "status": "proved",
   "theorems": [
    "C03_shape"
   ],
   "note": ""
  },
  {
   "property": "C04",
   "status": "proved",
   "theorems": [
    "C04_max_imf",
    "C04_no_limit"
   ],
   "note": ""
  },
  {
   "property": "C05",
   "status": "proved",
   "theorems": [
    "C05_limited_run_ends",
    "C05_fuel_irrelevant",
    "C05_sifts_bounded",
    "C05_unlimited_termination_refuted"
   ],
   "note": ""
  },
  {
   "property": "C06",
   "status": "proved",
   "theorems": [
    "C06_fixe"
   ],
   "note": ""
  },
  {
   "property": "C07",
   "status": "proved",
   "theorems": [
    "C07_fixe_h"
   ],
   "note": ""
  },
  {
   "property": "C08",
   "status": "proved",
   "theorems": [
    "C08_default_stop",
    "C08_stop_test"
   ],
   "note": ""
  },
  {
   "property": "C09",
   "status": "proved",
   "theorems": [
    "C09_trend"
   ],
   "note": ""
  },
  {
   "property": "C10",
   "status": "proved",
   "theorems": [
    "C10_simple_ignores_time",
    "C10_wrong_length"
   ],
   "note": ""
  },
  {
   "property": "C11",
   "status": "proved",
   "theorems": [
    "C11_normalised_time",
    "C11_affine_invariant",
    "C11_repeated_time_rejected",
    "C11_decreasing_time_refuted"
   ],
   "note": ""
  },
  {
   "property": "C12",
   "status": "proved",
   "theorems": [
    "C12_time_affine"
   ],
   "note": ""
  },
  {
   "property": "C13",
   "status": "proved",
   "theorems": [
    "C13_no_hidden_state",
    "C13_accessors_report_last_success"
   ],
   "note": ""
  },
  {
   "property": "C14",
   "status": "proved",
   "theorems": [
    "C14_imfs_and_trend",
    "C14_trend_cases",
    "C14_trend_available_refuted"
   ],
   "note": ""
  },
  {
   "property": "C15",
   "status": "proved",
   "theorems": [
    "C15_strict_extrema"
   ],
   "note": ""
  },
  {
   "property": "C16",
   "status": "proved",
   "theorems": [
    "C16_plateau_extrema",
    "C16_plateau_extrema_interior",
    "C16_plateau_at_one_refuted",
    "C16_plateau_at_zero_refuted"
   ],
   "note": ""
  },
  {
   "property": "C17",
   "status": "proved",
   "theorems": [
    "C17_alternation",
    "C17_counts"
   ],
   "note": ""
  },
  {
   "property": "C18",
   "status": "proved",
   "theorems": [
    "C18_zero_crossings",
    "C18_crossings_distinct"
   ],
   "note": ""
  },
  {
   "property": "C19",
   "status": "proved",
   "theorems": [
    "C19_extrema",
    "C19_zero_crossings",
    "C19_small_refuted",
    "C19_mixed_refuted"
   ],
   "note": ""
  },
  {
   "property": "C20",
   "status": "proved",
   "theorems": [
    "C20_mirroring_covers",
    "C20_nbsym_zero_refuted"
   ],
   "note": ""
  },
  {
   "property": "C21",
   "status": "proved",
   "theorems": [
    "C21_reflections",
    "C21_exact_points"
   ],
   "note": ""
  },
  {
   "property": "C22",
   "status": "proved",
   "theorems": [
    "C22_simple_no_exception",
    "C22_simple_returns",
    "C22_one_sample_refuted"
   ],
   "note": ""
  },
  {
   "property": "C23",
   "status": "proved",
   "theorems": [
    "C23_parabol_maxima",
    "C23_parabol_minima",
    "C23_minima_not_straight",
    "C23_parabol_ordered",
    "C23_rule_maximum",
    "C23_rule_minimum",
    "C23_straight_line_refuted"
   ],
   "note": ""
  },
  {
   "property": "C24",
   "status": "proved",
   "theorems": [
    "C24_staircase_refuted",
    "C24_uncovered_refuted",
    "C24_curved_sufficient",
    "C24_alternate",
    "C24_mirroring_covers",
    "C24_raises_only_on_degenerate"
   ],
   "note": ""
  },
  {
   "property": "C25",
   "status": "proved",
   "theorems": [
    "C25_natural_spline",
    "C25_unique"
   ],
   "note": ""
  },
  {
   "property": "C26",
   "status": "proved",
   "theorems": [
    "C26_integers",
    "C26_floats",
    "C26_floats_repeat",
    "C26_floats_nearest",
    "C26_every_dtype_refuted"
   ],
   "note": ""
  },
  {
   "property": "C27",
   "status": "proved",
   "theorems": [
    "C27_symmetric",
    "C27_lossless",
    "C27_smallest",
    "C27_wide_refuted"
   ],
   "note": ""
  },
  {
   "property": "C28",
   "status": "proved",
   "theorems": [
    "C28_ensemble_means",
    "C28_emd_decomposes"
   ],
   "note": ""
  },
  {
   "property": "C29",
   "status": "proved",
   "theorems": [
    "C29_components_and_residue"
   ],
   "note": ""
  },
  {
   "property": "C30",
   "status": "proved",
   "theorems": [
    "C30_without_noise"
   ],
   "note": ""
  },
  {
   "property": "C31",
   "status": "proved",
   "theorems": [
    "C31_seeded_runs_agree",
    "C31_emd_forgets"
   ],
   "note": ""
  },
  {
   "property": "C32",
   "status": "proved",
   "theorems": [
    "C32_serial_noise",
    "C32_parallel_trials_coincide",
    "C32_parallel_calls_coincide",
    "C32_independent_trials_refuted"
   ],
   "note": ""
  },
  {
   "property": "C33",
   "status": "proved",
   "theorems": [
    "C33_trend_last"
   ],
   "note": ""
  },
  {
   "property": "C34",
   "status": "proved",
   "theorems": [
    "C34_components_add_up"
   ],
   "note": ""
  },
  {
   "property": "C35",
   "status": "proved",
   "theorems": [
    "C35_row_count",
    "C35_stop_reasons"
   ],
   "note": ""
  },
  {
   "property": "C36",
   "status": "proved",
   "theorems": [
    "C36_schedule_does_not_matter",
    "C36_parallel_equals_serial",
    "C36_binary64_refuted"
   ],
   "note": ""
  },
  {
   "property": "C37",
   "status": "proved",
   "theorems": [
    "C37_zero_noise_fails",
    "C37_any_scale_refuted"
   ],
   "note": ""
  },
  {
   "property": "C38",
   "status": "proved",
   "theorems": [
    "C38_solves",
    "C38_dominant"
   ],
   "note": ""
  },
  {
   "property": "C39",
   "status": "proved",
   "theorems": [
    "C39_equations",
    "C39_cubics_pass",
    "C39_sawtooth_removed",
    "C39_too_short",
    "C39_half_is_identity_refuted"
   ],
   "note": ""
  },
  {
   "property": "C40",
   "status": "proved",
   "theorems": [
    "C40_equations",
    "C40_exact_derivative",
    "C40_degree_seven_refuted",
    "C40_six_samples",
    "C40_too_short"
   ],
   "note": ""
  },
  {
   "property": "C41",
   "status": "proved",
   "theorems": [
    "C41_tiling"
   ],
   "note": ""
  },
  {
   "property": "C42",
   "status": "proved",
   "theorems": [
    "C42_emd2d",
    "C42_bemd"
   ],
   "note": ""
  },
  {
   "property": "C43",
   "status": "proved",
   "theorems": [
    "C43_bemd_sifts",
    "C43_emd2d_sifts",
    "C43_bemd_fixe_refuted",
    "C43_emd2d_fixe_refuted"
   ],
   "note": ""
  },
  {
   "property": "C44",
   "status": "proved",
   "theorems": [
    "C44_rows",
    "C44_sum",
    "C44_limit",
    "C44_terminates",
    "C44_limit_one_ignored",
    "C44_limit_one_refuted",
    "C44_fixed_sifts",
    "C44_default_stop"
   ],
   "note": ""
  },
  {
   "property": "C45",
   "status": "proved",
   "theorems": [
    "C45_same_extrema",
    "C45_extrema",
    "C45_same_extrema_refuted",
    "C45_same_points",
    "C45_same_envelopes"
   ],
   "note": ""
  },
  {
   "property": "C46",
   "status": "proved",
   "theorems": [
    "C46_extrema",
    "C46_points",
    "C46_spline_three_points",
    "C46_spline",
    "C46_emd_simple",
    "C46_emd_parabol",
    "C46_reconstruction",
    "C46_trend",
    "C46_trend_negligible",
    "C46_before_run",
    "C46_other_times_refuted",
    "C46_kinds_refuted",
    "C46_trend_refuted"
   ],
   "note": ""
  },
  {
   "property": "C47",
   "status": "proved",
   "theorems": [
    "C47_apriori",
    "C47_aposteriori",
    "C47_scaling_bound",
    "C47_overflow",
    "C47_empty",
    "C47_nan",
    "C47_invalid",
    "C47_not_array",
    "C47_confidence",
    "C47_zero_row",
    "C47_every_signal_refuted"
   ],
   "note": ""
  },
  {
   "property": "C48",
   "status": "proved",
   "theorems": [
    "C48_rescaling_imf",
    "C48_never_significant_refuted",
    "C48_short_period"
   ],
   "note": ""
  },
  {
   "property": "C49",
   "status": "proved",
   "theorems": [
    "C49_residue",
    "C49_exact_sum",
    "C49_exact_refuted"
   ],
   "note": ""
  },
  {
   "property": "C50",
   "status": "proved",
   "theorems": [
    "C50_new_arrays",
    "C50_after_exception",
    "C50_writes_leave_stored",
    "C50_writes_leave_inputs",
    "C50_histories",
    "C50_accessor_hands_out",
    "C50_trend"
   ],
   "note": ""
  },
  {
   "property": "C51",
   "status": "proved",
   "theorems": [
    "C51_imfs_and_residue",
    "C51_imfs_only",
    "C51_missing",
    "C51_one_panel_fails",
    "C51_truthy_refuted",
    "C51_from_object"
   ],
   "note": ""
  },
  {
   "property": "C52",
   "status": "proved",
   "theorems": [
    "C52_stop_reasons",
    "C52_end_condition"
   ],
   "note": ""
  },
  {
   "property": "C53",
   "status": "proved",
   "theorems": [
    "C53_sift_subtracts_mean"
   ],
   "note": ""
  },
  {
   "property": "C54",
   "status": "proved",
   "theorems": [
    "C54_monotone_signal",
    "C54_constant_signal",
    "C54_few_extrema"
   ],
   "note": ""
  },
  {
   "property": "C55",
   "status": "proved",
   "theorems": [
    "C55_seeded_runs_agree"
   ],
   "note": ""
  },
  {
   "property": "C56",
   "status": "proved",
   "theorems": [
    "C56_unit_of_measurement"
   ],
   "note": ""
  },
  {
   "property": "C57",
   "status": "proved",
   "theorems": [
    "C57_recurrence",
    "C57_emd_fits"
   ],
   "note": ""
  },
  {
   "property": "C58",
   "status": "proved",
   "theorems": [
    "C58_find_extrema"
   ],
   "note": ""
  },
  {
   "property": "C59",
   "status": "proved",
   "theorems": [
    "C59_envelopes",
    "C59_right_values_symmetric",
    "C59_right_values_refuted",
    "C59_oblong_fails"
   ],
   "note": ""
  },
  {
   "property": "C60",
   "status": "proved",
   "theorems": [
    "C60_positions",
    "C60_low_range"
   ],
   "note": ""
  },
  {
   "property": "C61",
   "status": "proved",
   "theorems": [
    "C61_emd2d_limit",
    "C61_bemd_limit",
    "C61_emd2d_ends",
    "C61_bemd_ends",
    "C61_unlimited_ends_refuted"
   ],
   "note": ""
  },
  {
   "property": "C62",
   "status": "proved",
   "theorems": [
    "C62_constant"
   ],
   "note": ""
  },
  {
   "property": "C63",
   "status": "proved",
   "theorems": [
    "C63_emd2d_default",
    "C63_emd2d_fixe_h",
    "C63_bemd_default",
    "C63_bemd_fixe_h",
    "C63_bemd_mse_ignored"
   ],
   "note": ""
  },
  {
   "property": "C64",
   "status": "proved",
   "theorems": [
    "C64_phase_steps",
    "C64_even_rotation",
    "C64_alpha_range",
    "C64_uneven_refuted"
   ],
   "note": ""
  },
  {
   "property": "C65",
   "status": "proved",
   "theorems": [
    "C65_eemd_returns_stored",
    "C65_eemd_after_exception",
    "C65_eemd_write_seen",
    "C65_eemd_write_contained",
    "C65_eemd_next_run",
    "C65_ceemdan_returns_stored",
    "C65_ceemdan_after_exception",
    "C65_ceemdan_write_seen",
    "C65_ceemdan_write_contained",
    "C65_ceemdan_next_run"
   ],
   "note": ""
  },
  {
   "property": "C66",
   "status": "proved",
   "theorems": [
    "C66_extrema",
    "C66_emd",
    "C66_parabol_refuted"
   ],
   "note": ""
  },
  {
   "property": "C67",
   "status": "proved",
   "theorems": [
    "C67_unit",
    "C67_default_refuted"
   ],
   "note": ""
  },
  {
   "property": "C68",
   "status": "proved",
   "theorems": [
    "C68_offset",
    "C68_default_refuted",
    "C68_power_refuted"
   ],
   "note": ""
  },
  {
   "property": "C69",
   "status": "proved",
   "theorems": [
    "C69_members",
    "C69_members_trends",
    "C69_statistics",
    "C69_zero_deviation",
    "C69_no_noise",
    "C69_failed_run",
    "C69_failed_serial_refuted"
   ],
   "note": ""
  },
  {
   "property": "C70",
   "status": "proved",
   "theorems": [
    "C70_emd_options",
    "C70_emd_accepts",
    "C70_emd_unknown",
    "C70_emd_order",
    "C70_emd_dtype",
    "C70_eemd_options",
    "C70_eemd_seed_ignored",
    "C70_ceemdan_options",
    "C70_ceemdan_shares_thresholds",
    "C70_emd2d_options",
    "C70_bemd_defaults"
   ],
   "note": ""
  },
  {
   "property": "C71",
   "status": "proved",
   "theorems": [
    "C71_types",
    "C71_integers",
    "C71_doubles",
    "C71_integer_times",
    "C71_narrow_times_refuted"
   ],
   "note": ""
  },
  {
   "property": "C72",
   "status": "proved",
   "theorems": [
    "C72_extrema",
    "C72_zero_crossings",
    "C72_unsigned",
    "C72_overflow_refuted"
   ],
   "note": ""
  },
  {
   "property": "C73",
   "status": "proved",
   "theorems": [
    "C73_eemd",
    "C73_eemd_narrow",
    "C73_emd2d",
    "C73_emd2d_narrow",
    "C73_emd2d_refuted"
   ],
   "note": ""
  },
  {
   "property": "C74",
   "status": "proved",
   "theorems": [
    "C74_ceemdan",
    "C74_eemd",
    "C74_negation_refuted"
   ],
   "note": ""
  },
  {
   "property": "C75",
   "status": "proved",
   "theorems": [
    "C75_emd2d",
    "C75_emd2d_refuted",
    "C75_bemd_refuted"
   ],
   "note": ""
  },
  {
   "property": "C76",
   "status": "proved",
   "theorems": [
    "C76_emd",
    "C76_jit",
    "C76_matlab",
    "C76_eemd",
    "C76_ceemdan",
    "C76_bemd",
    "C76_emd2d",
    "C76_matlab_nan_refuted"
   ],
   "note": ""
  },
  {
   "property": "C77",
   "status": "proved",
   "theorems": [
    "C77_extrema",
    "C77_zero_crossings",
    "C77_points",
    "C77_emd",
    "C77_linear_turns",
    "C77_flat_start_refuted",
    "C77_flat_middle_refuted",
    "C77_emd_refuted"
   ],
   "note": ""
  },
  {
   "property": "C78",
   "status": "proved",
   "theorems": [
    "C78_emd_fixe",
    "C78_emd",
    "C78_emd_refuted",
    "C78_ceemdan",
    "C78_bemd",
    "C78_emd2d",
    "C78_matlab"
   ],
   "note": ""
  },
  {
   "property": "C79",
   "status": "proved",
   "theorems": [
    "C79_emd",
    "C79_jit",
    "C79_matlab",
    "C79_eemd",
    "C79_ceemdan",
    "C79_bemd",
    "C79_emd2d",
    "C79_emd2d_nan"
   ],
   "note": ""
  },
  {
   "property": "C80",
   "status": "proved",
   "theorems": [
    "C80_defaults_shared",
    "C80_own_settings",
    "C80_result",
    "C80_reads",
    "C80_missing",
    "C80_failed",
    "C80_stored",
    "C80_defaults",
    "C80_independent_refuted"
   ],
   "note": ""
  },
  {
   "property": "C81",
   "status": "proved",
   "theorems": [
    "C81_emd2d",
    "C81_extrema",
    "C81_bemd",
    "C81_bemd_mirror_refuted"
   ],
   "note": ""
  },
  {
   "property": "C82",
   "status": "proved",
   "theorems": [
    "C82_emd",
    "C82_one_by_one",
    "C82_residue",
    "C82_residue_small_refuted",
    "C82_jit",
    "C82_matlab"
   ],
   "note": ""
  },
  {
   "property": "C83",
   "status": "proved",
   "theorems": [
    "C83_extrema",
    "C83_emd",
    "C83_signed_zero_refuted"
   ],
   "note": ""
  },
  {
   "property": "C84",
   "status": "proved",
   "theorems": [
    "C84_envelopes",
    "C84_sift",
    "C84_above_refuted"
   ],
   "note": ""
  },
  {
   "property": "C85",
   "status": "proved",
   "theorems": [
    "C85_new_arrays",
    "C85_after_exception",
    "C85_writes"
   ],
   "note": ""
  },
  {
   "property": "C86",
   "status": "proved",
   "theorems": [
    "C86_jit",
    "C86_jit_exact",
    "C86_matlab_extrema",
    "C86_matlab_refuted"
   ],
   "note": ""
  },
  {
   "property": "C87",
   "status": "proved",
   "theorems": [
    "C87_fixe_h",
    "C87_default",
    "C87_jit_fixe_h",
    "C87_jit_default",
    "C87_matlab_fixe_h",
    "C87_matlab_default"
   ],
   "note": ""
  },
  {
   "property": "C88",
   "status": "proved",
   "theorems": [
    "C88_eemd_last_run",
    "C88_eemd_no_run",
    "C88_ceemdan_last_run",
    "C88_ceemdan_no_run",
    "C88_eemd_parallel_failed",
    "C88_eemd_failed_ensemble",
    "C88_same_run_refuted"
   ],
   "note": ""
  },
  {
   "property": "C89",
   "status": "proved",
   "theorems": [
    "C89_rows",
    "C89_sum",
    "C89_exact",
    "C89_float",
    "C89_cut",
    "C89_same_rows_refuted",
    "C89_akima_refuted"
   ],
   "note": ""
  },
  {
   "property": "C90",
   "status": "proved",
   "theorems": [
    "C90_knots",
    "C90_curve",
    "C90_cubic",
    "C90_quadratic",
    "C90_monotone",
    "C90_envelopes",
    "C90_sift",
    "C90_overshoot_refuted",
    "C90_lines",
    "C90_cubic_exact",
    "C90_quadratic_exact",
    "C90_hermite_exact",
    "C90_akima_exact",
    "C90_akima_straight",
    "C90_returns",
    "C90_negated",
    "C90_unit",
    "C90_offset",
    "C90_reversed"
   ],
   "note": ""
  },
  {
   "property": "C91",
   "status": "proved",
   "theorems": [
    "C91_selects",
    "C91_capitals",
    "C91_capitals_variants",
    "C91_unknown"
   ],
   "note": ""
  },
  {
   "property": "C92",
   "status": "proved",
   "theorems": [
    "C92_emd2d",
    "C92_bemd",
    "C92_after_exception",
    "C92_histories"
   ],
   "note": ""
  },
  {
   "property": "C93",
   "status": "proved",
   "theorems": [
    "C93_range",
    "C93_growth",
    "C93_range_refuted"
   ],
   "note": ""
  },
  {
   "property": "C94",
   "status": "proved",
   "theorems": [
    "C94_matlab_returns",
    "C94_matlab_raises_nothing",
    "C94_jit_returns",
    "C94_eemd_blame",
    "C94_eemd_returns",
    "C94_ceemdan_blame",
    "C94_ceemdan_first_component",
    "C94_trends_refuted"
   ],
   "note": ""
  },
  {
   "property": "C95",
   "status": "proved",
   "theorems": [
    "C95_envelopes",
    "C95_one_component",
    "C95_returned_whole",
    "C95_jit"
   ],
   "note": ""
  },
  {
   "property": "C96",
   "status": "proved",
   "theorems": [
    "C96_orders",
    "C96_always_ends",
    "C96_map_returns",
    "C96_map_waits",
    "C96_map_raises",
    "C96_first_to_fail",
    "C96_eemd",
    "C96_ceemdan",
    "C96_ceemdan_trials",
    "C96_exception_refuted",
    "C96_binary64_refuted"
   ],
   "note": ""
  },
  {
   "property": "C97",
   "status": "proved",
   "theorems": [
    "C97_rows",
    "C97_limit",
    "C97_adds_up",
    "C97_same_type",
    "C97_widening",
    "C97_residue32",
    "C97_residue16",
    "C97_extrema32",
    "C97_extrema16",
    "C97_too_long",
    "C97_copy_refuted",
    "C97_small_half_refuted"
   ],
   "note": ""
  },
  {
   "property": "C98",
   "status": "proved",
   "theorems": [
    "C98_eemd",
    "C98_eemd_negated",
    "C98_ceemdan",
    "C98_ceemdan_negated",
    "C98_same_noise_refuted"
   ],
   "note": ""
  },
  {
   "property": "C99",
   "status": "proved",
   "theorems": [
    "C99_bemd",
    "C99_emd2d_fixe",
    "C99_emd2d_refuted"
   ],
   "note": ""
  },
  {
   "property": "C100",
   "status": "proved",
   "theorems": [
    "C100_looking",
    "C100_after_end",
    "C100_after_raise",
    "C100_any_time",
    "C100_new",
    "C100_same_rows",
    "C100_mean_refuted",
    "C100_reading_refuted"
   ],
   "note": ""
  },
  {
   "property": "C101",
   "status": "proved",
   "theorems": [
    "C101_eemd",
    "C101_ceemdan",
    "C101_emd",
    "C101_only_own",
    "C101_serial_run",
    "C101_parallel_run",
    "C101_report_refuted"
   ],
   "note": ""
  },
  {
   "property": "C102",
   "status": "proved",
   "theorems": [
    "C102_kinds",
    "C102_single",
    "C102_family",
    "C102_copy",
    "C102_clone",
    "C102_eemd_stored",
    "C102_ceemdan_stored",
    "C102_copy_refuted"
   ],
   "note": ""
  },
  {
   "property": "C103",
   "status": "proved",
   "theorems": [
    "C103_components",
    "C103_same_length",
    "C103_report",
    "C103_same_call",
    "C103_turns",
    "C103_order",
    "C103_progress",
    "C103_sum_refuted",
    "C103_raises_refuted",
    "C103_report_refuted"
   ],
   "note": ""
  },
  {
   "property": "C104",
   "status": "proved",
   "theorems": [
    "C104_simple",
    "C104_parabol",
    "C104_parabol_any_times",
    "C104_zeros",
    "C104_flat_start_refuted",
    "C104_zero_end_refuted",
    "C104_decomposition_refuted"
   ],
   "note": ""
  },
  {
   "property": "C105",
   "status": "proved",
   "theorems": [
    "C105_same_runs",
    "C105_serial",
    "C105_returned",
    "C105_eemd_raised",
    "C105_ceemdan_raised",
    "C105_programs",
    "C105_left_open_refuted"
   ],
   "note": ""
  },
  {
   "property": "C106",
   "status": "proved",
   "theorems": [
    "C106_sift",
    "C106_append",
    "C106_nbsym",
    "C106_first_component",
    "C106_component",
    "C106_cubic_refuted",
    "C106_unframed_refuted",
    "C106_pchip_one_refuted"
   ],
   "note": ""
  },
  {
   "property": "C107",
   "status": "proved",
   "theorems": [
    "C107_order",
    "C107_extrema",
    "C107_monotone",
    "C107_zero_crossings",
    "C107_sift",
    "C107_first_component",
    "C107_component",
    "C107_part_error",
    "C107_jump_refuted"
   ],
   "note": ""
  },
  {
   "property": "C108",
   "status": "proved",
   "theorems": [
    "C108_sift",
    "C108_first_component",
    "C108_alternating",
    "C108_straight",
    "C108_ends_refuted",
    "C108_cubic_refuted",
    "C108_parabola_refuted"
   ],
   "note": ""
  },
  {
   "property": "C109",
   "status": "proved",
   "theorems": [
    "C109_uniform",
    "C109_ensemble_near",
    "C109_limit",
    "C109_unseparated_refuted"
   ],
   "note": ""
  },
  {
   "property": "C110",
   "status": "proved",
   "theorems": [
    "C110_turns",
    "C110_order",
    "C110_finishes",
    "C110_other_signal_refuted",
    "C110_raises_refuted",
    "C110_empty_refuted"
   ],
   "note": ""
  },
  {
   "property": "C111",
   "status": "proved",
   "theorems": [
    "C111_kept",
    "C111_eemd",
    "C111_ceemdan",
    "C111_bound",
    "C111_limit",
    "C111_unseparated_refuted"
   ],
   "note": ""
  },
  {
   "property": "C112",
   "status": "proved",
   "theorems": [
    "C112_turns",
    "C112_order",
    "C112_finishes",
    "C112_adds_up",
    "C112_raises_refuted",
    "C112_same_rows_refuted",
    "C112_residue_refuted"
   ],
   "note": ""
  },
  {
   "property": "C113",
   "status": "proved",
   "theorems": [
    "C113_calls",
    "C113_report",
    "C113_after",
    "C113_same_call",
    "C113_turns",
    "C113_order",
    "C113_report_refuted"
   ],
   "note": ""
  },
  {
   "property": "C114",
   "status": "proved",
   "theorems": [
    "C114_floats",
    "C114_ints",
    "C114_sum",
    "C114_turns",
    "C114_order",
    "C114_mixed_refuted"
   ],
   "note": ""
  },
  {
   "property": "C115",
   "status": "proved",
   "theorems": [
    "C115_reference",
    "C115_aposteriori",
    "C115_apriori",
    "C115_own_row",
    "C115_common_factor_refuted"
   ],
   "note": ""
  },
  {
   "property": "C116",
   "status": "proved",
   "theorems": [
    "C116_draws_its_run",
    "C116_two_runs",
    "C116_after_failure",
    "C116_plots_stay",
    "C116_frequencies_stay",
    "C116_as_values",
    "C116_frequencies_as_values",
    "C116_making",
    "C116_reads_only",
    "C116_write_seen",
    "C116_eemd_returned_array",
    "C116_ceemdan_returned_array"
   ],
   "note": ""
  },
  {
   "property": "C117",
   "status": "proved",
   "theorems": [
    "C117_clock",
    "C117_level",
    "C117_filter",
    "C117_derivative",
    "C117_filter_sum",
    "C117_derivative_sum"
   ],
   "note": ""
  }
 ]
}