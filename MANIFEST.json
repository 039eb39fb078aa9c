{
 "claims": [
  {
   "property": "C01",
   "status": "proved",
   "theorems": [
    "C01_matrix_addressing"
   ],
   "note": ""
  },
  {
   "property": "C02",
   "status": "proved",
   "theorems": [
    "C02_matrix_construction"
   ],
   "note": ""
  },
  {
   "property": "C03",
   "status": "proved",
   "theorems": [
    "C03_matrix_elementwise"
   ],
   "note": ""
  },
  {
   "property": "C04",
   "status": "proved",
   "theorems": [
    "C04_square_product",
    "C04_product_associative",
    "C04_product_distributes",
    "C04_eye_neutral"
   ],
   "note": ""
  },
  {
   "property": "C05",
   "status": "proved",
   "theorems": [
    "C05_rectangular_products"
   ],
   "note": ""
  },
  {
   "property": "C06",
   "status": "proved",
   "theorems": [
    "C06_vector_products",
    "C06_matrix_vector_associative"
   ],
   "note": ""
  },
  {
   "property": "C07",
   "status": "proved",
   "theorems": [
    "C07_transposed",
    "C07_transposed_product"
   ],
   "note": ""
  },
  {
   "property": "C08",
   "status": "proved",
   "theorems": [
    "C08_scalar_inverse",
    "C08_no_division_by_zero"
   ],
   "note": ""
  },
  {
   "property": "C09",
   "status": "proved",
   "theorems": [
    "C09_inverted_22_is_transposed_inverse",
    "C09_inverted_22_refuted"
   ],
   "note": ""
  },
  {
   "property": "C10",
   "status": "proved",
   "theorems": [
    "C10_eye"
   ],
   "note": ""
  },
  {
   "property": "C11",
   "status": "proved",
   "theorems": [
    "C11_textbook_step",
    "C11_no_undefined_behaviour",
    "C11_two_inputs"
   ],
   "note": ""
  },
  {
   "property": "C12",
   "status": "proved",
   "theorems": [
    "C12_elapsed_time",
    "C12_elapsed_time_fixed"
   ],
   "note": ""
  },
  {
   "property": "C13",
   "status": "proved",
   "theorems": [
    "C13_data_independence"
   ],
   "note": ""
  },
  {
   "property": "C14",
   "status": "proved",
   "theorems": [
    "C14_symmetric",
    "C14_symmetric_fixed_refuted"
   ],
   "note": ""
  },
  {
   "property": "C15",
   "status": "proved",
   "theorems": [
    "C15_positive_semidefinite",
    "C15_variances"
   ],
   "note": ""
  },
  {
   "property": "C16",
   "status": "proved",
   "theorems": [
    "C16_measurement_reduces_uncertainty"
   ],
   "note": ""
  },
  {
   "property": "C17",
   "status": "proved",
   "theorems": [
    "C17_joseph_at_computed_gain",
    "C17_joseph_only_at_computed_gain"
   ],
   "note": ""
  },
  {
   "property": "C18",
   "status": "proved",
   "theorems": [
    "C18_gain_optimal",
    "C18_gain_unique"
   ],
   "note": ""
  },
  {
   "property": "C19",
   "status": "proved",
   "theorems": [
    "C19_error_recursion",
    "C19_exact_tracking"
   ],
   "note": ""
  },
  {
   "property": "C20",
   "status": "proved",
   "theorems": [
    "C20_zero_innovation_covariance"
   ],
   "note": ""
  },
  {
   "property": "C21",
   "status": "proved",
   "theorems": [
    "C21_superposition"
   ],
   "note": ""
  },
  {
   "property": "C22",
   "status": "proved",
   "theorems": [
    "C22_gain_before_update",
    "C22_gain_after_update"
   ],
   "note": ""
  },
  {
   "property": "C23",
   "status": "proved",
   "theorems": [
    "C23_timed_variant_agrees",
    "C23_timed_variant_frozen",
    "C23_timed_variant_ignores_measurements",
    "C23_timed_variant_desktop_undefined"
   ],
   "note": ""
  },
  {
   "property": "C24",
   "status": "proved",
   "theorems": [
    "C24_convex_combination"
   ],
   "note": ""
  },
  {
   "property": "C25",
   "status": "proved",
   "theorems": [
    "C25_perfect_measurement"
   ],
   "note": ""
  },
  {
   "property": "C26",
   "status": "proved",
   "theorems": [
    "C26_two_measurements",
    "C26_symmetric_preserved",
    "C26_singular_innovation_divides_by_zero",
    "C26_needs_symmetric_R_refuted"
   ],
   "note": ""
  },
  {
   "property": "C27",
   "status": "proved",
   "theorems": [
    "C27_values_in_range"
   ],
   "note": ""
  },
  {
   "property": "C28",
   "status": "proved",
   "theorems": [
    "C28_exact_when_representable",
    "C28_wraps_when_narrow",
    "C28_overflow_undefined_when_wide"
   ],
   "note": ""
  },
  {
   "property": "C29",
   "status": "proved",
   "theorems": [
    "C29_mul_rounds_down",
    "C29_mul_when_in_range",
    "C29_mul_never_undefined",
    "C29_one_neutral",
    "C29_one_without_integer_bits"
   ],
   "note": ""
  },
  {
   "property": "C30",
   "status": "proved",
   "theorems": [
    "C30_div_rounds_to_zero",
    "C30_div_undefined",
    "C30_div_otherwise_defined"
   ],
   "note": ""
  },
  {
   "property": "C31",
   "status": "proved",
   "theorems": [
    "C31_integer_round_trip",
    "C31_integer_wraps",
    "C31_as_truncates"
   ],
   "note": ""
  },
  {
   "property": "C32",
   "status": "proved",
   "theorems": [
    "C32_nearest",
    "C32_defined_odd_monotone",
    "C32_double_exact_except_one",
    "C32_double_nearest_refuted"
   ],
   "note": ""
  },
  {
   "property": "C33",
   "status": "proved",
   "theorems": [
    "C33_comparisons",
    "C33_order"
   ],
   "note": ""
  },
  {
   "property": "C34",
   "status": "proved",
   "theorems": [
    "C34_negation"
   ],
   "note": ""
  },
  {
   "property": "C35",
   "status": "proved",
   "theorems": [
    "C35_representation"
   ],
   "note": ""
  },
  {
   "property": "C36",
   "status": "proved",
   "theorems": [
    "C36_distribution_error",
    "C36_ring_laws_refuted"
   ],
   "note": ""
  },
  {
   "property": "C37",
   "status": "proved",
   "theorems": [
    "C37_avr_has_no_fraction"
   ],
   "note": ""
  },
  {
   "property": "C38",
   "status": "proved",
   "theorems": [
    "C38_difference_equation",
    "C38_equation_determines_output"
   ],
   "note": ""
  },
  {
   "property": "C39",
   "status": "proved",
   "theorems": [
    "C39_forms_agree_from_rest",
    "C39_forms_agree_fixed_refuted"
   ],
   "note": ""
  },
  {
   "property": "C40",
   "status": "proved",
   "theorems": [
    "C40_linear",
    "C40_linear_transposed",
    "C40_time_invariant"
   ],
   "note": ""
  },
  {
   "property": "C41",
   "status": "proved",
   "theorems": [
    "C41_reset_is_new"
   ],
   "note": ""
  },
  {
   "property": "C42",
   "status": "proved",
   "theorems": [
    "C42_switching_harmless_iff",
    "C42_stable_filters_notice"
   ],
   "note": ""
  },
  {
   "property": "C43",
   "status": "proved",
   "theorems": [
    "C43_poles",
    "C43_zeros",
    "C43_zeros_without_b0",
    "C43_vieta"
   ],
   "note": ""
  },
  {
   "property": "C44",
   "status": "proved",
   "theorems": [
    "C44_is_stable_iff",
    "C44_is_stable_answers",
    "C44_accepts_stable",
    "C44_bounded_output_refuted"
   ],
   "note": ""
  },
  {
   "property": "C45",
   "status": "proved",
   "theorems": [
    "C45_zpk",
    "C45_second_root_ignored",
    "C45_round_trip"
   ],
   "note": ""
  },
  {
   "property": "C46",
   "status": "proved",
   "theorems": [
    "C46_swap"
   ],
   "note": ""
  },
  {
   "property": "C47",
   "status": "proved",
   "theorems": [
    "C47_construction",
    "C47_list_semantics",
    "C47_replace_returns_previous",
    "C47_list_is_observable"
   ],
   "note": ""
  },
  {
   "property": "C48",
   "status": "proved",
   "theorems": [
    "C48_violations_stop",
    "C48_size_within_capacity",
    "C48_avr_append_overruns"
   ],
   "note": ""
  },
  {
   "property": "C49",
   "status": "proved",
   "theorems": [
    "C49_insert_cannot_extend",
    "C49_avr_insert_extends"
   ],
   "note": ""
  },
  {
   "property": "C50",
   "status": "proved",
   "theorems": [
    "C50_step_composes",
    "C50_empty_is_identity"
   ],
   "note": ""
  },
  {
   "property": "C51",
   "status": "proved",
   "theorems": [
    "C51_response_is_product",
    "C51_response_order_irrelevant",
    "C51_response_fails_iff"
   ],
   "note": ""
  },
  {
   "property": "C52",
   "status": "proved",
   "theorems": [
    "C52_stable_iff_all_sections",
    "C52_stable_iff_coefficients"
   ],
   "note": ""
  },
  {
   "property": "C53",
   "status": "proved",
   "theorems": [
    "C53_reset",
    "C53_reset_forgets",
    "C53_clear"
   ],
   "note": ""
  },
  {
   "property": "C54",
   "status": "proved",
   "theorems": [
    "C54_order_irrelevant_from_rest",
    "C54_order_matters_otherwise"
   ],
   "note": ""
  },
  {
   "property": "C55",
   "status": "proved",
   "theorems": [
    "C55_difference_equation",
    "C55_bounded",
    "C55_bound_is_sharp",
    "C55_reset_forgets"
   ],
   "note": ""
  },
  {
   "property": "C56",
   "status": "proved",
   "theorems": [
    "C56_pole_report",
    "C56_reported_stable_refuted"
   ],
   "note": ""
  },
  {
   "property": "C57",
   "status": "proved",
   "theorems": [
    "C57_low_pass",
    "C57_high_pass",
    "C57_unit_gain_with_int_abs_refuted",
    "C57_corner_is_half_power_refuted"
   ],
   "note": ""
  },
  {
   "property": "C58",
   "status": "proved",
   "theorems": [
    "C58_low_pass",
    "C58_high_pass",
    "C58_filter_classes"
   ],
   "note": ""
  },
  {
   "property": "C59",
   "status": "proved",
   "theorems": [
    "C59_band_pass",
    "C59_band_stop",
    "C59_complementary"
   ],
   "note": ""
  },
  {
   "property": "C60",
   "status": "proved",
   "theorems": [
    "C60_power_factor_inverts_gain",
    "C60_voltage_factor_right_iff",
    "C60_voltage_factor_at_zero"
   ],
   "note": ""
  },
  {
   "property": "C61",
   "status": "proved",
   "theorems": [
    "C61_low_shelf",
    "C61_high_shelf",
    "C61_peak",
    "C61_zero_dB_flat_refuted",
    "C61_boost_right_iff"
   ],
   "note": ""
  },
  {
   "property": "C62",
   "status": "proved",
   "theorems": [
    "C62_type1_stable_unit_gain",
    "C62_type2_stable_unit_gain"
   ],
   "note": ""
  },
  {
   "property": "C63",
   "status": "proved",
   "theorems": [
    "C63_type1_order",
    "C63_type2_order",
    "C63_cascade_capacity",
    "C63_overlapping_bands",
    "C63_edge_assertions",
    "C63_other_responses_without_assertions"
   ],
   "note": ""
  },
  {
   "property": "C64",
   "status": "proved",
   "theorems": [
    "C64_type1_response",
    "C64_even_pass_band",
    "C64_even_stop_edge_iff",
    "C64_even_f3_half_power_iff",
    "C64_stop_band_specification_refuted",
    "C64_pass_band_specification_refuted"
   ],
   "note": ""
  },
  {
   "property": "C65",
   "status": "proved",
   "theorems": [
    "C65_unit_range",
    "C65_same_signedness",
    "C65_indices",
    "C65_open_range_unsigned",
    "C65_open_range_int",
    "C65_open_range_step"
   ],
   "note": ""
  },
  {
   "property": "C66",
   "status": "proved",
   "theorems": [
    "C66_stepped_range",
    "C66_common_type",
    "C66_overflow",
    "C66_empty",
    "C66_zero_step_forever",
    "C66_zero_step_int",
    "C66_negative_step",
    "C66_unsigned_wraps"
   ],
   "note": ""
  },
  {
   "property": "C67",
   "status": "proved",
   "theorems": [
    "C67_reversed_int",
    "C67_reversed_wraps",
    "C67_mixed_signs"
   ],
   "note": ""
  },
  {
   "property": "C68",
   "status": "proved",
   "theorems": [
    "C68_replaced",
    "C68_replaced_empty",
    "C68_replaced_length",
    "C68_line"
   ],
   "note": ""
  },
  {
   "property": "C69",
   "status": "proved",
   "theorems": [
    "C69_copy",
    "C69_copy_overlapping",
    "C69_copy_defined_iff",
    "C69_fill",
    "C69_equal",
    "C69_swap"
   ],
   "note": ""
  },
  {
   "property": "C70",
   "status": "proved",
   "theorems": [
    "C70_avr_limits",
    "C70_fixed_point_accepts_unsigned",
    "C70_default_fraction"
   ],
   "note": ""
  },
  {
   "property": "C71",
   "status": "proved",
   "theorems": [
    "C71_write",
    "C71_read",
    "C71_round_trip",
    "C71_bit_operations",
    "C71_trigger"
   ],
   "note": ""
  },
  {
   "property": "C72",
   "status": "proved",
   "theorems": [
    "C72_masks",
    "C72_masks_fit"
   ],
   "note": ""
  },
  {
   "property": "C73",
   "status": "proved",
   "theorems": [
    "C73_combined_write"
   ],
   "note": ""
  },
  {
   "property": "C74",
   "status": "proved",
   "theorems": [
    "C74_combined_bits",
    "C74_single_lazy_write",
    "C74_leak"
   ],
   "note": ""
  },
  {
   "property": "C75",
   "status": "proved",
   "theorems": [
    "C75_one_bit"
   ],
   "note": ""
  },
  {
   "property": "C76",
   "status": "proved",
   "theorems": [
    "C76_clear_clears_all",
    "C76_shared_flags_all_cleared",
    "C76_pending_flag_lost",
    "C76_exact_clear_refuted",
    "C76_single_flags_exactly_cleared"
   ],
   "note": ""
  },
  {
   "property": "C77",
   "status": "proved",
   "theorems": [
    "C77_pin_change_flags",
    "C77_clear_refuted"
   ],
   "note": ""
  },
  {
   "property": "C78",
   "status": "proved",
   "theorems": [
    "C78_tc0_set_waveform_and_clock",
    "C78_tc0_set_waveform",
    "C78_tc0_current_waveform",
    "C78_tc0_round_trip",
    "C78_tc1_set_waveform_and_clock",
    "C78_tc1_current_waveform",
    "C78_tc1_round_trip"
   ],
   "note": ""
  },
  {
   "property": "C79",
   "status": "proved",
   "theorems": [
    "C79_tc1_force",
    "C79_tc0_force"
   ],
   "note": ""
  },
  {
   "property": "C80",
   "status": "proved",
   "theorems": [
    "C80_writes_clear_flags",
    "C80_settings_lose_pending_interrupt"
   ],
   "note": ""
  },
  {
   "property": "C81",
   "status": "proved",
   "theorems": [
    "C81_atomic_write",
    "C81_atomic_read",
    "C81_unguarded_write_torn",
    "C81_unguarded_read_torn"
   ],
   "note": ""
  },
  {
   "property": "C82",
   "status": "proved",
   "theorems": [
    "C82_scoped_sreg_restores",
    "C82_guard_leaves_on",
    "C82_guard_restores_refuted",
    "C82_code_after_nested_guard",
    "C82_loop",
    "C82_outer_section_open"
   ],
   "note": ""
  },
  {
   "property": "C83",
   "status": "proved",
   "theorems": [
    "C83_byte_never_sent",
    "C83_transfer_refuted"
   ],
   "note": ""
  },
  {
   "property": "C84",
   "status": "proved",
   "theorems": [
    "C84_write_outcomes",
    "C84_success_iff_acknowledged",
    "C84_no_stop_after_error",
    "C84_waits_for_ever",
    "C84_ends"
   ],
   "note": ""
  },
  {
   "property": "C85",
   "status": "proved",
   "theorems": [
    "C85_heartbeat"
   ],
   "note": ""
  },
  {
   "property": "C86",
   "status": "proved",
   "theorems": [
    "C86_no_phantom",
    "C86_after_report",
    "C86_no_more_than_raised",
    "C86_seen",
    "C86_coalesced",
    "C86_raised_during_report"
   ],
   "note": ""
  },
  {
   "property": "C87",
   "status": "proved",
   "theorems": [
    "C87_clamp",
    "C87_limits_exchanged",
    "C87_dac_write"
   ],
   "note": ""
  },
  {
   "property": "C88",
   "status": "proved",
   "theorems": [
    "C88_bounded_output",
    "C88_zero_input_decays"
   ],
   "note": ""
  },
  {
   "property": "C89",
   "status": "proved",
   "theorems": [
    "C89_response_is_steady_state"
   ],
   "note": ""
  },
  {
   "property": "C90",
   "status": "proved",
   "theorems": [
    "C90_bounded_output"
   ],
   "note": ""
  },
  {
   "property": "C91",
   "status": "proved",
   "theorems": [
    "C91_cascade_response_is_steady_state"
   ],
   "note": ""
  },
  {
   "property": "C92",
   "status": "proved",
   "theorems": [
    "C92_prototype_response"
   ],
   "note": ""
  },
  {
   "property": "C93",
   "status": "proved",
   "theorems": [
    "C93_butterworth",
    "C93_monotone"
   ],
   "note": ""
  },
  {
   "property": "C94",
   "status": "proved",
   "theorems": [
    "C94_cut_inverts_boost"
   ],
   "note": ""
  },
  {
   "property": "C95",
   "status": "proved",
   "theorems": [
    "C95_response_is_steady_state"
   ],
   "note": ""
  },
  {
   "property": "C96",
   "status": "proved",
   "theorems": [
    "C96_type2_response"
   ],
   "note": ""
  },
  {
   "property": "C97",
   "status": "proved",
   "theorems": [
    "C97_type2_meets_specification",
    "C97_type2_f3_half_power"
   ],
   "note": ""
  },
  {
   "property": "C98",
   "status": "proved",
   "theorems": [
    "C98_band_stop_is_identity"
   ],
   "note": ""
  },
  {
   "property": "C99",
   "status": "proved",
   "theorems": [
    "C99_setting",
    "C99_joined_settings"
   ],
   "note": ""
  },
  {
   "property": "C100",
   "status": "proved",
   "theorems": [
    "C100_immediate_setting",
    "C100_compare_values"
   ],
   "note": ""
  },
  {
   "property": "C101",
   "status": "proved",
   "theorems": [
    "C101_pwm_init",
    "C101_adc_init",
    "C101_beat_init",
    "C101_heartbeat_slow"
   ],
   "note": ""
  },
  {
   "property": "C102",
   "status": "proved",
   "theorems": [
    "C102_led",
    "C102_toggle_twice"
   ],
   "note": ""
  },
  {
   "property": "C103",
   "status": "proved",
   "theorems": [
    "C103_pin_writes",
    "C103_pin_set_disturbs"
   ],
   "note": ""
  },
  {
   "property": "C104",
   "status": "proved",
   "theorems": [
    "C104_tifr0_whole",
    "C104_tifr1_whole_unusable"
   ],
   "note": ""
  },
  {
   "property": "C105",
   "status": "proved",
   "theorems": [
    "C105_twi_init",
    "C105_pull_ups_refuted"
   ],
   "note": ""
  },
  {
   "property": "C106",
   "status": "proved",
   "theorems": [
    "C106_data_sends_start"
   ],
   "note": ""
  },
  {
   "property": "C107",
   "status": "proved",
   "theorems": [
    "C107_program",
    "C107_interrupts"
   ],
   "note": ""
  },
  {
   "property": "C108",
   "status": "proved",
   "theorems": [
    "C108_error_covariance"
   ],
   "note": ""
  },
  {
   "property": "C109",
   "status": "proved",
   "theorems": [
    "C109_best_linear_estimate"
   ],
   "note": ""
  },
  {
   "property": "C110",
   "status": "proved",
   "theorems": [
    "C110_innovations_white"
   ],
   "note": ""
  },
  {
   "property": "C111",
   "status": "proved",
   "theorems": [
    "C111_covariance_monotone",
    "C111_covariance_bounded",
    "C111_covariance_decreasing",
    "C111_simulation_bounded"
   ],
   "note": ""
  },
  {
   "property": "C112",
   "status": "proved",
   "theorems": [
    "C112_information_form"
   ],
   "note": ""
  },
  {
   "property": "C113",
   "status": "proved",
   "theorems": [
    "C113_noise_scale"
   ],
   "note": ""
  },
  {
   "property": "C114",
   "status": "proved",
   "theorems": [
    "C114_coordinate_change"
   ],
   "note": ""
  },
  {
   "property": "C115",
   "status": "proved",
   "theorems": [
    "C115_repeated_measurement",
    "C115_order_irrelevant"
   ],
   "note": ""
  },
  {
   "property": "C116",
   "status": "proved",
   "theorems": [
    "C116_sequential_measurements"
   ],
   "note": ""
  },
  {
   "property": "C117",
   "status": "proved",
   "theorems": [
    "C117_exact_tracking_every_type",
    "C117_types_qualify"
   ],
   "note": ""
  },
  {
   "property": "C118",
   "status": "proved",
   "theorems": [
    "C118_simulation"
   ],
   "note": ""
  },
  {
   "property": "C119",
   "status": "proved",
   "theorems": [
    "C119_measurements_ignored",
    "C119_wrong_position"
   ],
   "note": ""
  },
  {
   "property": "C120",
   "status": "proved",
   "theorems": [
    "C120_fixed_symmetry_refuted",
    "C120_plot",
    "C120_velocity_variance_refuted",
    "C120_process_noise"
   ],
   "note": ""
  },
  {
   "property": "C121",
   "status": "proved",
   "theorems": [
    "C121_fields_in_place",
    "C121_registers_in_place",
    "C121_complete",
    "C121_pointers",
    "C121_parametric_in_place",
    "C121_force_bits_refuted",
    "C121_fields_disjoint",
    "C121_access"
   ],
   "note": ""
  },
  {
   "property": "C122",
   "status": "proved",
   "theorems": [
    "C122_single_bits",
    "C122_several_bits",
    "C122_read_only"
   ],
   "note": ""
  },
  {
   "property": "C123",
   "status": "proved",
   "theorems": [
    "C123_blink",
    "C123_blink_isr",
    "C123_second_refuted"
   ],
   "note": ""
  },
  {
   "property": "C124",
   "status": "proved",
   "theorems": [
    "C124_fade",
    "C124_triangle"
   ],
   "note": ""
  },
  {
   "property": "C125",
   "status": "proved",
   "theorems": [
    "C125_init",
    "C125_channel_refuted",
    "C125_led_refuted",
    "C125_light",
    "C125_interrupts_on",
    "C125_steady_light",
    "C125_flicker_refuted"
   ],
   "note": ""
  },
  {
   "property": "C126",
   "status": "proved",
   "theorems": [
    "C126_fixed_point",
    "C126_double",
    "C126_float",
    "C126_fixed_point_sharp"
   ],
   "note": ""
  },
  {
   "property": "C127",
   "status": "proved",
   "theorems": [
    "C127_one_pole",
    "C127_one_pole_fixed",
    "C127_one_pole_double"
   ],
   "note": ""
  },
  {
   "property": "C128",
   "status": "proved",
   "theorems": [
    "C128_gain_exists",
    "C128_gain_small",
    "C128_direct_form",
    "C128_transposed_form",
    "C128_direct_form_fixed",
    "C128_transposed_form_fixed",
    "C128_direct_form_double"
   ],
   "note": ""
  },
  {
   "property": "C129",
   "status": "proved",
   "theorems": [
    "C129_one_pole_decays_refuted",
    "C129_double_decays_refuted"
   ],
   "note": ""
  },
  {
   "property": "C130",
   "status": "proved",
   "theorems": [
    "C130_cascade"
   ],
   "note": ""
  },
  {
   "property": "C131",
   "status": "proved",
   "theorems": [
    "C131_exact_tracking_ieee",
    "C131_inverse_overflows",
    "C131_without_nan_condition_refuted"
   ],
   "note": ""
  },
  {
   "property": "C132",
   "status": "proved",
   "theorems": [
    "C132_simulation_double",
    "C132_simulation_float"
   ],
   "note": ""
  },
  {
   "property": "C133",
   "status": "proved",
   "theorems": [
    "C133_forms",
    "C133_joseph_any_gain",
    "C133_forms_agree",
    "C133_short_form_refuted",
    "C133_program",
    "C133_program_values"
   ],
   "note": ""
  },
  {
   "property": "C134",
   "status": "proved",
   "theorems": [
    "C134_products_every_type"
   ],
   "note": ""
  },
  {
   "property": "C135",
   "status": "proved",
   "theorems": [
    "C135_products_rounding",
    "C135_products_fixed",
    "C135_products_double"
   ],
   "note": ""
  },
  {
   "property": "C136",
   "status": "proved",
   "theorems": [
    "C136_matrix",
    "C136_vector",
    "C136_matrix_injective",
    "C136_numbers"
   ],
   "note": ""
  },
  {
   "property": "C137",
   "status": "proved",
   "theorems": [
    "C137_six_digits",
    "C137_not_finite",
    "C137_integers",
    "C137_fixed_point",
    "C137_fixed_point_injective",
    "C137_fixed_point_32_refuted"
   ],
   "note": ""
  },
  {
   "property": "C138",
   "status": "proved",
   "theorems": [
    "C138_recorded_output",
    "C138_recorded_run",
    "C138_recorded_file_refuted"
   ],
   "note": ""
  },
  {
   "property": "C139",
   "status": "proved",
   "theorems": [
    "C139_biquad",
    "C139_biquad_without_b0",
    "C139_cascade",
    "C139_onepole",
    "C139_always_stable_refuted"
   ],
   "note": ""
  },
  {
   "property": "C140",
   "status": "proved",
   "theorems": [
    "C140_stepped_range",
    "C140_infinite",
    "C140_infinite_values",
    "C140_element_error",
    "C140_too_many_steps",
    "C140_step_not_positive",
    "C140_nan",
    "C140_unit_range",
    "C140_unit_never_meets",
    "C140_unit_too_far"
   ],
   "note": ""
  },
  {
   "property": "C141",
   "status": "proved",
   "theorems": [
    "C141_samples",
    "C141_intended_number_refuted",
    "C141_programs",
    "C141_inner"
   ],
   "note": ""
  },
  {
   "property": "C142",
   "status": "proved",
   "theorems": [
    "C142_covariance_bounded",
    "C142_simulation_bounded",
    "C142_unobservable_unbounded"
   ],
   "note": ""
  },
  {
   "property": "C143",
   "status": "proved",
   "theorems": [
    "C143_initial_state_forgotten",
    "C143_not_excited_not_forgotten"
   ],
   "note": ""
  },
  {
   "property": "C144",
   "status": "proved",
   "theorems": [
    "C144_steady_state",
    "C144_steady_state_unique",
    "C144_simulation"
   ],
   "note": ""
  },
  {
   "property": "C145",
   "status": "proved",
   "theorems": [
    "C145_error_bounded",
    "C145_overconfident_diverges"
   ],
   "note": ""
  },
  {
   "property": "C146",
   "status": "proved",
   "theorems": [
    "C146_from_rep_value",
    "C146_from_value_stores",
    "C146_from_value_keeps_number"
   ],
   "note": ""
  },
  {
   "property": "C147",
   "status": "proved",
   "theorems": [
    "C147_same_step",
    "C147_zero_innovation",
    "C147_two_measurements",
    "C147_needs_symmetric_R_refuted"
   ],
   "note": ""
  },
  {
   "property": "C148",
   "status": "proved",
   "theorems": [
    "C148_same_curves",
    "C148_colon"
   ],
   "note": ""
  },
  {
   "property": "C149",
   "status": "proved",
   "theorems": [
    "C149_biquad",
    "C149_cascade",
    "C149_onepole",
    "C149_gain_unique",
    "C149_pass"
   ],
   "note": ""
  },
  {
   "property": "C150",
   "status": "proved",
   "theorems": [
    "C150_biquad_cheby1",
    "C150_biquad_cheby2",
    "C150_cascade_cheby2",
    "C150_cascade_cheby1_refuted",
    "C150_stable",
    "C150_onepole"
   ],
   "note": ""
  },
  {
   "property": "C151",
   "status": "proved",
   "theorems": [
    "C151_band_text",
    "C151_band_pass",
    "C151_band_stop_refuted"
   ],
   "note": ""
  },
  {
   "property": "C152",
   "status": "proved",
   "theorems": [
    "C152_biquad_design",
    "C152_onepole_design",
    "C152_pass_text_refuted",
    "C152_band_text"
   ],
   "note": ""
  },
  {
   "property": "C153",
   "status": "proved",
   "theorems": [
    "C153_conversion",
    "C153_unique",
    "C153_double",
    "C153_float_error",
    "C153_float_round_trip",
    "C153_float_odd_refuted",
    "C153_float_large",
    "C153_float_max_refuted",
    "C153_double_round_trip"
   ],
   "note": ""
  },
  {
   "property": "C154",
   "status": "proved",
   "theorems": [
    "C154_constant_data",
    "C154_consistent"
   ],
   "note": ""
  },
  {
   "property": "C155",
   "status": "proved",
   "theorems": [
    "C155_light",
    "C155_settles",
    "C155_runs_away",
    "C155_fixed_point"
   ],
   "note": ""
  },
  {
   "property": "C156",
   "status": "proved",
   "theorems": [
    "C156_double_simulation",
    "C156_exact_refuted"
   ],
   "note": ""
  },
  {
   "property": "C157",
   "status": "proved",
   "theorems": [
    "C157_fixed_simulation",
    "C157_gains",
    "C157_tight",
    "C157_range_refuted"
   ],
   "note": ""
  },
  {
   "property": "C158",
   "status": "proved",
   "theorems": [
    "C158_remove_reference",
    "C158_remove_cv",
    "C158_remove_one",
    "C158_is_same",
    "C158_is_integral",
    "C158_is_signed",
    "C158_fixed_point",
    "C158_requirement_refuted",
    "C158_promote",
    "C158_promote_refuted",
    "C158_move"
   ],
   "note": ""
  },
  {
   "property": "C159",
   "status": "proved",
   "theorems": [
    "C159_accuracy_double",
    "C159_accuracy_float",
    "C159_resolved_double",
    "C159_stable_double",
    "C159_stable_float",
    "C159_float_refuted",
    "C159_onepole_double",
    "C159_onepole_float"
   ],
   "note": ""
  },
  {
   "property": "C160",
   "status": "proved",
   "theorems": [
    "C160_once",
    "C160_again",
    "C160_tuple_refuted",
    "C160_names",
    "C160_calls",
    "C160_biquad_design_refuted",
    "C160_programs"
   ],
   "note": ""
  },
  {
   "property": "C161",
   "status": "proved",
   "theorems": [
    "C161_accuracy_double",
    "C161_accuracy_float",
    "C161_resolved_double",
    "C161_stable_double",
    "C161_stable_float"
   ],
   "note": ""
  },
  {
   "property": "C162",
   "status": "proved",
   "theorems": [
    "C162_test_double",
    "C162_test_float",
    "C162_exact_refuted",
    "C162_zpk_double",
    "C162_zpk_float",
    "C162_zpk_stable_double",
    "C162_zpk_stable_float",
    "C162_zpk_refuted"
   ],
   "note": ""
  },
  {
   "property": "C163",
   "status": "proved",
   "theorems": [
    "C163_exact_or_overflow",
    "C163_product_defined",
    "C163_product_overflows",
    "C163_eye_neutral"
   ],
   "note": ""
  },
  {
   "property": "C164",
   "status": "proved",
   "theorems": [
    "C164_elements",
    "C164_matrix",
    "C164_surplus"
   ],
   "note": ""
  },
  {
   "property": "C165",
   "status": "proved",
   "theorems": [
    "C165_text"
   ],
   "note": ""
  },
  {
   "property": "C166",
   "status": "proved",
   "theorems": [
    "C166_functions",
    "C166_missing",
    "C166_assignment",
    "C166_construction",
    "C166_programs"
   ],
   "note": ""
  },
  {
   "property": "C167",
   "status": "proved",
   "theorems": [
    "C167_matrix",
    "C167_range",
    "C167_break",
    "C167_no_break"
   ],
   "note": ""
  },
  {
   "property": "C168",
   "status": "proved",
   "theorems": [
    "C168_digits",
    "C168_nearest",
    "C168_long_double_refuted"
   ],
   "note": ""
  }
 ]
}