{
 "claims": [
  {
   "property": "C01",
   "status": "proved",
   "theorems": [
    "C01_storage_layout",
    "C01_storage_is_a_matrix"
   ],
   "note": "any declarations, any arithmetic"
  },
  {
   "property": "C02",
   "status": "proved",
   "theorems": [
    "C02_stamping_is_dense_sum"
   ],
   "note": "any field"
  },
  {
   "property": "C03",
   "status": "proved",
   "theorems": [
    "C03_lu_product"
   ],
   "note": "exact arithmetic, any protocol history"
  },
  {
   "property": "C04",
   "status": "proved",
   "theorems": [
    "C04_substitution_solves",
    "C04_solution_unique"
   ],
   "note": "exact arithmetic, both forms"
  },
  {
   "property": "C05",
   "status": "proved",
   "theorems": [
    "C05_transposed_substitution_solves",
    "C05_transposed_solution_unique",
    "C05_no_nodes_refuted"
   ],
   "note": "size 0 is out of bounds (finding)"
  },
  {
   "property": "C06",
   "status": "proved",
   "theorems": [
    "C06_partial_equals_full",
    "C06_unmarked_clear_refuted"
   ],
   "note": "bit-exact, any arithmetic; clear without full decomposition refuted"
  },
  {
   "property": "C07",
   "status": "proved",
   "theorems": [
    "C07_inplace_equals_copy",
    "C07_wider_accumulator_refuted"
   ],
   "note": "equal when rounding commutes; with a wider accumulator refuted"
  },
  {
   "property": "C08",
   "status": "proved",
   "theorems": [
    "C08_incremental_equals_full",
    "C08_loads_latest_values",
    "C08_noise_suppression_refuted"
   ],
   "note": "the devices' evaluations are an arbitrary event stream; exact arithmetic; noise suppression off (refuted when on); mfactor constant"
  },
  {
   "property": "C09",
   "status": "proved",
   "theorems": [
    "C09_factors_current",
    "C09_voltages_solve"
   ],
   "note": "factors: any arithmetic, bit for bit; solution: exact arithmetic"
  },
  {
   "property": "C10",
   "status": "proved",
   "theorems": [
    "C10_permutation"
   ],
   "note": "every ordering option and node count"
  },
  {
   "property": "C11",
   "status": "proved",
   "theorems": [
    "C11_flattening",
    "C11_no_exception",
    "C11_same_row_same_net"
   ],
   "note": "every hierarchy whose formal ports are numbered 1,2,... (C57); devices that make nodes of their own other than coupled coils are not modelled"
  },
  {
   "property": "C12",
   "status": "proved",
   "theorems": [
    "C12_new_node",
    "C12_same_name_same_node",
    "C12_lookup",
    "C12_case_option_change_refuted"
   ],
   "note": "any history of lookups; changing the case option midway refuted"
  },
  {
   "property": "C13",
   "status": "proved",
   "theorems": [
    "C13_wildcard_sound",
    "C13_wildcard_exact",
    "C13_final_star_one_or_more",
    "C13_final_star_zero_refuted",
    "C13_literal_star_refuted"
   ],
   "note": "exact except for a final star (one or more characters) and a literal star in the label (both refuted)"
  },
  {
   "property": "C14",
   "status": "proved",
   "theorems": [
    "C14_cursor_stays_on_line",
    "C14_never_backwards",
    "C14_failed_match_consumes_nothing",
    "C14_failed_conversion_skips_blanks",
    "C14_check_leaves_the_line_refuted",
    "C14_ctof_failure_eats_comma_refuted",
    "C14_skipto_failure_reported_as_success_refuted"
   ],
   "note": "any sequence of modelled scanner calls; check() at the end of the text, ctof's failure and skipto1's status are refuted (findings)"
  },
  {
   "property": "C15",
   "status": "proved",
   "theorems": [
    "C15_keyword_accepts",
    "C15_keyword_consumes",
    "C15_alternatives_accept",
    "C15_later_alternative_after_blank_refuted",
    "C15_unclosed_brace_refuted"
   ],
   "note": "keywords with one optional part and their alternatives; later alternatives after blanks and unclosed braces refuted"
  },
  {
   "property": "C16",
   "status": "proved",
   "theorems": [
    "C16_ctoi_value",
    "C16_ctoi_reads_printed",
    "C16_ctou_value",
    "C16_ctox_value",
    "C16_ctoo_value",
    "C16_ctob_word",
    "C16_ctob_other",
    "C16_ctob_second_comma_refuted",
    "C16_smallest_int_refuted",
    "C16_sign_alone_accepted_refuted"
   ],
   "note": "every int but the smallest (overflow, finding); unsigned modulo 2^32"
  },
  {
   "property": "C17",
   "status": "proved",
   "theorems": [
    "C17_ctof_value",
    "C17_sign_alone_accepted_refuted",
    "C17_huge_exponent_refuted"
   ],
   "note": "exact rational value; both unit modes; exponents that fit in an int"
  },
  {
   "property": "C18",
   "status": "proved",
   "theorems": [
    "C18_trim",
    "C18_trim_unique_idempotent"
   ],
   "note": "any string, any buffer"
  },
  {
   "property": "C19",
   "status": "proved",
   "theorems": [
    "C19_meaning_is_unique",
    "C19_reduction_preserves_value",
    "C19_closed_is_constant",
    "C19_constants_evaluate",
    "C19_functions_by_text",
    "C19_sqrt_function",
    "C19_unary_refuted",
    "C19_integer_definition_refuted",
    "C19_overflow_refuted",
    "C19_ieee_refuted",
    "C19_abs_of_string_refuted"
   ],
   "note": "exact arithmetic, outside verilog mode; closed expressions in every arithmetic including IEEE; the parser and the text of literals are parameters of the model; remainder has no meaning here (see C20)"
  },
  {
   "property": "C20",
   "status": "proved",
   "theorems": [
    "C20_typed_arithmetic",
    "C20_ieee_arithmetic",
    "C20_no_value_when_undefined",
    "C20_strings",
    "C20_no_mixing",
    "C20_unary",
    "C20_ordinary_values_stay_ordinary",
    "C20_modulo_refuted",
    "C20_verilog_minus_refuted",
    "C20_verilog_compare_refuted"
   ],
   "note": "integer % real is refuted; verilog flavour of a value is lost by unary operators and real comparisons (refuted)"
  },
  {
   "property": "C21",
   "status": "proved",
   "theorems": [
    "C21_innermost",
    "C21_declared_class",
    "C21_instance_scope",
    "C21_cycle_has_no_value",
    "C21_cycle_reported",
    "C21_limit_irrelevant",
    "C21_counter_restored",
    "C21_counter_refuted",
    "C21_string_argument_refuted"
   ],
   "note": "the parser and the printing of fixed values are parameters of the model; the counter is not restored after an exception (refuted); a string for an untyped parameter is ignored (refuted)"
  },
  {
   "property": "C22",
   "status": "proved",
   "theorems": [
    "C22_lookup_latest",
    "C22_install_keeps_objects",
    "C22_uninstall_removes",
    "C22_uninstall_restores_refuted",
    "C22_empty_name_ignored_refuted"
   ],
   "note": "names without a colon (a colon marks a stashed name); uninstalling does not bring the replaced object back, and the empty name is registered (both refuted)"
  },
  {
   "property": "C23",
   "status": "proved",
   "theorems": [
    "C23_step",
    "C23_stuck_stops",
    "C23_runs",
    "C23_times_ordered",
    "C23_accepted_increase",
    "C23_rejections_bounded",
    "C23_events_hit",
    "C23_outputs_hit",
    "C23_release_loops_refuted",
    "C23_dtmax_below_dtmin_refuted"
   ],
   "note": "any finite history; step sizes dtmin <= dtmax, tstrobe and shrink factor at least 2; stopping when no time is left holds with assertions compiled in and is refuted without them; dtmax below half of dtmin refuted"
  },
  {
   "property": "C24",
   "status": "proved",
   "theorems": [
    "C24_none_lost",
    "C24_earliest_first",
    "C24_drained_in_order",
    "C24_not_early"
   ],
   "note": "any history of requests and removals, any positive minimum step"
  },
  {
   "property": "C25",
   "status": "proved",
   "theorems": [
    "C25_smallest_limits",
    "C25_never_when_none"
   ],
   "note": "any list of devices and nested subcircuits"
  },
  {
   "property": "C26",
   "status": "proved",
   "theorems": [
    "C26_forward",
    "C26_loop",
    "C26_reaches_stop",
    "C26_exact",
    "C26_log",
    "C26_nested",
    "C26_inner_fastest",
    "C26_no_step",
    "C26_lin_points_refuted"
   ],
   "note": "any start, stop, nonzero step, any nesting; exact numbers, with the snap to zero of fixzero included; a number of points given with lin is used as the step (refuted)"
  },
  {
   "property": "C27",
   "status": "proved",
   "theorems": [
    "C27_linear",
    "C27_one_point",
    "C27_before_stop",
    "C27_overshoot_refuted",
    "C27_lin_points",
    "C27_log"
   ],
   "note": "any start, stop, nonzero step; that every frequency lies between start and stop is refuted, the overshoot is below one step"
  },
  {
   "property": "C28",
   "status": "proved",
   "theorems": [
    "C28_inside",
    "C28_before",
    "C28_after",
    "C28_single",
    "C28_segment",
    "C28_at_points",
    "C28_safe",
    "C28_final_step_refuted"
   ],
   "note": "any table; a repeated last key is an error at exactly that key (refuted for tables with a final step)"
  },
  {
   "property": "C29",
   "status": "proved",
   "theorems": [
    "C29_unchanged",
    "C29_next_corner",
    "C29_single_point_refuted"
   ],
   "note": "any number of preparations; a single-point list fails when prepared twice (refuted)"
  },
  {
   "property": "C30",
   "status": "proved",
   "theorems": [
    "C30_delayed",
    "C30_ends_held",
    "C30_reflection"
   ],
   "note": "any delay and increasing samples; reflection up to the cancellation snap of dn_diff"
  },
  {
   "property": "C31",
   "status": "proved",
   "theorems": [
    "C31_derivatives_exact",
    "C31_uses_first_points"
   ],
   "note": "any order, any distinct times, exact numbers"
  },
  {
   "property": "C32",
   "status": "proved",
   "theorems": [
    "C32_round_trip",
    "C32_scale_add"
   ],
   "note": "exact numbers"
  },
  {
   "property": "C33",
   "status": "proved",
   "theorems": [
    "C33_linear",
    "C33_trapezoidal",
    "C33_gear",
    "C33_conductance",
    "C33_static",
    "C33_gear_unequal_refuted"
   ],
   "note": "exact numbers, any steps with retries; Gear on unequal steps is not exact for quadratics (refuted)"
  },
  {
   "property": "C34",
   "status": "proved",
   "theorems": [
    "C34_derivative",
    "C34_error_is_tolerance",
    "C34_no_limit",
    "C34_proposal",
    "C34_euler"
   ],
   "note": "any history and options with rejection ratio at most 1; the root functions are approximate to any given relative accuracy"
  },
  {
   "property": "C35",
   "status": "proved",
   "theorems": [
    "C35_history",
    "C35_attempt"
   ],
   "note": "any run of steps with retries"
  },
  {
   "property": "C36",
   "status": "proved",
   "theorems": [
    "C36_value",
    "C36_repeats",
    "C36_announced",
    "C36_long_pulse_refuted"
   ],
   "note": "exact numbers; a pulse longer than its period has a corner that is not announced (refuted)"
  },
  {
   "property": "C37",
   "status": "proved",
   "theorems": [
    "C37_value_and_slope",
    "C37_limits",
    "C37_no_coefficients_refuted"
   ],
   "note": "any degree; an empty coefficient list reads outside the vector (refuted)"
  },
  {
   "property": "C38",
   "status": "proved",
   "theorems": [
    "C38_transient",
    "C38_changes_at_thresholds",
    "C38_monotone",
    "C38_operating_point",
    "C38_predicted",
    "C38_threshold_differs_refuted"
   ],
   "note": "any sequence of control values; at exactly the on threshold the operating point and the transient differ (refuted that they agree)"
  },
  {
   "property": "C39",
   "status": "proved",
   "theorems": [
    "C39_gates",
    "C39_boolean",
    "C39_order",
    "C39_controlling",
    "C39_inversion",
    "C39_output",
    "C39_moving"
   ],
   "note": "every gate, any number of inputs in any state; three-valued specification for the value being moved to"
  },
  {
   "property": "C40",
   "status": "proved",
   "theorems": [
    "C40_max",
    "C40_min"
   ],
   "note": "every waveform with non-decreasing times and values below the reserved number"
  },
  {
   "property": "C41",
   "status": "proved",
   "theorems": [
    "C41_cross"
   ],
   "note": "every recorded waveform; a waveform that only touches the level does not cross it"
  },
  {
   "property": "C42",
   "status": "proved",
   "theorems": [
    "C42_integral",
    "C42_line",
    "C42_additive",
    "C42_linear",
    "C42_average",
    "C42_rms",
    "C42_short_window_refuted"
   ],
   "note": "exact numbers; with one point average is not a number, after the last point the code reads outside the waveform (refuted)"
  },
  {
   "property": "C43",
   "status": "proved",
   "theorems": [
    "C43_fft_any_field",
    "C43_fft_is_dft",
    "C43_inverse"
   ],
   "note": "exact complex numbers with exact cos and sin, or any exact field with the roots of unity; lengths up to 2^29 (int overflow at 2^30); floating point rounding not modelled"
  },
  {
   "property": "C44",
   "status": "proved",
   "theorems": [
    "C44_power",
    "C44_exact_power_refuted"
   ],
   "note": "counts below 2^30; smallest power of two at least the count is refuted (64 gives 128)"
  },
  {
   "property": "C45",
   "status": "proved",
   "theorems": [
    "C45_counts_and_no_dangling",
    "C45_freed_with_last_holder",
    "C45_attach_effect",
    "C45_set_param_is_private",
    "C45_coarse_comparison_refuted"
   ],
   "note": "any history, any number of holders; privacy needs a comparison that implies equality (otherwise refuted)"
  },
  {
   "property": "C46",
   "status": "proved",
   "theorems": [
    "C46_streams_are_sets",
    "C46_thirty_one_files_refuted",
    "C46_pack_mixes_files_refuted",
    "C46_carriage_return_refuted"
   ],
   "note": "any program over at most 30 files, no carriage return; the 31st file, packing and carriage return after backspace refuted"
  },
  {
   "property": "C47",
   "status": "proved",
   "theorems": [
    "C47_listed_names_set",
    "C47_index_sets",
    "C47_first_system_names_set",
    "C47_system_names_refuted",
    "C47_index_too_big_refuted"
   ],
   "note": "any name tables without ambiguity; four system names refuted"
  },
  {
   "property": "C48",
   "status": "proved",
   "theorems": [
    "C48_read_file",
    "C48_long_line_refuted"
   ],
   "note": "lines that fit the buffer; a longer line can lose a '+' (refuted)"
  },
  {
   "property": "C49",
   "status": "proved",
   "theorems": [
    "C49_text_kept",
    "C49_lines_fit",
    "C49_tab_column"
   ],
   "note": "any strings without carriage return; line lengths for strings without control characters but a final newline"
  },
  {
   "property": "C50",
   "status": "partial",
   "theorems": [
    "C26_reverse_partial",
    "C26_reverse_refuted",
    "C26_reverse_loop_refuted"
   ],
   "note": "the code leaves out the last point of the forward sweep (refuted), and visits only start when loop is given too; what it does visit is proved"
  },
  {
   "property": "C51",
   "status": "partial",
   "theorems": [
    "C29_changed_refuted"
   ],
   "note": "refuted: the stored points are appended to, not replaced, so old points stay in use"
  },
  {
   "property": "C52",
   "status": "partial",
   "theorems": [
    "C32_product_partial",
    "C32_product_refuted"
   ],
   "note": "the value is right; the slope is right exactly when the second value is 1, or the first value or second slope is 0 (refuted otherwise)"
  },
  {
   "property": "C53",
   "status": "proved",
   "theorems": [
    "C53_method_choice"
   ],
   "note": "all 81 combinations"
  },
  {
   "property": "C54",
   "status": "proved",
   "theorems": [
    "C54_event",
    "C54_not_early",
    "C54_undo",
    "C54_late_undo_refuted",
    "C54_ramp"
   ],
   "note": "exact numbers; a transition made later than its event time is not undone exactly (refuted without the hypothesis)"
  },
  {
   "property": "C55",
   "status": "proved",
   "theorems": [
    "C55_value",
    "C55_quality",
    "C55_round_trip",
    "C55_offset_levels_refuted"
   ],
   "note": "exact numbers; with a low level other than 0 the round trip fails (refuted)"
  },
  {
   "property": "C56",
   "status": "proved",
   "theorems": [
    "C56_slewrate",
    "C56_last_refuted"
   ],
   "note": "exact numbers; asked for the last passage it can report an earlier one (refuted)"
  },
  {
   "property": "C57",
   "status": "proved",
   "theorems": [
    "C57_header",
    "C57_trailing_ground_refuted"
   ],
   "note": "a header that ends with ground or a repeated name leaves a stray port (refuted)"
  },
  {
   "property": "C58",
   "status": "proved",
   "theorems": [
    "C58_gmin_is_current",
    "C58_last_homotopy_solve_refuted"
   ],
   "note": "exact arithmetic, noise suppression off"
  },
  {
   "property": "C59",
   "status": "proved",
   "theorems": [
    "C59_solve_ends",
    "C59_convergence"
   ],
   "note": "any arithmetic"
  },
  {
   "property": "C60",
   "status": "proved",
   "theorems": [
    "C60_round_trip",
    "C60_exact",
    "C60_zero",
    "C60_fixed_width",
    "C60_longest_refuted",
    "C60_near_limit_refuted"
   ],
   "note": "exact arithmetic in place of double; a length of 34 leaves no room for the terminator and a number near the limit can round past it (refuted)"
  },
  {
   "property": "C61",
   "status": "proved",
   "theorems": [
    "C61_parse",
    "C61_total",
    "C61_unambiguous",
    "C61_printing_succeeds",
    "C61_print_read",
    "C61_text_has_its_value",
    "C61_conditional_operand_refuted",
    "C61_angle_argument_refuted",
    "C61_leading_blank_refuted",
    "C61_stray_operator_refuted"
   ],
   "note": "the grammar is stated as an inductive relation without reference to the parser; a conditional operand is printed without parentheses (refuted), text in angle brackets takes the comma behind it (refuted); evaluation covers array-free trees"
  },
  {
   "property": "C62",
   "status": "proved",
   "theorems": [
    "C62_read",
    "C62_write",
    "C62_backslash_refuted"
   ],
   "note": "a backslash can never be part of the text read (proved as a negative)"
  },
  {
   "property": "C63",
   "status": "proved",
   "theorems": [
    "C63_read",
    "C63_unambiguous",
    "C63_print_read",
    "C63_paramset_read",
    "C63_digit_name_refuted",
    "C63_stop_in_name_refuted",
    "C63_paren_in_text_refuted",
    "C63_order_expression_refuted",
    "C63_escaped_at_end_refuted",
    "C63_paramset_value_refuted"
   ],
   "note": "the line's forms are given by inductive relations without reference to the parser; the settings are the calls made on the device; module headers and ports by current are not modelled"
  },
  {
   "property": "C64",
   "status": "proved",
   "theorems": [
    "C64_refused",
    "C64_accepted",
    "C64_total",
    "C64_points",
    "C64_slope",
    "C64_staircase",
    "C64_straight",
    "C64_degree",
    "C64_cubic",
    "C64_cubic_ends",
    "C64_quadratic_ends",
    "C64_above",
    "C64_below",
    "C64_one_point_refuted",
    "C64_two_points_refuted",
    "C64_two_points_slope_refuted",
    "C64_small_slope_refuted",
    "C64_rounding_refuted",
    "C64_both_slopes_refuted"
   ],
   "note": "exact arithmetic; acceptance of a cubic with a nonzero slope below is not claimed because it is false (refuted: two points, a small slope, and rounding each trip an assert)"
  },
  {
   "property": "C65",
   "status": "proved",
   "theorems": [
    "C65_read",
    "C65_unambiguous",
    "C65_print_read",
    "C65_model_read",
    "C65_model_print_read",
    "C65_element_nodes",
    "C65_element_nodes_paren",
    "C65_element_keyword",
    "C65_total",
    "C65_semicolon_hangs_refuted",
    "C65_bare_params_refuted",
    "C65_bare_value_refuted",
    "C65_too_many_nodes_refuted",
    "C65_model_value_refuted",
    "C65_print_value_refuted",
    "C65_trailing_text_refuted",
    "C65_node_named_poly_refuted"
   ],
   "note": "the line's forms are given by inductive relations without reference to the parser; the settings are the calls made on the device; .subckt headers, behavioural models behind the nodes of an element, and two-word tails of logic devices are not covered by C65_read"
  },
  {
   "property": "C66",
   "status": "proved",
   "theorems": [
    "C66_accepted",
    "C66_total",
    "C66_forms",
    "C66_continue",
    "C66_steps",
    "C66_run_ready",
    "C66_last_option",
    "C66_fourier",
    "C66_fourier_forms",
    "C66_continue_refuted",
    "C66_spice_order_refuted",
    "C66_limits_refuted",
    "C66_total_refuted",
    "C66_fourier_negative_refuted"
   ],
   "note": "over exact rationals, expressions by an oracle; the continuation claim is limited to an explicit start and the limits to the default options, both because the unrestricted statement is refuted"
  },
  {
   "property": "C67",
   "status": "proved",
   "theorems": [
    "C67_solved_circuit",
    "C67_exact_at_convergence",
    "C67_mutual_records_agree",
    "C67_sweep_uses_the_value",
    "C67_ccvs_sweep_refuted",
    "C67_cccs_inode_sweep_refuted",
    "C67_ccvs_inode_refuted",
    "C67_vccap_probe_refuted"
   ],
   "note": "exact arithmetic; the sweep claim leaves out the current controlled voltage source and the current controlled current source sensing an inductor with a current node, and the probe claim leaves out the voltage controlled capacitor, because the code refutes them; the sensed element must have a current probe"
  },
  {
   "property": "C68",
   "status": "proved",
   "theorems": [
    "C68_ac_sweep",
    "C68_declared_suffices",
    "C68_small_signal_is_derivative",
    "C68_probe_changes_result_refuted",
    "C68_sensing_probe_refuted",
    "C68_transcap_probe_refuted",
    "C68_ccvs_without_op_refuted",
    "C68_small_resistor_refuted"
   ],
   "note": "exact arithmetic in any field; the hypothesis ready leaves out the cases the refutations show (a probed source without ac value, H without operating point, the probes of F and H sensing a source and of a transcapacitor) and a voltage controlled capacitor with an ac behaviour; nonlinear elements without ac behaviour need an operating point"
  },
  {
   "property": "C69",
   "status": "proved",
   "theorems": [
    "C69_no_dangling_probe",
    "C69_steps_end",
    "C69_delete",
    "C69_other_kinds",
    "C69_command",
    "C69_names",
    "C69_wave",
    "C69_command_ends_refuted",
    "C69_command_in_text_refuted",
    "C69_each_object_once_refuted",
    "C69_name_from_zero_refuted",
    "C69_remove_several_refuted",
    "C69_remove_backward_refuted",
    "C69_wave_after_delete_refuted",
    "C69_wave_in_bounds_refuted",
    "C69_wave_after_command_refuted"
   ],
   "note": "plain form leaves out the word nodes, ground, names that begin with 0, ranges and quotes (covered by the any-text theorems); that a command ends is proved for texts without = [ ], because the code refutes the rest; that waves stay findable after a later command, deletion or failed analysis is refuted by the code and not claimed"
  },
  {
   "property": "C70",
   "status": "proved",
   "theorems": [
    "C70_forward",
    "C70_reverse",
    "C70_iteration",
    "C70_style",
    "C70_passive",
    "C70_limit_settled",
    "C70_saturation",
    "C70_capacitance",
    "C70_parallel_conductance_refuted",
    "C70_limit_refuted",
    "C70_breakdown_refuted",
    "C70_defined_refuted",
    "C70_charge_refuted"
   ],
   "note": "real numbers, no rounding or overflow; default style without GP and without flags 0100, 0200, 0400 (with GP the code refutes it); the voltage is given, not the damped one; the styles with the spice limit only where the limit does nothing, the rest is refuted by the code"
  },
  {
   "property": "C71",
   "status": "proved",
   "theorems": [
    "C71_ports",
    "C71_line",
    "C71_line_exact",
    "C71_quiet",
    "C71_ac",
    "C71_parameters",
    "C71_operating_point",
    "C71_first_step_refuted",
    "C71_dc_wire_refuted"
   ],
   "note": "exact arithmetic; the second step, with what was tried for it, must end before one delay (the code refutes the rest: a first step of exactly one delay stops the simulation); an accepted step must reload the line in full, or by difference with noise suppression off; port voltages are given, without the denoising of node differences; ac and parameters over the real numbers"
  },
  {
   "property": "C72",
   "status": "proved",
   "theorems": [
    "C72_tanh",
    "C72_posy",
    "C72_line",
    "C72_source",
    "C72_exp",
    "C72_exp_events",
    "C72_sin",
    "C72_sin_events",
    "C72_sffm",
    "C72_ac",
    "C72_input_offset_refuted",
    "C72_output_offset_refuted",
    "C72_exp_endless_refuted",
    "C72_exp_order_refuted",
    "C72_sin_delay_refuted",
    "C72_sin_past_refuted",
    "C72_sin_near_refuted",
    "C72_ac_delay_refuted",
    "C72_posy_constant_refuted",
    "C72_posy_slope_refuted",
    "C72_posy_odd_even_refuted"
   ],
   "note": "real numbers; where the code refutes the statement it is proved for the rest: no input offset in controlled elements and sine events, no output offset in sources, positive period and td1 <= td2 for exp, no delay for sine events, posy away from argument zero and not odd and even at once; the events of sffm are not modelled"
  },
  {
   "property": "C73",
   "status": "proved",
   "theorems": [
    "C73_session",
    "C73_unfault",
    "C73_ends",
    "C73_scope",
    "C73_find",
    "C73_sweep",
    "C73_unknown_name_refuted",
    "C73_no_value_refuted",
    "C73_dotted_refuted",
    "C73_deleted_refuted",
    "C73_not_element_refuted"
   ],
   "note": "Values, unfault, termination, scope, search and sweep values proved for all commands; five things a user would expect are refuted: a name not found drops the rest of the line, a bare name sets zero, a dotted wildcard changes only the first, unfault after the element is deleted writes to freed memory, and devices that are no ELEMENT fail a cast."
  },
  {
   "property": "C74",
   "status": "proved",
   "theorems": [
    "C74_current",
    "C74_regions",
    "C74_slopes",
    "C74_settles",
    "C74_reachable",
    "C74_passive",
    "C74_exchange",
    "C74_mirror",
    "C74_card",
    "C74_capacitances",
    "C74_capacitance_values",
    "C74_tangent",
    "C74_parameters",
    "C74_temperature",
    "C74_forward_bulk_refuted",
    "C74_cap_history_refuted",
    "C74_cap_jump_refuted",
    "C74_hot_refuted"
   ],
   "note": "Real numbers. The current, slopes and power are proved with the bulk at or below the source; with a forward biased bulk the code adds the bulk slope and the ids probe disagrees (refuted). Settling is proved for drain and gate apart, and connected without a drain resistance between. The gate capacitance jumps at vgst=-PHI/2 and depends on history at vds=0 (refuted); at high temperature the surface potential is negative and there is no value (refuted). The charge of the capacitors is not modelled."
  },
  {
   "property": "C75",
   "status": "proved",
   "theorems": [
    "C75_impedance",
    "C75_z_probe",
    "C75_z_probe_ac",
    "C75_power_balance",
    "C75_power_split",
    "C75_z_controlled_refuted"
   ],
   "note": "Exact arithmetic in any field. z is proved for the elements that load a conductance between their own nodes; for controlled sources it subtracts the transfer coefficient as if it were such a conductance (refuted). The balance leaves out DEV_VCCAP, whose current probe is wrong (C67_vccap_probe_refuted), and counts nothing for mutual inductances. The power of a subcircuit is not covered here."
  },
  {
   "property": "C76",
   "status": "proved",
   "theorems": [
    "C76_element",
    "C76_node",
    "C76_polar",
    "C76_rounded",
    "C76_order",
    "C76_node_voltage",
    "C76_long_name_refuted",
    "C76_order_refuted"
   ],
   "note": "Real numbers; the quantities themselves are given (C68, C75). A name of more than 256 characters overruns a buffer (refuted without the bound), and order is kept by rounding only when 1 is a whole multiple of the option floor (refuted otherwise). The ac probes of gates (d_logic.cc) and meters (d_meter.cc) are not modelled."
  },
  {
   "property": "C77",
   "status": "proved",
   "theorems": [
    "C77_choice",
    "C77_one_choice",
    "C77_silent",
    "C77_order",
    "C77_round_trip",
    "C77_one_label",
    "C77_one_reading",
    "C77_text",
    "C77_two_values_refuted",
    "C77_name_refuted",
    "C77_warning_refuted",
    "C77_print_refuted"
   ],
   "note": "The reading of one function and its arguments is a parameter; expand, which copies each function of the table, is not modelled. Round trip is proved unless the unlabelled clause of a source is a plain value, where it is refuted. A warning is also given in one case where nothing is replaced (refuted converse)."
  },
  {
   "property": "C78",
   "status": "proved",
   "theorems": [
    "C78_number",
    "C78_flag",
    "C78_no",
    "C78_level",
    "C78_choice",
    "C78_language",
    "C78_unknown",
    "C78_sequence",
    "C78_last",
    "C78_ends",
    "C78_unchanged",
    "C78_invariant",
    "C78_printed_number",
    "C78_printed_flag",
    "C78_printed_choice",
    "C78_whole",
    "C78_itl_refuted",
    "C78_wrong_choice_refuted",
    "C78_method_refuted",
    "C78_no_refuted",
    "C78_undefined_refuted"
   ],
   "note": "The reading of a language name is a parameter that must stay on the line. Reading back what print writes is proved for names, flags and choices; the digits of numbers are C17's matter, and the iteration limits are refuted. A choice followed by a wrong word lets the word be taken for another option (refuted)."
  },
  {
   "property": "C79",
   "status": "proved",
   "theorems": [
    "C79_exact",
    "C79_unknown",
    "C79_pattern",
    "C79_pattern_means",
    "C79_inside",
    "C79_inside_last",
    "C79_outside",
    "C79_instance",
    "C79_only",
    "C79_done",
    "C79_list",
    "C79_all",
    "C79_ends",
    "C79_ends_refuted",
    "C79_model_refuted",
    "C79_dotted_label_refuted"
   ],
   "note": "Destruction of what is erased is not modelled. The meaning of a pattern is by wildcard characters for patterns not ending in a star (C13). A dotted name whose container is a card without a list, such as a model, fails an assertion (refuted), and a line with one of = ( ) ; } after a name never ends (refuted in general, for every number of rounds)."
  },
  {
   "property": "C80",
   "status": "proved",
   "theorems": [
    "C80_one",
    "C80_found",
    "C80_mismatch",
    "C80_none",
    "C80_message",
    "C80_ends",
    "C80_nameless",
    "C80_gap_refuted",
    "C80_message_refuted",
    "C80_hidden_refuted"
   ],
   "note": "The chain of lists from the device to the root is given; whether a model fits is a fact about each card. Found, mismatch and none are equivalences. Bins after a missing number, the choice between the two messages, and a part of the same name nearer than the model are findings."
  },
  {
   "property": "C81",
   "status": "proved",
   "theorems": [
    "C81_every_path",
    "C81_ends",
    "C81_found",
    "C81_none",
    "C81_colon_at_end",
    "C81_no_path",
    "C81_include",
    "C81_load",
    "C81_plugins",
    "C81_empty_last_refuted",
    "C81_at_end_refuted",
    "C81_unnamed_refuted"
   ],
   "note": "Whether a file can be read is a parameter that does not change during a search. Proved for paths whose last directory is not empty, and for a colon at the end by comparison with the path without it; there the empty directory is not tried (refuted without the condition). That the end of the path is dereferenced and that a file not found is not named in the warning are findings."
  },
  {
   "property": "C82",
   "status": "proved",
   "theorems": [
    "C82_name",
    "C82_one",
    "C82_fits",
    "C82_kept",
    "C82_not_kept",
    "C82_no_name",
    "C82_long_refuted",
    "C82_left_out_refuted"
   ],
   "note": "The clock, the existing files and the answer are parameters. The line is given from the name on and is not empty, so the question for a name is not covered. A word as long as the buffer makes it write outside (refuted without the bound), and an extension that does not fit is left out silently (finding)."
  },
  {
   "property": "C83",
   "status": "proved",
   "theorems": [
    "C83_all",
    "C83_names",
    "C83_unknown",
    "C83_range",
    "C83_range_unknown",
    "C83_from",
    "C83_upto",
    "C83_safe",
    "C83_silent_refuted",
    "C83_same_refuted"
   ],
   "note": "The line is given as words, names are without dots, and what a pattern fits is C13. Names after one that fits nothing are dropped silently, and a range from a card to itself or up to the first card is not found (findings)."
  }
 ]
}