{
 "claims": [
  {
   "property": "C01",
   "status": "proved",
   "theorems": [
    "C01_infix_to_rpn",
    "C01_eval_tokens",
    "C01_two_operators",
    "C01_left_chain",
    "C01_right_chain"
   ],
   "note": ""
  },
  {
   "property": "C02",
   "status": "proved",
   "theorems": [
    "C02_prefix_on_atom",
    "C02_prefix_takes_rest",
    "C02_usual_prefix_rule_refuted"
   ],
   "note": ""
  },
  {
   "property": "C03",
   "status": "proved",
   "theorems": [
    "C03_unique_reading",
    "C03_trees_are_grammatical"
   ],
   "note": ""
  },
  {
   "property": "C04",
   "status": "proved",
   "theorems": [
    "C04_implied_mul_binds_tighter",
    "C04_implied_mul_groups_right",
    "C04_number_of_implied_muls",
    "C04_like_written_mul_refuted"
   ],
   "note": ""
  },
  {
   "property": "C05",
   "status": "proved",
   "theorems": [
    "C05_call_gets_its_arguments",
    "C05_empty_call_alone",
    "C05_empty_call_refuted"
   ],
   "note": ""
  },
  {
   "property": "C06",
   "status": "proved",
   "theorems": [
    "C06_balanced",
    "C06_infix_alone_refuted"
   ],
   "note": ""
  },
  {
   "property": "C07",
   "status": "proved",
   "theorems": [
    "C07_infix_to_rpn_no_panic",
    "C07_eval_tokens_no_panic",
    "C07_debug_is_release"
   ],
   "note": ""
  },
  {
   "property": "C08",
   "status": "proved",
   "theorems": [
    "C08_accepted_is_meaningful",
    "C08_only_grammatical_refuted"
   ],
   "note": ""
  },
  {
   "property": "C09",
   "status": "proved",
   "theorems": [
    "C09_steps"
   ],
   "note": ""
  },
  {
   "property": "C10",
   "status": "proved",
   "theorems": [
    "C10_nothing_lost",
    "C10_keep_whitespace",
    "C10_always_refuted"
   ],
   "note": "C10_always_refuted shows the second-point condition is needed."
  },
  {
   "property": "C100",
   "status": "proved",
   "theorems": [
    "C100_reading",
    "C100_only_result",
    "C100_type"
   ],
   "note": ""
  },
  {
   "property": "C101",
   "status": "proved",
   "theorems": [
    "C101_functions",
    "C101_operators",
    "C101_constants"
   ],
   "note": ""
  },
  {
   "property": "C102",
   "status": "proved",
   "theorems": [
    "C102_unknown_word",
    "C102_together",
    "C102_checked",
    "C102_unchecked",
    "C102_decimal",
    "C102_complex",
    "C102_binary",
    "C102_integers"
   ],
   "note": ""
  },
  {
   "property": "C103",
   "status": "proved",
   "theorems": [
    "C103_requests",
    "C103_integers"
   ],
   "note": ""
  },
  {
   "property": "C104",
   "status": "proved",
   "theorems": [
    "C104_text",
    "C104_server",
    "C104_bytes"
   ],
   "note": ""
  },
  {
   "property": "C105",
   "status": "proved",
   "theorems": [
    "C105_text",
    "C105_determined",
    "C105_server",
    "C105_command_line"
   ],
   "note": ""
  },
  {
   "property": "C106",
   "status": "proved",
   "theorems": [
    "C106_every_type",
    "C106_decimals",
    "C106_floats"
   ],
   "note": ""
  },
  {
   "property": "C107",
   "status": "proved",
   "theorems": [
    "C107_text",
    "C107_determined",
    "C107_server",
    "C107_command_line",
    "C107_bytes"
   ],
   "note": ""
  },
  {
   "property": "C108",
   "status": "proved",
   "theorems": [
    "C108_same",
    "C108_expression",
    "C108_text_of_expression",
    "C108_tokens",
    "C108_text",
    "C108_kinds",
    "C108_standard"
   ],
   "note": ""
  },
  {
   "property": "C109",
   "status": "proved",
   "theorems": [
    "C109_same",
    "C109_names",
    "C109_requests",
    "C109_bytes",
    "C109_wording",
    "C109_words_exist",
    "C109_command_line",
    "C109_prompt"
   ],
   "note": ""
  },
  {
   "property": "C11",
   "status": "proved",
   "theorems": [
    "C11_maximal_munch",
    "C11_unique_words",
    "C11_all_splitters",
    "C11_any_rules",
    "C11_no_whitespace",
    "C11_white_space"
   ],
   "note": ""
  },
  {
   "property": "C110",
   "status": "proved",
   "theorems": [
    "C110_same",
    "C110_plain",
    "C110_says",
    "C110_random",
    "C110_random_known",
    "C110_complex_log",
    "C110_complex_random",
    "C110_every_type",
    "C110_integers",
    "C110_decimals",
    "C110_floats"
   ],
   "note": ""
  },
  {
   "property": "C111",
   "status": "proved",
   "theorems": [
    "C111_requests",
    "C111_decimal_requests",
    "C111_float_requests",
    "C111_complex_requests",
    "C111_trees",
    "C111_unambiguous",
    "C111_text",
    "C111_decimals",
    "C111_doubles",
    "C111_complex"
   ],
   "note": ""
  },
  {
   "property": "C112",
   "status": "proved",
   "theorems": [
    "C112_sum_product",
    "C112_avg",
    "C112_max_min",
    "C112_nothing"
   ],
   "note": ""
  },
  {
   "property": "C12",
   "status": "proved",
   "theorems": [
    "C12_ascii_no_panic",
    "C12_panics",
    "C12_never_refuted"
   ],
   "note": "C12_never_refuted: panics on a non-ASCII string."
  },
  {
   "property": "C13",
   "status": "proved",
   "theorems": [
    "C13_words_to_tokens",
    "C13_one_token_per_word",
    "C13_priority",
    "C13_errors"
   ],
   "note": ""
  },
  {
   "property": "C14",
   "status": "proved",
   "theorems": [
    "C14_decision",
    "C14_after_operand",
    "C14_sign",
    "C14_postfix",
    "C14_sign_after_operator_refuted"
   ],
   "note": "C14_sign_after_operator_refuted."
  },
  {
   "property": "C15",
   "status": "proved",
   "theorems": [
    "C15_text_to_tokens",
    "C15_spaced",
    "C15_any_splitter",
    "C15_any_spacing_refuted",
    "C15_double_postfix_refuted"
   ],
   "note": "C15_any_spacing_refuted, C15_double_postfix_refuted."
  },
  {
   "property": "C16",
   "status": "proved",
   "theorems": [
    "C16_eval_text",
    "C16_any_splitter",
    "C16_integer_text",
    "C16_ascii_strings_never_panic"
   ],
   "note": ""
  },
  {
   "property": "C17",
   "status": "proved",
   "theorems": [
    "C17_between",
    "C17_ends",
    "C17_same_words",
    "C17_removal_refuted"
   ],
   "note": "C17_removal_refuted."
  },
  {
   "property": "C18",
   "status": "proved",
   "theorems": [
    "C18_lookup_ignores_ascii_case",
    "C18_eval_ignores_ascii_case"
   ],
   "note": ""
  },
  {
   "property": "C19",
   "status": "proved",
   "theorems": [
    "C19_names_never_clash",
    "C19_set_variable_succeeds",
    "C19_add_constant_succeeds",
    "C19_error_changes_nothing",
    "C19_add_constant"
   ],
   "note": ""
  },
  {
   "property": "C20",
   "status": "proved",
   "theorems": [
    "C20_variables_are_a_map",
    "C20_set_variable",
    "C20_set_variable_frame"
   ],
   "note": ""
  },
  {
   "property": "C21",
   "status": "proved",
   "theorems": [
    "C21_equivalence",
    "C21_letter_by_letter",
    "C21_total_order"
   ],
   "note": ""
  },
  {
   "property": "C22",
   "status": "proved",
   "theorems": [
    "C22_ascii_hash_contract",
    "C22_hash_is_ascii_case",
    "C22_hash_contract_refuted"
   ],
   "note": "The statement gives the exact condition (same bytes iff equal up to ASCII case); the full Hash/Eq contract for non-ASCII strings is false: C22_hash_contract_refuted."
  },
  {
   "property": "C23",
   "status": "proved",
   "theorems": [
    "C23_add_function_succeeds",
    "C23_add_function",
    "C23_add_unary",
    "C23_add_binary",
    "C23_taken_name",
    "C23_atomic_refuted",
    "C23_outcome"
   ],
   "note": "The unqualified claim (never panics, atomic) is false of the code: C23_atomic_refuted."
  },
  {
   "property": "C24",
   "status": "proved",
   "theorems": [
    "C24_group_symbols_agree",
    "C24_configured_grouping_refuted"
   ],
   "note": "C24_configured_grouping_refuted shows that the with_grouping setting is ignored."
  },
  {
   "property": "C25",
   "status": "proved",
   "theorems": [
    "C25_ring_operators",
    "C25_division",
    "C25_division_overflow",
    "C25_expressions"
   ],
   "note": ""
  },
  {
   "property": "C26",
   "status": "proved",
   "theorems": [
    "C26_ring_operators",
    "C26_wrapped_exact",
    "C26_division",
    "C26_expressions_release",
    "C26_expressions_debug"
   ],
   "note": ""
  },
  {
   "property": "C27",
   "status": "proved",
   "theorems": [
    "C27_argument_count",
    "C27_avg_overflow",
    "C27_sum_product",
    "C27_avg",
    "C27_max_min",
    "C27_abs"
   ],
   "note": "avg panics when the argument count is not a value of the type; C27_avg says so."
  },
  {
   "property": "C28",
   "status": "proved",
   "theorems": [
    "C28_builtins_never_panic",
    "C28_eval_never_panics",
    "C28_factorial_refuted",
    "C28_avg_refuted"
   ],
   "note": "The unqualified claim is false: C28_factorial_refuted, C28_avg_refuted."
  },
  {
   "property": "C29",
   "status": "proved",
   "theorems": [
    "C29_factorial",
    "C29_terminates",
    "C29_f64_terminates_refuted"
   ],
   "note": "f64 factorial need not terminate: C29_f64_terminates_refuted."
  },
  {
   "property": "C30",
   "status": "proved",
   "theorems": [
    "C30_power_is_double_power",
    "C30_small_powers_exact",
    "C30_odd_powers_wrong",
    "C30_exact_refuted"
   ],
   "note": "powf of the platform is a parameter; C30_exact_refuted shows exactness fails for every valid powf."
  },
  {
   "property": "C31",
   "status": "proved",
   "theorems": [
    "C31_constructor",
    "C31_operators",
    "C31_meaning_unique",
    "C31_complement",
    "C31_grouping",
    "C31_expressions",
    "C31_no_failure",
    "C31_shift_out_of_range",
    "C31_never_panics",
    "C31_text",
    "C31_usual_precedence_refuted",
    "C31_double_not_refuted"
   ],
   "note": "C31_usual_precedence_refuted, C31_double_not_refuted."
  },
  {
   "property": "C32",
   "status": "proved",
   "theorems": [
    "C32_parse",
    "C32_display",
    "C32_round_trip",
    "C32_prefix_needed",
    "C32_word"
   ],
   "note": ""
  },
  {
   "property": "C33",
   "status": "proved",
   "theorems": [
    "C33_integer_powers",
    "C33_exact_powers",
    "C33_powers_refuted",
    "C33_fractional_powers",
    "C33_exponential"
   ],
   "note": "Under exact_decimals (rust_decimal as documented), shown satisfiable by ref_exact. C33_powers_refuted."
  },
  {
   "property": "C34",
   "status": "proved",
   "theorems": [
    "C34_bounded",
    "C34_push",
    "C34_keeps_last",
    "C34_calls",
    "C34_zero_refuted"
   ],
   "note": "C34_zero_refuted."
  },
  {
   "property": "C35",
   "status": "proved",
   "theorems": [
    "C35_never_crashes",
    "C35_history",
    "C35_log_faithful",
    "C35_lines",
    "C35_enter",
    "C35_up",
    "C35_down",
    "C35_zero_history_refuted"
   ],
   "note": "C35_zero_history_refuted."
  },
  {
   "property": "C36",
   "status": "proved",
   "theorems": [
    "C36_exit",
    "C36_assignment",
    "C36_bad_assignment",
    "C36_start",
    "C36_starts",
    "C36_expression",
    "C36_session",
    "C36_wrote_unique",
    "C36_result",
    "C36_program",
    "C36_expression_text",
    "C36_never_panics",
    "C36_comparisons_refuted"
   ],
   "note": "C36_comparisons_refuted."
  },
  {
   "property": "C37",
   "status": "proved",
   "theorems": [
    "C37_exactly_one",
    "C37_answers",
    "C37_values",
    "C37_order",
    "C37_message_order_refuted"
   ],
   "note": "HTTP, JSON reading and actix are not modelled: a body is no UTF-8, no request, or a request. The variables map is a list of distinct names in an arbitrary order. The sub-claim that the message is order-independent is refuted (C37_message_order_refuted)."
  },
  {
   "property": "C38",
   "status": "proved",
   "theorems": [
    "C38_identity",
    "C38_unknown",
    "C38_generated",
    "C38_alphabet"
   ],
   "note": "base64 (crate) is modelled by its specification RFC 4648; actix's reading of addresses and cookies is an input."
  },
  {
   "property": "C39",
   "status": "proved",
   "theorems": [
    "C39_eq_char",
    "C39_single_char",
    "C39_sentence_case",
    "C39_capital_case",
    "C39_case_only_and_idempotent"
   ],
   "note": ""
  },
  {
   "property": "C40",
   "status": "proved",
   "theorems": [
    "C40_legal_names",
    "C40_debug_refuses",
    "C40_release_accepts"
   ],
   "note": ""
  },
  {
   "property": "C41",
   "status": "proved",
   "theorems": [
    "C41_conversion_conserves"
   ],
   "note": ""
  },
  {
   "property": "C42",
   "status": "proved",
   "theorems": [
    "C42_depends_on_names_used",
    "C42_other_variable",
    "C42_registering_is_conservative"
   ],
   "note": ""
  },
  {
   "property": "C43",
   "status": "proved",
   "theorems": [
    "C43_integer_constructors",
    "C43_f64_constructors",
    "C43_constants"
   ],
   "note": ""
  },
  {
   "property": "C44",
   "status": "proved",
   "theorems": [
    "C44_rounding_small_integers",
    "C44_rounding_integers_refuted",
    "C44_floor_below_refuted",
    "C44_sign_of_zero_refuted",
    "C44_names_with_and_without_docs"
   ],
   "note": "Refuted parts: C44_*_refuted."
  },
  {
   "property": "C45",
   "status": "proved",
   "theorems": [
    "C45_argument_counts"
   ],
   "note": ""
  },
  {
   "property": "C46",
   "status": "proved",
   "theorems": [
    "C46_finite_results",
    "C46_all_finite_refuted"
   ],
   "note": "Refuted for the remaining functions: C46_all_finite_refuted."
  },
  {
   "property": "C47",
   "status": "proved",
   "theorems": [
    "C47_deterministic"
   ],
   "note": ""
  },
  {
   "property": "C48",
   "status": "proved",
   "theorems": [
    "C48_numerals",
    "C48_number_words"
   ],
   "note": ""
  },
  {
   "property": "C49",
   "status": "proved",
   "theorems": [
    "C49_constructor",
    "C49_operators",
    "C49_division_by_zero_refuted",
    "C49_expressions"
   ],
   "note": "Under exact_decimals. C49_division_by_zero_refuted."
  },
  {
   "property": "C50",
   "status": "proved",
   "theorems": [
    "C50_factorial",
    "C50_zero_and_negative",
    "C50_two_refuted"
   ],
   "note": "Under exact_decimals. C50_two_refuted."
  },
  {
   "property": "C51",
   "status": "proved",
   "theorems": [
    "C51_sum_product",
    "C51_overflow_refuted",
    "C51_max_min"
   ],
   "note": "Under exact_decimals. C51_overflow_refuted."
  },
  {
   "property": "C52",
   "status": "proved",
   "theorems": [
    "C52_rounding",
    "C52_domains",
    "C52_values",
    "C52_sqrt",
    "C52_reciprocals_refuted",
    "C52_atan2_refuted",
    "C52_functions_refuted",
    "C52_logarithms",
    "C52_hyperbolic",
    "C52_arc"
   ],
   "note": "Under exact_decimals. C52_reciprocals_refuted, C52_atan2_refuted, C52_functions_refuted. sqrt: of the results that are returned; that the iteration ends is not shown."
  },
  {
   "property": "C53",
   "status": "proved",
   "theorems": [
    "C53_never_panics",
    "C53_panics_refuted"
   ],
   "note": "Under exact_decimals. C53_panics_refuted."
  },
  {
   "property": "C54",
   "status": "proved",
   "theorems": [
    "C54_precedences",
    "C54_no_others"
   ],
   "note": ""
  },
  {
   "property": "C55",
   "status": "proved",
   "theorems": [
    "C55_operators",
    "C55_expressions",
    "C55_integers",
    "C55_overflow_refuted"
   ],
   "note": "C55_overflow_refuted."
  },
  {
   "property": "C56",
   "status": "proved",
   "theorems": [
    "C56_max_min",
    "C56_nan_order_refuted",
    "C56_sum_product_avg",
    "C56_factorial",
    "C56_sqrt",
    "C56_abs"
   ],
   "note": "C56_nan_order_refuted. Factorial: for a model with enough fuel for its loop."
  },
  {
   "property": "C57",
   "status": "proved",
   "theorems": [
    "C57_constructor",
    "C57_operators",
    "C57_expressions",
    "C57_gaussian_integers",
    "C57_division_by_zero",
    "C57_division_refuted"
   ],
   "note": "C57_division_refuted. num_complex field operations are written out in the model; powc is a parameter."
  },
  {
   "property": "C58",
   "status": "proved",
   "theorems": [
    "C58_functions",
    "C58_sum_product_avg",
    "C58_reciprocals",
    "C58_never_panics",
    "C58_log_refuted",
    "C58_random",
    "C58_random_refuted",
    "C58_library",
    "C58_acsc_refuted"
   ],
   "note": "C58_log_refuted, C58_random_refuted. The transcendental methods of num_complex are arbitrary functions."
  },
  {
   "property": "C59",
   "status": "proved",
   "theorems": [
    "C59_frame",
    "C59_frame_tokens",
    "C59_unused_variable",
    "C59_unused_constant",
    "C59_unused_function"
   ],
   "note": "frame property at the level of texts; token level included"
  },
  {
   "property": "C60",
   "status": "proved",
   "theorems": [
    "C60_lists_exactly",
    "C60_default",
    "C60_float_refuted"
   ],
   "note": "statement includes the exception for float, proved as C60_float_refuted"
  },
  {
   "property": "C61",
   "status": "proved",
   "theorems": [
    "C61_types",
    "C61_contexts",
    "C61_same_as_server",
    "C61_float_refuted",
    "C61_columns"
   ],
   "note": "statement includes the exception for float, proved as C61_float_refuted; colours and the writer are not modelled"
  },
  {
   "property": "C62",
   "status": "proved",
   "theorems": [
    "C62_complex",
    "C62_checked",
    "C62_binary",
    "C62_decimal",
    "C62_always_refuted"
   ],
   "note": "for decimals under the hypothesis exact_decimals (rust_decimal computes exactly or reports overflow), satisfied by ref_lib; statement includes the exceptions"
  },
  {
   "property": "C63",
   "status": "proved",
   "theorems": [
    "C63_integers_round_trip",
    "C63_feed_back"
   ],
   "note": "Display of i128 is modelled as decimal digits"
  },
  {
   "property": "C64",
   "status": "proved",
   "theorems": [
    "C64_checked_same",
    "C64_unchecked_same",
    "C64_subtraction_refuted",
    "C64_factorial_refuted",
    "C64_small_factorials"
   ],
   "note": "From is taken to be the constructor of the struct. The exceptions are C64_subtraction_refuted and C64_factorial_refuted."
  },
  {
   "property": "C65",
   "status": "proved",
   "theorems": [
    "C65_functions",
    "C65_determined",
    "C65_exact_at_integers",
    "C65_near_an_integer",
    "C65_small_arguments_refuted",
    "C65_reciprocals",
    "C65_rounding"
   ],
   "note": "C65_functions against the table of SpecFunctions.v; the platform functions are arbitrary. C65_small_arguments_refuted is the exception named in the statement."
  },
  {
   "property": "C66",
   "status": "proved",
   "theorems": [
    "C66_integers"
   ],
   "note": ""
  },
  {
   "property": "C67",
   "status": "proved",
   "theorems": [
    "C67_operators",
    "C67_determined",
    "C67_expressions",
    "C67_error",
    "C67_monotonic",
    "C67_sqrt",
    "C67_sum_product_avg",
    "C67_laws"
   ],
   "note": "The model computes with the SpecFloat of the standard library; C67 shows, against the definition of rounding in SpecRound.v, that this is IEEE 754 arithmetic."
  },
  {
   "property": "C68",
   "status": "proved",
   "theorems": [
    "C68_range",
    "C68_errors",
    "C68_integers",
    "C68_wide_range_refuted"
   ],
   "note": "C68_wide_range_refuted shows that the hypothesis on max - min is needed."
  },
  {
   "property": "C69",
   "status": "proved",
   "theorems": [
    "C69_f64",
    "C69_integers",
    "C69_logarithms",
    "C69_acot_refuted"
   ],
   "note": "The platform functions log10, log, atan, atan2, to_degrees are parameters; C69_logarithms assumes Rust's definition of f64::log."
  },
  {
   "property": "C70",
   "status": "proved",
   "theorems": [
    "C70_screen",
    "C70_same_program",
    "C70_program",
    "C70_narrow_refuted",
    "C70_order_refuted",
    "C70_no_color",
    "C70_no_color_refuted",
    "C70_streams",
    "C70_status_refuted"
   ],
   "note": "The terminal is modelled by rows of cells, with line feed, backspace, wrap at the last column, Clear(CurrentLine) and MoveLeft; stdout is buffered by lines, stderr is not. C70_narrow_refuted, C70_order_refuted, C70_no_color_refuted, C70_status_refuted."
  },
  {
   "property": "C71",
   "status": "proved",
   "theorems": [
    "C71_sine_cosine",
    "C71_right_angles",
    "C71_tangent",
    "C71_conversions",
    "C71_exact_refuted",
    "C71_large_refuted"
   ],
   "note": "Compared with sin, cos, tan, PI of Coq's Reals; uses its axioms (DESIGN.md). csc, sec, cot are the same functions (C52)."
  },
  {
   "property": "C72",
   "status": "proved",
   "theorems": [
    "C72_ln",
    "C72_powers_of_ten",
    "C72_base",
    "C72_ln_below_one",
    "C72_ln_near_zero_refuted"
   ],
   "note": "Compared with ln of Coq's Reals; uses its axioms (DESIGN.md)."
  },
  {
   "property": "C73",
   "status": "proved",
   "theorems": [
    "C73_exp",
    "C73_hyperbolic",
    "C73_power",
    "C73_large_arguments_refuted"
   ],
   "note": "Compared with exp, sinh, cosh, tanh, Rpower of Coq's Reals; uses its axioms (DESIGN.md)."
  },
  {
   "property": "C74",
   "status": "proved",
   "theorems": [
    "C74_fraction_below_one",
    "C74_fraction",
    "C74_gamma_range",
    "C74_whole",
    "C74_coefficients"
   ],
   "note": "How close the Lanczos formula is to the gamma function itself is not proved: it depends on the platform's powf and exp."
  },
  {
   "property": "C75",
   "status": "proved",
   "theorems": [
    "C75_atan",
    "C75_acot_refuted",
    "C75_atan_of_a_point"
   ],
   "note": "Characterisation including the refutation of acot. Assumes exact_decimals (SpecDecimal), met by ref_lib."
  },
  {
   "property": "C76",
   "status": "proved",
   "theorems": [
    "C76_cbrt",
    "C76_cbrt_refuted"
   ],
   "note": "Characterisation including the refutation. Between 10^14 and 8.5*10^14 and for negative numbers other than -2 nothing is claimed. Assumes exact_decimals (SpecDecimal), met by ref_lib."
  },
  {
   "property": "C77",
   "status": "proved",
   "theorems": [
    "C77_sqrt",
    "C77_arcsine",
    "C77_arcsine_refuted",
    "C77_arcsecant",
    "C77_hyperbolic",
    "C77_atanh",
    "C77_reciprocals_refuted"
   ],
   "note": "Characterisation including the refutations. sqrt, asin, acos, acsc, asec, asinh, acosh: about the value if one is returned (the square root's loop may not end, C53/C62). Assumes exact_decimals (SpecDecimal) and good_roots (SpecRoots), both met by ref_lib."
  },
  {
   "property": "C78",
   "status": "proved",
   "theorems": [
    "C78_double",
    "C78_rounded",
    "C78_decimal",
    "C78_double_reader",
    "C78_decimal_reader"
   ],
   "note": "Composition of C15/C16 (text to tree), C55, C67 and C49 (tree to number). Hypothesis reads_numerals on FromStr; C78_double_reader and C78_decimal_reader exhibit readers that meet it."
  },
  {
   "property": "C79",
   "status": "proved",
   "theorems": [
    "C79_messages",
    "C79_message_table",
    "C79_equality",
    "C79_equality_ignores_messages_refuted",
    "C79_token_text",
    "C79_token_sorts"
   ],
   "note": "Boxed errors are a type with a display function. Hypothesis of C79_token_text: numbers are shown injectively (met by integers, C63)."
  },
  {
   "property": "C80",
   "status": "proved",
   "theorems": [
    "C80_truth",
    "C80_bits",
    "C80_built",
    "C80_usual_precedence_refuted"
   ],
   "note": "bool's FromStr is modelled; the order or/xor/and is that of the example's precedences."
  },
  {
   "property": "C81",
   "status": "proved",
   "theorems": [
    "C81_brackets",
    "C81_brackets_text",
    "C81_fully_bracketed",
    "C81_variables",
    "C81_set_variable",
    "C81_brackets_refuted"
   ],
   "note": "The condition wf is SpecExpr's; C81_brackets_refuted shows it cannot be dropped."
  },
  {
   "property": "C82",
   "status": "proved",
   "theorems": [
    "C82_text",
    "C82_tokens",
    "C82_integers",
    "C82_doubles",
    "C82_integer_text",
    "C82_double_text",
    "C82_missing",
    "C82_sum_product_release",
    "C82_sum_product_debug",
    "C82_argument_counts"
   ],
   "note": "The generic theorem takes the agreement of the checked and the plain operations as the hypothesis `comparable`, proved for every integer type (C82_integers) and for doubles (C82_doubles)."
  },
  {
   "property": "C83",
   "status": "proved",
   "theorems": [
    "C83_functions",
    "C83_operators",
    "C83_random",
    "C83_random_errors"
   ],
   "note": "The bounds of random are those of the doubles they are converted to; the conversions belong to rust_decimal and are parameters."
  },
  {
   "property": "C84",
   "status": "proved",
   "theorems": [
    "C84_bound",
    "C84_workers",
    "C84_refused",
    "C84_alone",
    "C84_cookies",
    "C84_limit_refuted"
   ],
   "note": "The crate actix-ratelimit is modelled from its documented behaviour (fixed windows, atomic look-up and decrement); the two behaviours actix may have about the inserted cookie header are both covered by the parameter reads_back."
  },
  {
   "property": "C85",
   "status": "proved",
   "theorems": [
    "C85_below_one",
    "C85_above_one"
   ],
   "note": "The formula itself is compared with nothing: that Lanczos' formula approximates the gamma function is mathematics outside the code. Uses the axioms of Coq's real numbers."
  },
  {
   "property": "C86",
   "status": "proved",
   "theorems": [
    "C86_below_one",
    "C86_above_one",
    "C86_small_fractions",
    "C86_tiny_fraction_panics",
    "C86_recurrence_refuted"
   ],
   "note": "The refutation (C86_recurrence_refuted) and the panic are part of the statement. Fractions between 2 / 10^17 and 1/6 above 1 are not covered: the sine's absolute error is not small relative to it there. Uses the axioms of Coq's real numbers."
  },
  {
   "property": "C87",
   "status": "proved",
   "theorems": [
    "C87_text"
   ],
   "note": "The power of doubles is the platform's: C30 says when it is the power of integers."
  },
  {
   "property": "C88",
   "status": "proved",
   "theorems": [
    "C88_server"
   ],
   "note": "Composes C37 and C87."
  },
  {
   "property": "C89",
   "status": "proved",
   "theorems": [
    "C89_kept",
    "C89_integers"
   ],
   "note": ""
  },
  {
   "property": "C90",
   "status": "proved",
   "theorems": [
    "C90_one_word",
    "C90_not_a_word",
    "C90_shadows",
    "C90_operator_lost"
   ],
   "note": ""
  },
  {
   "property": "C91",
   "status": "proved",
   "theorems": [
    "C91_text",
    "C91_factorial_text"
   ],
   "note": "Factorials of fractions, mod and quotients the type cannot write down are left open by the reference interpreter (it answers None); C85, C86 treat factorials of fractions."
  },
  {
   "property": "C92",
   "status": "proved",
   "theorems": [
    "C92_text",
    "C92_unreadable",
    "C92_one_number",
    "C92_arithmetic",
    "C92_reader"
   ],
   "note": "num-complex's FromStr is an assumption of C92_arithmetic (reads_complex), shown satisfiable by C92_reader. mod in complex texts is in C57 for trees, not in C92_arithmetic."
  },
  {
   "property": "C93",
   "status": "proved",
   "theorems": [
    "C93_tokens",
    "C93_text",
    "C93_single_operand",
    "C93_invariants"
   ],
   "note": ""
  },
  {
   "property": "C94",
   "status": "proved",
   "theorems": [
    "C94_builders",
    "C94_checked",
    "C94_unchecked",
    "C94_binary",
    "C94_decimal",
    "C94_complex",
    "C94_grouping",
    "C94_complex_number",
    "C94_implicit_mul",
    "C94_custom_function_call",
    "C94_custom_off"
   ],
   "note": ""
  },
  {
   "property": "C95",
   "status": "proved",
   "theorems": [
    "C95_tokens",
    "C95_text",
    "C95_number_types",
    "C95_checked",
    "C95_unchecked",
    "C95_complex",
    "C95_decimal",
    "C95_binary",
    "C95_division",
    "C95_negative",
    "C95_unused"
   ],
   "note": ""
  },
  {
   "property": "C96",
   "status": "proved",
   "theorems": [
    "C96_text",
    "C96_server"
   ],
   "note": ""
  },
  {
   "property": "C97",
   "status": "proved",
   "theorems": [
    "C97_priority",
    "C97_numeric",
    "C97_identifier",
    "C97_default",
    "C97_builder",
    "C97_kept",
    "C97_operators"
   ],
   "note": ""
  },
  {
   "property": "C98",
   "status": "proved",
   "theorems": [
    "C98_requests",
    "C98_rejected",
    "C98_no_value",
    "C98_bytes",
    "C98_wrong_field",
    "C98_given_twice",
    "C98_no_expression",
    "C98_no_object",
    "C98_arrays",
    "C98_order",
    "C98_other_members"
   ],
   "note": ""
  },
  {
   "property": "C99",
   "status": "proved",
   "theorems": [
    "C99_written",
    "C99_unambiguous",
    "C99_response",
    "C99_lists"
   ],
   "note": ""
  }
 ]
}