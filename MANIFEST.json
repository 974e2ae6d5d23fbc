{
 "claims": [
  {
   "property": "C01",
   "status": "proved",
   "theorems": [
    "C01_string_literal",
    "C01_every_text"
   ],
   "note": ""
  },
  {
   "property": "C02",
   "status": "proved",
   "theorems": [
    "C02_parse_total"
   ],
   "note": "Stack depth of the recursive-descent parser is not modelled."
  },
  {
   "property": "C03",
   "status": "proved",
   "theorems": [
    "C03_printed",
    "C03_every_tree",
    "C03_exactly_the_programs",
    "C03_sentence",
    "C03_two_operators",
    "C03_powers",
    "C03_negated_power"
   ],
   "note": "Spec_grammar.v is an independent grammar and printer; the parser accepts its sentences and produces no other tree."
  },
  {
   "property": "C04",
   "status": "proved",
   "theorems": [
    "C04_gaps",
    "C04_leading_equals"
   ],
   "note": "Sources are related to tokens by the independent relation 'written' of Spec_syntax.v; error messages (which name positions) are not compared."
  },
  {
   "property": "C05",
   "status": "proved",
   "theorems": [
    "C05_trailing_input_ignored",
    "C05_reads_everything_refuted"
   ],
   "note": ""
  },
  {
   "property": "C06",
   "status": "proved",
   "theorems": [
    "C06_letter_case"
   ],
   "note": ""
  },
  {
   "property": "C07",
   "status": "proved",
   "theorems": [
    "C07_evaluate_with",
    "C07_eval",
    "C07_lambda",
    "C07_lambda_custom",
    "C07_variable"
   ],
   "note": ""
  },
  {
   "property": "C08",
   "status": "proved",
   "theorems": [
    "C08_named_parameter",
    "C08_default_parameter",
    "C08_reduce",
    "C08_method",
    "C08_restored",
    "C08_sumif_refuted"
   ],
   "note": "SUMIF does not have the property; a counterexample is proved."
  },
  {
   "property": "C09",
   "status": "proved",
   "theorems": [
    "C09_ternary",
    "C09_text",
    "C09_if_strict"
   ],
   "note": ""
  },
  {
   "property": "C10",
   "status": "proved",
   "theorems": [
    "C10_unary",
    "C10_binary_left",
    "C10_binary_right",
    "C10_array",
    "C10_object",
    "C10_call",
    "C10_missing_variable",
    "C10_sumif_refuted"
   ],
   "note": "SUMIF masks a failing criterion; proved by a counterexample."
  },
  {
   "property": "C11",
   "status": "proved",
   "theorems": [
    "C11_filter",
    "C11_filter_failure",
    "C11_find_none",
    "C11_find",
    "C11_countif",
    "C11_filter_method",
    "C11_find_method_none",
    "C11_find_method",
    "C11_method_failure"
   ],
   "note": ""
  },
  {
   "property": "C12",
   "status": "proved",
   "theorems": [
    "C12_map",
    "C12_map_failure",
    "C12_map_method"
   ],
   "note": ""
  },
  {
   "property": "C13",
   "status": "proved",
   "theorems": [
    "C13_reduce",
    "C13_reduce_default",
    "C13_reduce_failure",
    "C13_reduce_initial_failure",
    "C13_reduce_method"
   ],
   "note": ""
  },
  {
   "property": "C14",
   "status": "proved",
   "theorems": [
    "C14_sumif_lambda",
    "C14_avgif",
    "C14_failure",
    "C14_criterion",
    "C14_criterion_sum_array",
    "C14_picks_unique"
   ],
   "note": "Sums are floating-point sums from left to right."
  },
  {
   "property": "C15",
   "status": "proved",
   "theorems": [
    "C15_spread",
    "C15_spread_custom",
    "C15_spread_non_array",
    "C15_text"
   ],
   "note": ""
  },
  {
   "property": "C16",
   "status": "proved",
   "theorems": [
    "C16_index",
    "C16_index_huge",
    "C16_index_overflow_refuted",
    "C16_index_nan",
    "C16_index_type",
    "C16_slice",
    "C16_slice_type"
   ],
   "note": "'Indexing never panics' is false; the panicking positions are characterised."
  },
  {
   "property": "C17",
   "status": "proved",
   "theorems": [
    "C17_numbers",
    "C17_texts",
    "C17_text_order",
    "C17_text_bytes",
    "C17_booleans",
    "C17_others"
   ],
   "note": ""
  },
  {
   "property": "C18",
   "status": "proved",
   "theorems": [
    "C18_sequence",
    "C18_value",
    "C18_single",
    "C18_first_failure",
    "C18_untouched",
    "C18_last_assignment"
   ],
   "note": ""
  },
  {
   "property": "C19",
   "status": "proved",
   "theorems": [
    "C19_null",
    "C19_method",
    "C19_property",
    "C19_failure"
   ],
   "note": ""
  },
  {
   "property": "C20",
   "status": "proved",
   "theorems": [
    "C20_flatten",
    "C20_leaves_unique",
    "C20_flatten_idempotent"
   ],
   "note": ""
  },
  {
   "property": "C21",
   "status": "proved",
   "theorems": [
    "C21_sort_ascending",
    "C21_sort_order_argument",
    "C21_sort_panics",
    "C21_sort_rejects_non_numbers"
   ],
   "note": "Also: stable, optional 'desc' argument."
  },
  {
   "property": "C22",
   "status": "proved",
   "theorems": [
    "C22_unique",
    "C22_firsts_members"
   ],
   "note": "All NaNs count as one number in the model."
  },
  {
   "property": "C23",
   "status": "proved",
   "theorems": [
    "C23_reverse",
    "C23_reverse_involutive",
    "C23_contains",
    "C23_first_last_count"
   ],
   "note": ""
  },
  {
   "property": "C24",
   "status": "proved",
   "theorems": [
    "C24_left",
    "C24_right",
    "C24_left_right_default",
    "C24_substring",
    "C24_mid",
    "C24_replace",
    "C24_reassemble"
   ],
   "note": "Texts shorter than 2^63 characters; positions must be finite binary64 numbers where stated."
  },
  {
   "property": "C25",
   "status": "proved",
   "theorems": [
    "C25_split",
    "C25_cut_unique",
    "C25_join",
    "C25_join_split",
    "C25_split_join",
    "C25_split_join_one_char",
    "C25_split_join_refuted"
   ],
   "note": "The naive form of SPLIT-after-JOIN is refuted for overlapping separators."
  },
  {
   "property": "C26",
   "status": "proved",
   "theorems": [
    "C26_substitute",
    "C26_unique"
   ],
   "note": "The empty pattern is outside the claim."
  },
  {
   "property": "C27",
   "status": "proved",
   "theorems": [
    "C27_and",
    "C27_or",
    "C27_xor",
    "C27_xor_arity",
    "C27_not",
    "C27_if",
    "C27_ifs",
    "C27_ifs_arity"
   ],
   "note": ""
  },
  {
   "property": "C28",
   "status": "proved",
   "theorems": [
    "C28_sum",
    "C28_product",
    "C28_average",
    "C28_min",
    "C28_max"
   ],
   "note": "Floating-point operations are IEEE 754 binary64 (SpecFloat)."
  },
  {
   "property": "C29",
   "status": "proved",
   "theorems": [
    "C29_date",
    "C29_parts",
    "C29_date_parts",
    "C29_range",
    "C29_dateadd_fixed",
    "C29_datediff_fixed",
    "C29_diff_of_add",
    "C29_dateadd_months",
    "C29_datediff_months",
    "C29_months_of_add",
    "C29_month_amount_refuted",
    "C29_last_day_refuted"
   ],
   "note": "Month amounts outside i32 wrap and a missing day becomes the 28th; both recorded as refutations of the naive reading."
  },
  {
   "property": "C30",
   "status": "proved",
   "theorems": [
    "C30_shared",
    "C30_shared_custom",
    "C30_only_outside",
    "C30_only_inside",
    "C30_reverse_outside",
    "C30_reverse_inside",
    "C30_complete"
   ],
   "note": "Agreement is up to the wording of errors."
  },
  {
   "property": "C31",
   "status": "proved",
   "theorems": [
    "C31_type",
    "C31_fails",
    "C31_idempotent",
    "C31_integer_idempotent",
    "C31_integer_idempotent_refuted",
    "C31_text_to_float",
    "C31_text_to_datetime",
    "C31_text_to_integer",
    "C31_text_to_integer_zero",
    "C31_number_to_integer",
    "C31_fraction_to_integer",
    "C31_boolean"
   ],
   "note": "Casting a text to Integer twice can change the number; proved by a counterexample. Everything else is idempotent."
  },
  {
   "property": "C32",
   "status": "proved",
   "theorems": [
    "C32_round_trip",
    "C32_any_layout",
    "C32_pretty",
    "C32_whole_number",
    "C32_object_literal"
   ],
   "note": "Numbers are restricted to those whose printed digits stay below 2^53; beyond that, and beyond 127 levels, counterexamples are proved."
  },
  {
   "property": "C33",
   "status": "proved",
   "theorems": [
    "C33_present",
    "C33_absent",
    "C33_unchanged",
    "C33_dig_found",
    "C33_dig_missing"
   ],
   "note": "Dates and currency amounts come back as numbers; shown by an example."
  },
  {
   "property": "C34",
   "status": "proved",
   "theorems": [
    "C34_variables",
    "C34_not_object"
   ],
   "note": ""
  },
  {
   "property": "C35",
   "status": "proved",
   "theorems": [
    "C35_has",
    "C35_list",
    "C35_execute",
    "C35_unknown",
    "C35_register",
    "C35_unregister"
   ],
   "note": "Histories of register and unregister calls of any length; names compared after upper-casing."
  },
  {
   "property": "C36",
   "status": "proved",
   "theorems": [
    "C36_execute",
    "C36_call"
   ],
   "note": "The call fails for every function body, including one that would panic or succeed."
  },
  {
   "property": "C37",
   "status": "proved",
   "theorems": [
    "C37_precedence",
    "C37_method_lambda",
    "C37_unregistered",
    "C37_reserved_refuted",
    "C37_function_lambda_refuted",
    "C37_unregistered_refuted"
   ],
   "note": "Agreement without registered calls is up to the text of errors. The refutations show each exception in the statement is needed."
  },
  {
   "property": "C38",
   "status": "proved",
   "theorems": [
    "C38_answer",
    "C38_fresh",
    "C38_executes",
    "C38_refuses",
    "C38_unknown",
    "C38_execute_looks",
    "C38_stats_new",
    "C38_stats_clear",
    "C38_stats_change",
    "C38_stats_hit",
    "C38_stats_miss",
    "C38_stats_unknown",
    "C38_hit_rate",
    "C38_same_as_registry_refuted"
   ],
   "note": "the plain reading, that the cache always answers like the registry, is refuted by C38_same_as_registry_refuted"
  },
  {
   "property": "C39",
   "status": "proved",
   "theorems": [
    "C39_bounded",
    "C39_empty",
    "C39_counts",
    "C39_counts_quiet",
    "C39_stats",
    "C39_percentage",
    "C39_progress"
   ],
   "note": "small-step model: one step is one lock, vector or counter access; assumes sequentially consistent counters, no overflow, no poisoning"
  },
  {
   "property": "C40",
   "status": "proved",
   "theorems": [
    "C40_get",
    "C40_combined",
    "C40_base"
   ],
   "note": ""
  },
  {
   "property": "C41",
   "status": "proved",
   "theorems": [
    "C41_evaluation_refused",
    "C41_administration_refused",
    "C41_evaluation_accepted",
    "C41_administration_accepted",
    "C41_public",
    "C41_stranger",
    "C41_supplied",
    "C41_supplied_once",
    "C41_bearer",
    "C41_bare",
    "C41_both_or_none",
    "C41_unspaced",
    "C41_empty",
    "C41_body_refuted"
   ],
   "note": "Unicode facts about lower-casing are a hypothesis (predicate unicode); body lines, the empty token and unsupplied tokens are stated as theorems."
  },
  {
   "property": "C42",
   "status": "proved",
   "theorems": [
    "C42_answer",
    "C42_answer_same_functions",
    "C42_bounded",
    "C42_found",
    "C42_retained",
    "C42_collision_refuted",
    "C42_variables_refuted",
    "C42_reload_refuted"
   ],
   "note": "Hypotheses: maps are iterated in some order (orders), Unicode facts (unicode), argument-less expressions that cannot be mistaken for a key; each shown necessary or satisfied. Three exceptions are proved as refutations."
  },
  {
   "property": "C43",
   "status": "proved",
   "theorems": [
    "C43_read",
    "C43_cut_off",
    "C43_announced_too_large",
    "C43_sent_too_large",
    "C43_limit",
    "C43_buffers",
    "C43_pipelining_refuted"
   ],
   "note": "All ways of cutting the bytes into reads; buffers are reused from earlier requests. Bytes after the announced body are refuted to be harmless."
  },
  {
   "property": "C44",
   "status": "proved",
   "theorems": [
    "C44_distinct",
    "C44_range",
    "C44_statistics",
    "C44_statistics_meanwhile",
    "C44_health"
   ],
   "note": "Counters are 64-bit; fewer than 2^64 requests."
  },
  {
   "property": "C45",
   "status": "proved",
   "theorems": [
    "C45_number_text_number",
    "C45_shortest"
   ],
   "note": "All NaNs are one value in the model."
  },
  {
   "property": "C46",
   "status": "proved",
   "theorems": [
    "C46_whole_to_text"
   ],
   "note": ""
  },
  {
   "property": "C47",
   "status": "proved",
   "theorems": [
    "C47_literal",
    "C47_operators",
    "C47_sum",
    "C47_sum_array"
   ],
   "note": "The bound is sharp: 9007199254740992 + 1 is shown to lose the 1."
  },
  {
   "property": "C48",
   "status": "proved",
   "theorems": [
    "C48_whole_literal",
    "C48_decimal_literal",
    "C48_operators",
    "C48_operators_exact",
    "C48_remainder",
    "C48_negation",
    "C48_determined",
    "C48_zero_signs",
    "C48_exceptional",
    "C48_covered"
   ],
   "note": ""
  },
  {
   "property": "C49",
   "status": "proved",
   "theorems": [
    "C49_whole_functions",
    "C49_abs",
    "C49_round_decimals"
   ],
   "note": ""
  },
  {
   "property": "C50",
   "status": "proved",
   "theorems": [
    "C50_has",
    "C50_list",
    "C50_len",
    "C50_execute",
    "C50_refuses",
    "C50_unknown",
    "C50_register",
    "C50_unregister"
   ],
   "note": "each method makes one access to the concurrent map, taken as atomic"
  },
  {
   "property": "C51",
   "status": "proved",
   "theorems": [
    "C51_function",
    "C51_converter",
    "C51_source",
    "C51_handler",
    "C51_arity",
    "C51_constant_source",
    "C51_resolver"
   ],
   "note": "implementations supplied by the user are functions of their arguments"
  },
  {
   "property": "C52",
   "status": "proved",
   "theorems": [
    "C52_job",
    "C52_evaluation",
    "C52_reading",
    "C52_files",
    "C52_reload",
    "C52_clear",
    "C52_not_found",
    "C52_short",
    "C52_unread",
    "C52_options"
   ],
   "note": ""
  },
  {
   "property": "C53",
   "status": "proved",
   "theorems": [
    "C53_one",
    "C53_query",
    "C53_body",
    "C53_refused",
    "C53_form_refuted",
    "C53_text_refuted"
   ],
   "note": "Members given twice are the subject of C86."
  },
  {
   "property": "C54",
   "status": "proved",
   "theorems": [
    "C54_framed"
   ],
   "note": ""
  },
  {
   "property": "C55",
   "status": "proved",
   "theorems": [
    "C55_exactly",
    "C55_none",
    "C42_answer"
   ],
   "note": ""
  },
  {
   "property": "C56",
   "status": "proved",
   "theorems": [
    "C56_upload",
    "C56_update",
    "C56_update_missing",
    "C56_refused",
    "C56_contents_refuted",
    "C56_boundary_refuted"
   ],
   "note": "JavaScript execution is an oracle; forms are those whose names have no quotes, colons, semicolons and line breaks."
  },
  {
   "property": "C57",
   "status": "proved",
   "theorems": [
    "C57_read",
    "C57_rejected",
    "C57_quote_refuted"
   ],
   "note": ""
  },
  {
   "property": "C58",
   "status": "proved",
   "theorems": [
    "C58_list",
    "C58_delete",
    "C58_delete_missing",
    "C58_reload",
    "C58_reload_fails",
    "C58_usable",
    "C58_outside_refuted",
    "C58_deleted_refuted",
    "C58_blocked_refuted",
    "C58_nameless_refuted"
   ],
   "note": "The order in which a directory is read and failures of file operations are parameters of the host; JavaScript execution is an oracle."
  },
  {
   "property": "C59",
   "status": "proved",
   "theorems": [
    "C59_located",
    "C59_located_variables",
    "C59_located_plain",
    "C59_located_json",
    "C59_located_json_plain",
    "C59_located_assignments",
    "C59_harmless",
    "C59_no_crash_refuted"
   ],
   "note": "That evaluation never crashes is refuted. A part that 'can' be given a value is one that has it for some variables, not only for the given ones. Exhausting the stack or the memory is not modelled."
  },
  {
   "property": "C60",
   "status": "proved",
   "theorems": [
    "C60_loads",
    "C60_unreadable",
    "C60_call",
    "C60_statements",
    "C60_everywhere_refuted",
    "C60_blocked_refuted"
   ],
   "note": "The warnings about single files that cannot be read, and JavaScript execution (an oracle), are outside the model. sk_server and sk_http_server load the same way; their theorems hold for every set of functions."
  },
  {
   "property": "C61",
   "status": "proved",
   "theorems": [
    "C61_doubles",
    "C61_doubles_variables",
    "C61_doubles_json",
    "C61_doubles_json_plain",
    "C61_doubles_assignments",
    "C61_text"
   ],
   "note": "powf, sin, cos, tan, the JSONPath engine and the order of arrays with NaN are oracles, assumed to give doubles for doubles (platform_doubles, shown to be met)."
  },
  {
   "property": "C62",
   "status": "proved",
   "theorems": [
    "C62_nothing",
    "C62_odd",
    "C62_even",
    "C62_nan_panics"
   ],
   "note": ""
  },
  {
   "property": "C63",
   "status": "proved",
   "theorems": [
    "C63_mode",
    "C63_dotted_names_refuted"
   ],
   "note": "The documented dotted names cannot be parsed; proved as a refutation."
  },
  {
   "property": "C64",
   "status": "proved",
   "theorems": [
    "C64_percentile",
    "C64_ends",
    "C64_nothing",
    "C64_nan_panics",
    "C64_quartile",
    "C64_quartile_rejects",
    "C64_between_refuted",
    "C64_range_refuted"
   ],
   "note": "Up to 2^53 figures."
  },
  {
   "property": "C65",
   "status": "proved",
   "theorems": [
    "C65_variance",
    "C65_deviation",
    "C65_whole",
    "C65_constant_refuted"
   ],
   "note": ""
  },
  {
   "property": "C66",
   "status": "proved",
   "theorems": [
    "C66_sqrt",
    "C66_square"
   ],
   "note": ""
  },
  {
   "property": "C67",
   "status": "proved",
   "theorems": [
    "C67_predicate",
    "C67_even",
    "C67_odd",
    "C67_parity_of_others",
    "C67_unknown",
    "C67_large_numbers_refuted",
    "C67_currency_refuted"
   ],
   "note": "Two exceptions are proved as refutations."
  },
  {
   "property": "C68",
   "status": "proved",
   "theorems": [
    "C68_to_s",
    "C68_to_f",
    "C68_number_exists",
    "C68_to_i",
    "C68_to_a",
    "C68_to_bool",
    "C68_to_json",
    "C68_to_json_infinite",
    "C68_null_to_json_refuted"
   ],
   "note": ""
  },
  {
   "property": "C69",
   "status": "proved",
   "theorems": [
    "C69_length",
    "C69_letter_case",
    "C69_same_as_functions",
    "C69_trim",
    "C69_reverse",
    "C69_contains",
    "C69_starts_with",
    "C69_ends_with",
    "C69_split",
    "C69_split_characters",
    "C69_replace",
    "C69_substring_from",
    "C69_substring",
    "C69_length_differs_refuted"
   ],
   "note": "Letter case is stated for ASCII; beyond it, case mapping is an oracle."
  },
  {
   "property": "C70",
   "status": "proved",
   "theorems": [
    "C70_length",
    "C70_first",
    "C70_last",
    "C70_reverse",
    "C70_unique",
    "C70_sort",
    "C70_sort_order",
    "C70_sort_rejects",
    "C70_sum",
    "C70_average",
    "C70_min",
    "C70_max",
    "C70_extreme_of_nothing",
    "C70_figures_only",
    "C70_join",
    "C70_contains",
    "C70_flatten",
    "C70_compact",
    "C70_first_differs_refuted"
   ],
   "note": "filter, map, find and reduce are in C11-C14."
  },
  {
   "property": "C71",
   "status": "proved",
   "theorems": [
    "C71_whole",
    "C71_not_finite",
    "C71_abs",
    "C71_sqrt",
    "C71_between",
    "C71_between_arguments",
    "C71_functions_differ_refuted"
   ],
   "note": "sin, cos and tan are oracles."
  },
  {
   "property": "C72",
   "status": "proved",
   "theorems": [
    "C72_keys",
    "C72_values",
    "C72_has_key",
    "C72_dig",
    "C72_dig_missing",
    "C72_objects_only"
   ],
   "note": ""
  },
  {
   "property": "C73",
   "status": "proved",
   "theorems": [
    "C73_unknown",
    "C73_missing_arguments",
    "C73_custom_functions_refuted"
   ],
   "note": ""
  },
  {
   "property": "C74",
   "status": "proved",
   "theorems": [
    "C74_concat",
    "C74_concat_number",
    "C74_length",
    "C74_letter_case",
    "C74_trim",
    "C74_white_space",
    "C74_text_only",
    "C74_includes",
    "C74_isblank",
    "C74_isnumber",
    "C74_istext"
   ],
   "note": "Letter case is stated for ASCII; beyond it, case mapping is an oracle."
  },
  {
   "property": "C75",
   "status": "proved",
   "theorems": [
    "C75_between",
    "C75_power"
   ],
   "note": "powf is an oracle."
  },
  {
   "property": "C76",
   "status": "proved",
   "theorems": [
    "C76_matches",
    "C76_fails",
    "C76_arguments"
   ],
   "note": "The JSONPath engine is an oracle: any answer."
  },
  {
   "property": "C77",
   "status": "proved",
   "theorems": [
    "C77_payment",
    "C77_future_value",
    "C77_without_interest",
    "C77_interest",
    "C77_later_interest_refuted",
    "C77_depreciation",
    "C77_period_zero_refuted",
    "C77_argument_count",
    "C77_numbers_only"
   ],
   "note": "powf is an oracle, so rates other than 0 are stated as formulas in doubles. IPMT beyond the first period and DB period 0 are proved as refutations."
  },
  {
   "property": "C78",
   "status": "proved",
   "theorems": [
    "C78_variables",
    "C78_json",
    "C78_json_statements",
    "C78_bad_json",
    "C78_rejected",
    "C78_streams",
    "C78_description_read",
    "C78_one_value",
    "C78_crash_refuted",
    "C78_nested_refuted"
   ],
   "note": "That no argument crashes the command, and that arrays nest, are refuted. Unicode's lower-case table is assumed to map no other character to these words (hypothesis unicode, shown to be met)."
  },
  {
   "property": "C79",
   "status": "proved",
   "theorems": [
    "C79_received",
    "C79_not_text",
    "C79_answers",
    "C79_one_line",
    "C79_distinct",
    "C79_increasing",
    "C79_served",
    "C79_complete",
    "C79_token",
    "C79_crash_refuted"
   ],
   "note": "That every line is answered is refuted for lines whose evaluation crashes. Fewer than 2^64 events are assumed, since the counter wraps."
  },
  {
   "property": "C80",
   "status": "proved",
   "theorems": [
    "C80_request",
    "C80_result",
    "C80_refused",
    "C80_one_value",
    "C80_same_as_sk_refuted"
   ],
   "note": "The connection is a function from the line sent to the line answered, characterised by the server's own specification (served_by, shown to be met). Variables and results whose numbers JSON cannot carry (infinities) or nested deeper than 126 are excluded by hypothesis. Errors of the network are not modelled beyond a line that cannot be read; the benchmark mode is C84."
  },
  {
   "property": "C81",
   "status": "proved",
   "theorems": [
    "C81_lines",
    "C81_lines_declined",
    "C81_http",
    "C81_http_declined",
    "C81_one_value",
    "C81_zero_threads_refuted"
   ],
   "note": "Daemonizing and binding the address are taken to succeed; the log file is read and ignored by both programs."
  },
  {
   "property": "C82",
   "status": "proved",
   "theorems": [
    "C82_detached",
    "C82_fails",
    "C82_foreground",
    "C82_open_lowest",
    "C82_status_refuted",
    "C82_input_refuted"
   ],
   "note": "The operating system is modelled as far as the code uses it: processes with a session and descriptors, files by name. New process numbers are assumed fresh."
  },
  {
   "property": "C83",
   "status": "proved",
   "theorems": [
    "C83_bounded",
    "C83_in_order",
    "C83_graceful",
    "C83_late",
    "C83_stops",
    "C83_not_stuck",
    "C83_http_refuted",
    "C83_held_up_refuted"
   ],
   "note": "The thread pool is the documented behaviour of the threadpool crate: a queue, first in first out, and a fixed number of threads that survive panics of jobs."
  },
  {
   "property": "C84",
   "status": "proved",
   "theorems": [
    "C84_asks",
    "C84_counts",
    "C84_times",
    "C84_server_times",
    "C84_no_answers",
    "C84_never_crashes",
    "C84_status_refuted"
   ],
   "note": "Times are whole numbers of milliseconds below 2^53, as the program measures them; the layout of the report, the throughput and the improvement factor are not modelled. The mean of the server's times is not characterised beyond the case without any."
  },
  {
   "property": "C85",
   "status": "proved",
   "theorems": [
    "C85_starts",
    "C85_unhealthy",
    "C85_declined",
    "C85_health",
    "C85_plan",
    "C85_query",
    "C85_json",
    "C85_query_refuted",
    "C85_shares",
    "C85_counts",
    "C85_goes_on",
    "C85_ends",
    "C85_figures",
    "C85_success",
    "C85_outcome",
    "C85_warmup_refuted",
    "C85_connections_refuted",
    "C85_first_requests_refuted"
   ],
   "note": "Hosts without '{' and line breaks. Times are natural numbers of nanoseconds whose sum fits a Duration; the average is rounded down to a nanosecond. Throughput, pauses and printing are not modelled. C85_outcome is about a server without a token, as the program sends none."
  },
  {
   "property": "C86",
   "status": "proved",
   "theorems": [
    "C86_only_json",
    "C86_line_json",
    "C86_line",
    "C86_post",
    "C86_line_twice",
    "C86_post_twice",
    "C86_fields",
    "C86_twice",
    "C86_read"
   ],
   "note": "Names of members may be spelled in any way; values of known fields nest at most 126 deep. Which texts are read, and as what, is C87."
  },
  {
   "property": "C87",
   "status": "proved",
   "theorems": [
    "C87_read",
    "C87_unread",
    "C87_once",
    "C87_numbers",
    "C87_depth"
   ],
   "note": "The values of numbers with 2^53 or more in digits, or a power of ten beyond 22, are those serde_json computes step by step (modelled, not specified independently); an example shows that such a number may miss the nearest double."
  },
  {
   "property": "C88",
   "status": "proved",
   "theorems": [
    "C88_call",
    "C88_fails",
    "C88_unread",
    "C88_unique",
    "C88_returned",
    "C88_unchanged",
    "C88_types_refuted",
    "C88_crash",
    "C88_doubles"
   ],
   "note": "The engine is an oracle. C88_types_refuted: amounts and dates come back as numbers, JSON values as texts. Getters of arrays and functions that never return are not represented."
  },
  {
   "property": "C89",
   "status": "proved",
   "theorems": [
    "C89_same",
    "C89_names_refuted",
    "C89_text_refuted"
   ],
   "note": "Without the two provisos it is false: of arguments a-b and a_b either value may be :a_b, and the text :arguments has its members in any order."
  },
  {
   "property": "C90",
   "status": "proved",
   "theorems": [
    "C90_variables",
    "C90_json",
    "C90_one_description",
    "C90_array_refuted"
   ],
   "note": "The first two hold where neither evaluation crashes. C90_array_refuted and C80_same_as_sk_refuted show texts that the two programs read differently."
  },
  {
   "property": "C91",
   "status": "proved",
   "theorems": [
    "C91_variables",
    "C91_json",
    "C91_distinct"
   ],
   "note": "Debug of f64 and str is the model of the Rust standard library in F64Text.v and Json.v; which characters outside ASCII can be seen is part of the platform (Ext)."
  },
  {
   "property": "C92",
   "status": "proved",
   "theorems": [
    "C92_split_default",
    "C92_split_empty",
    "C92_substitute_empty",
    "C92_wrong_arguments",
    "C92_substring_length_refuted"
   ],
   "note": "C92_substring_length_refuted shows that the third argument of SUBSTRING is not checked."
  },
  {
   "property": "C93",
   "status": "proved",
   "theorems": [
    "C93_cast",
    "C93_json_refuted"
   ],
   "note": "Together with C31_fails, which says when a cast fails. C93_json_refuted: a cast of a text to Json need not give JSON."
  },
  {
   "property": "C94",
   "status": "proved",
   "theorems": [
    "C94_join",
    "C94_join_nested",
    "C94_arrays_only",
    "C94_count",
    "C94_in",
    "C94_contains_nothing"
   ],
   "note": "REVERSE of a text fails as a function because the functions on arrays come first."
  },
  {
   "property": "C95",
   "status": "proved",
   "theorems": [
    "C95_filled",
    "C95_no_number",
    "C95_round",
    "C95_round_whole",
    "C95_wrong_times",
    "C95_off_calendar",
    "C95_unknown_unit",
    "C95_date",
    "C95_clock",
    "C95_fraction",
    "C95_if",
    "C95_amounts_refuted"
   ],
   "note": "Amounts count as no number: ABS of an amount is 0. Units are compared after lower-casing; C95_unknown_unit is for ASCII units."
  },
  {
   "property": "C96",
   "status": "proved",
   "theorems": [
    "C96_wrong",
    "C96_first_fails",
    "C96_round",
    "C96_round_negative_refuted",
    "C96_join",
    "C96_separator",
    "C96_order",
    "C96_not_json"
   ],
   "note": "C96_round_negative_refuted: with negative digits the method rounds to tens and hundreds, the function does not."
  },
  {
   "property": "C97",
   "status": "proved",
   "theorems": [
    "C97_counts",
    "C97_server",
    "C97_requests",
    "C97_page",
    "C97_forgets",
    "C97_evictions_refuted"
   ],
   "note": "With C42_retained, C97_forgets says which result is forgotten. The counters are unbounded in the model (64-bit in the code)."
  },
  {
   "property": "C98",
   "status": "proved",
   "theorems": [
    "C98_has",
    "C98_unknown",
    "C98_count",
    "C98_special_refuted",
    "C98_numbers"
   ],
   "note": "Names with a dot count as names although no expression can be written with them (C63)."
  }
 ]
}