claim("C02", "proved", ["C02_parse_total"], "Stack depth of the recursive-descent parser is not modelled.")
claim("C20", "proved", ["C20_flatten", "C20_leaves_unique", "C20_flatten_idempotent"], "")
claim("C21", "proved", ["C21_sort_ascending", "C21_sort_order_argument", "C21_sort_panics", "C21_sort_rejects_non_numbers"], "Also: stable, optional 'desc' argument.")
claim("C22", "proved", ["C22_unique", "C22_firsts_members"], "All NaNs count as one number in the model.")
claim("C23", "proved", ["C23_reverse", "C23_reverse_involutive", "C23_contains", "C23_first_last_count"], "")
claim("C24", "proved", ["C24_left", "C24_right", "C24_left_right_default", "C24_substring", "C24_mid", "C24_replace", "C24_reassemble"], "Texts shorter than 2^63 characters; positions must be finite binary64 numbers where stated.")
claim("C25", "proved", ["C25_split", "C25_cut_unique", "C25_join", "C25_join_split", "C25_split_join", "C25_split_join_one_char", "C25_split_join_refuted"], "The naive form of SPLIT-after-JOIN is refuted for overlapping separators.")
claim("C26", "proved", ["C26_substitute", "C26_unique"], "The empty pattern is outside the claim.")
claim("C27", "proved", ["C27_and", "C27_or", "C27_xor", "C27_xor_arity", "C27_not", "C27_if", "C27_ifs", "C27_ifs_arity"], "")
claim("C28", "proved", ["C28_sum", "C28_product", "C28_average", "C28_min", "C28_max"], "Floating-point operations are IEEE 754 binary64 (SpecFloat).")
claim("C30", "proved", ["C30_shared", "C30_shared_custom", "C30_only_outside", "C30_only_inside", "C30_reverse_outside", "C30_reverse_inside", "C30_complete"], "Agreement is up to the wording of errors.")
claim("C07", "proved", ["C07_evaluate_with", "C07_eval", "C07_lambda", "C07_lambda_custom", "C07_variable"], "")
claim("C08", "proved", ["C08_named_parameter", "C08_default_parameter", "C08_reduce", "C08_method", "C08_restored", "C08_sumif_refuted"], "SUMIF does not have the property; a counterexample is proved.")
claim("C09", "proved", ["C09_ternary", "C09_text", "C09_if_strict"], "")
claim("C10", "proved", ["C10_unary", "C10_binary_left", "C10_binary_right", "C10_array", "C10_object", "C10_call", "C10_missing_variable", "C10_sumif_refuted"], "SUMIF masks a failing criterion; proved by a counterexample.")
claim("C15", "proved", ["C15_spread", "C15_spread_custom", "C15_spread_non_array", "C15_text"], "")
claim("C16", "proved", ["C16_index", "C16_index_huge", "C16_index_overflow_refuted", "C16_index_nan", "C16_index_type", "C16_slice", "C16_slice_type"], "'Indexing never panics' is false; the panicking positions are characterised.")
claim("C17", "proved", ["C17_numbers", "C17_texts", "C17_text_order", "C17_text_bytes", "C17_booleans", "C17_others"], "")
claim("C18", "proved", ["C18_sequence", "C18_value", "C18_single", "C18_first_failure", "C18_untouched", "C18_last_assignment"], "")
claim("C19", "proved", ["C19_null", "C19_method", "C19_property", "C19_failure"], "")
claim("C11", "proved", ["C11_filter", "C11_filter_failure", "C11_find_none", "C11_find", "C11_countif", "C11_filter_method", "C11_find_method_none", "C11_find_method", "C11_method_failure"], "")
claim("C12", "proved", ["C12_map", "C12_map_failure", "C12_map_method"], "")
claim("C13", "proved", ["C13_reduce", "C13_reduce_default", "C13_reduce_failure", "C13_reduce_initial_failure", "C13_reduce_method"], "")
claim("C14", "proved", ["C14_sumif_lambda", "C14_avgif", "C14_failure", "C14_criterion", "C14_criterion_sum_array", "C14_picks_unique"], "Sums are floating-point sums from left to right.")
claim("C01", "proved", ["C01_string_literal", "C01_every_text"], "")
claim("C03", "proved", ["C03_printed", "C03_every_tree", "C03_exactly_the_programs", "C03_sentence", "C03_two_operators", "C03_powers", "C03_negated_power"], "Spec_grammar.v is an independent grammar and printer; the parser accepts its sentences and produces no other tree.")
claim("C04", "proved", ["C04_gaps", "C04_leading_equals"], "Sources are related to tokens by the independent relation 'written' of Spec_syntax.v; error messages (which name positions) are not compared.")
claim("C05", "proved", ["C05_trailing_input_ignored", "C05_reads_everything_refuted"], "")
claim("C06", "proved", ["C06_letter_case"], "")
claim("C29", "proved", ["C29_date", "C29_parts", "C29_date_parts", "C29_range", "C29_dateadd_fixed", "C29_datediff_fixed", "C29_diff_of_add", "C29_dateadd_months", "C29_datediff_months", "C29_months_of_add", "C29_month_amount_refuted", "C29_last_day_refuted"], "Month amounts outside i32 wrap and a missing day becomes the 28th; both recorded as refutations of the naive reading.")
claim("C31", "proved", ["C31_type", "C31_fails", "C31_idempotent", "C31_integer_idempotent", "C31_integer_idempotent_refuted", "C31_text_to_float", "C31_text_to_datetime", "C31_text_to_integer", "C31_text_to_integer_zero", "C31_number_to_integer", "C31_fraction_to_integer", "C31_boolean"], "Casting a text to Integer twice can change the number; proved by a counterexample. Everything else is idempotent.")
claim("C35","proved",["C35_has","C35_list","C35_execute","C35_unknown","C35_register","C35_unregister"],
  "Histories of register and unregister calls of any length; names compared after upper-casing.")
claim("C36","proved",["C36_execute","C36_call"],
  "The call fails for every function body, including one that would panic or succeed.")
claim("C37","proved",["C37_precedence","C37_method_lambda","C37_unregistered","C37_reserved_refuted","C37_function_lambda_refuted","C37_unregistered_refuted"],
  "Agreement without registered calls is up to the text of errors. The refutations show each exception in the statement is needed.")
claim("C38", "proved", ['C38_answer', 'C38_fresh', 'C38_executes', 'C38_refuses', 'C38_unknown', 'C38_execute_looks', 'C38_stats_new', 'C38_stats_clear', 'C38_stats_change', 'C38_stats_hit', 'C38_stats_miss', 'C38_stats_unknown', 'C38_hit_rate', 'C38_same_as_registry_refuted'], "the plain reading, that the cache always answers like the registry, is refuted by C38_same_as_registry_refuted")
claim("C39", "proved", ['C39_bounded', 'C39_empty', 'C39_counts', 'C39_counts_quiet', 'C39_stats', 'C39_percentage', 'C39_progress'], "small-step model: one step is one lock, vector or counter access; assumes sequentially consistent counters, no overflow, no poisoning")
claim("C40", "proved", ['C40_get', 'C40_combined', 'C40_base'], "")
claim("C45", "proved", ["C45_number_text_number", "C45_shortest"], "All NaNs are one value in the model.")
claim("C46", "proved", ["C46_whole_to_text"], "")
claim("C47", "proved", ["C47_literal", "C47_operators", "C47_sum", "C47_sum_array"], "The bound is sharp: 9007199254740992 + 1 is shown to lose the 1.")
claim("C48", "proved", ["C48_whole_literal", "C48_decimal_literal", "C48_operators", "C48_operators_exact", "C48_remainder", "C48_negation", "C48_determined", "C48_zero_signs", "C48_exceptional", "C48_covered"], "")
claim("C49", "proved", ["C49_whole_functions", "C49_abs", "C49_round_decimals"], "")
claim("C50", "proved", ['C50_has', 'C50_list', 'C50_len', 'C50_execute', 'C50_refuses', 'C50_unknown', 'C50_register', 'C50_unregister'], "each method makes one access to the concurrent map, taken as atomic")
claim("C51", "proved", ['C51_function', 'C51_converter', 'C51_source', 'C51_handler', 'C51_arity', 'C51_constant_source', 'C51_resolver'], "implementations supplied by the user are functions of their arguments")
claim("C32", "proved", ["C32_round_trip", "C32_any_layout", "C32_pretty", "C32_whole_number", "C32_object_literal"], "Numbers are restricted to those whose printed digits stay below 2^53; beyond that, and beyond 127 levels, counterexamples are proved.")
claim("C33", "proved", ["C33_present", "C33_absent", "C33_unchanged", "C33_dig_found", "C33_dig_missing"], "Dates and currency amounts come back as numbers; shown by an example.")
claim("C34", "proved", ["C34_variables", "C34_not_object"], "")
claim("C41", "proved", ['C41_evaluation_refused', 'C41_administration_refused', 'C41_evaluation_accepted', 'C41_administration_accepted', 'C41_public', 'C41_stranger', 'C41_supplied', 'C41_supplied_once', 'C41_bearer', 'C41_bare', 'C41_both_or_none', 'C41_unspaced', 'C41_empty', 'C41_body_refuted'], 'Unicode facts about lower-casing are a hypothesis (predicate unicode); body lines, the empty token and unsupplied tokens are stated as theorems.')
claim("C42", "proved", ['C42_answer', 'C42_answer_same_functions', 'C42_bounded', 'C42_found', 'C42_retained', 'C42_collision_refuted', 'C42_variables_refuted', 'C42_reload_refuted'], 'Hypotheses: maps are iterated in some order (orders), Unicode facts (unicode), argument-less expressions that cannot be mistaken for a key; each shown necessary or satisfied. Three exceptions are proved as refutations.')
claim("C43", "proved", ['C43_read', 'C43_cut_off', 'C43_announced_too_large', 'C43_sent_too_large', 'C43_limit', 'C43_buffers', 'C43_pipelining_refuted'], 'All ways of cutting the bytes into reads; buffers are reused from earlier requests. Bytes after the announced body are refuted to be harmless.')
claim("C44", "proved", ['C44_distinct', 'C44_range', 'C44_statistics', 'C44_statistics_meanwhile', 'C44_health'], 'Counters are 64-bit; fewer than 2^64 requests.')
claim("C52", "proved", ['C52_job', 'C52_evaluation', 'C52_reading', 'C52_files', 'C52_reload', 'C52_clear', 'C52_not_found', 'C52_short', 'C52_unread', 'C52_options'], '')
claim("C53", "proved", ["C53_one", "C53_query", "C53_body", "C53_refused", "C53_form_refuted", "C53_text_refuted"], "Members given twice are the subject of C86.")
claim("C54", "proved", ['C54_framed'], '')
claim("C55", "proved", ["C55_exactly", "C55_none", "C42_answer"], "")
claim("C56", "proved", ["C56_upload", "C56_update", "C56_update_missing", "C56_refused", "C56_contents_refuted", "C56_boundary_refuted"], "JavaScript execution is an oracle; forms are those whose names have no quotes, colons, semicolons and line breaks.")
claim("C57", "proved", ["C57_read", "C57_rejected", "C57_quote_refuted"], "")
claim("C58", "proved", ["C58_list", "C58_delete", "C58_delete_missing", "C58_reload", "C58_reload_fails", "C58_usable", "C58_outside_refuted", "C58_deleted_refuted", "C58_blocked_refuted", "C58_nameless_refuted"], "The order in which a directory is read and failures of file operations are parameters of the host; JavaScript execution is an oracle.")
claim("C59", "proved", ["C59_located", "C59_located_variables", "C59_located_plain", "C59_located_json", "C59_located_json_plain", "C59_located_assignments", "C59_harmless", "C59_no_crash_refuted"], "That evaluation never crashes is refuted. A part that 'can' be given a value is one that has it for some variables, not only for the given ones. Exhausting the stack or the memory is not modelled.")
claim("C60", "proved", ["C60_loads", "C60_unreadable", "C60_call", "C60_statements", "C60_everywhere_refuted", "C60_blocked_refuted"], "The warnings about single files that cannot be read, and JavaScript execution (an oracle), are outside the model. sk_server and sk_http_server load the same way; their theorems hold for every set of functions.")
claim("C61", "proved", ["C61_doubles", "C61_doubles_variables", "C61_doubles_json", "C61_doubles_json_plain", "C61_doubles_assignments", "C61_text"], "powf, sin, cos, tan, the JSONPath engine and the order of arrays with NaN are oracles, assumed to give doubles for doubles (platform_doubles, shown to be met).")
claim("C62", "proved", ["C62_nothing", "C62_odd", "C62_even", "C62_nan_panics"], "")
claim("C63", "proved", ["C63_mode", "C63_dotted_names_refuted"], "The documented dotted names cannot be parsed; proved as a refutation.")
claim("C64", "proved", ["C64_percentile", "C64_ends", "C64_nothing", "C64_nan_panics", "C64_quartile", "C64_quartile_rejects", "C64_between_refuted", "C64_range_refuted"], "Up to 2^53 figures.")
claim("C65", "proved", ["C65_variance", "C65_deviation", "C65_whole", "C65_constant_refuted"], "")
claim("C66", "proved", ["C66_sqrt", "C66_square"], "")
claim("C67", "proved", ["C67_predicate", "C67_even", "C67_odd", "C67_parity_of_others", "C67_unknown", "C67_large_numbers_refuted", "C67_currency_refuted"], "Two exceptions are proved as refutations.")
claim("C68", "proved", ["C68_to_s", "C68_to_f", "C68_number_exists", "C68_to_i", "C68_to_a", "C68_to_bool", "C68_to_json", "C68_to_json_infinite", "C68_null_to_json_refuted"], "")
claim("C69", "proved", ["C69_length", "C69_letter_case", "C69_same_as_functions", "C69_trim", "C69_reverse", "C69_contains", "C69_starts_with", "C69_ends_with", "C69_split", "C69_split_characters", "C69_replace", "C69_substring_from", "C69_substring", "C69_length_differs_refuted"], "Letter case is stated for ASCII; beyond it, case mapping is an oracle.")
claim("C70", "proved", ["C70_length", "C70_first", "C70_last", "C70_reverse", "C70_unique", "C70_sort", "C70_sort_order", "C70_sort_rejects", "C70_sum", "C70_average", "C70_min", "C70_max", "C70_extreme_of_nothing", "C70_figures_only", "C70_join", "C70_contains", "C70_flatten", "C70_compact", "C70_first_differs_refuted"], "filter, map, find and reduce are in C11-C14.")
claim("C71", "proved", ["C71_whole", "C71_not_finite", "C71_abs", "C71_sqrt", "C71_between", "C71_between_arguments", "C71_functions_differ_refuted"], "sin, cos and tan are oracles.")
claim("C72", "proved", ["C72_keys", "C72_values", "C72_has_key", "C72_dig", "C72_dig_missing", "C72_objects_only"], "")
claim("C73", "proved", ["C73_unknown", "C73_missing_arguments", "C73_custom_functions_refuted"], "")
claim("C74", "proved", ["C74_concat", "C74_concat_number", "C74_length", "C74_letter_case", "C74_trim", "C74_white_space", "C74_text_only", "C74_includes", "C74_isblank", "C74_isnumber", "C74_istext"], "Letter case is stated for ASCII; beyond it, case mapping is an oracle.")
claim("C75", "proved", ["C75_between", "C75_power"], "powf is an oracle.")
claim("C76", "proved", ["C76_matches", "C76_fails", "C76_arguments"], "The JSONPath engine is an oracle: any answer.")
claim("C77", "proved", ["C77_payment", "C77_future_value", "C77_without_interest", "C77_interest", "C77_later_interest_refuted", "C77_depreciation", "C77_period_zero_refuted", "C77_argument_count", "C77_numbers_only"], "powf is an oracle, so rates other than 0 are stated as formulas in doubles. IPMT beyond the first period and DB period 0 are proved as refutations.")
claim("C78", "proved", ["C78_variables", "C78_json", "C78_json_statements", "C78_bad_json", "C78_rejected", "C78_streams", "C78_description_read", "C78_one_value", "C78_crash_refuted", "C78_nested_refuted"], "That no argument crashes the command, and that arrays nest, are refuted. Unicode's lower-case table is assumed to map no other character to these words (hypothesis unicode, shown to be met).")

claim("C79", "proved", ["C79_received", "C79_not_text", "C79_answers", "C79_one_line", "C79_distinct", "C79_increasing", "C79_served", "C79_complete", "C79_token", "C79_crash_refuted"], "That every line is answered is refuted for lines whose evaluation crashes. Fewer than 2^64 events are assumed, since the counter wraps.")
claim("C80", "proved", ["C80_request", "C80_result", "C80_refused", "C80_one_value", "C80_same_as_sk_refuted"], "The connection is a function from the line sent to the line answered, characterised by the server's own specification (served_by, shown to be met). Variables and results whose numbers JSON cannot carry (infinities) or nested deeper than 126 are excluded by hypothesis. Errors of the network are not modelled beyond a line that cannot be read; the benchmark mode is C84.")
claim("C81", "proved", ["C81_lines", "C81_lines_declined", "C81_http", "C81_http_declined", "C81_one_value", "C81_zero_threads_refuted"], "Daemonizing and binding the address are taken to succeed; the log file is read and ignored by both programs.")
claim("C82", "proved", ["C82_detached", "C82_fails", "C82_foreground", "C82_open_lowest", "C82_status_refuted", "C82_input_refuted"], "The operating system is modelled as far as the code uses it: processes with a session and descriptors, files by name. New process numbers are assumed fresh.")
claim("C83", "proved", ["C83_bounded", "C83_in_order", "C83_graceful", "C83_late", "C83_stops", "C83_not_stuck", "C83_http_refuted", "C83_held_up_refuted"], "The thread pool is the documented behaviour of the threadpool crate: a queue, first in first out, and a fixed number of threads that survive panics of jobs.")
claim("C84", "proved", ["C84_asks", "C84_counts", "C84_times", "C84_server_times", "C84_no_answers", "C84_never_crashes", "C84_status_refuted"], "Times are whole numbers of milliseconds below 2^53, as the program measures them; the layout of the report, the throughput and the improvement factor are not modelled. The mean of the server's times is not characterised beyond the case without any.")
claim("C85", "proved", ["C85_starts", "C85_unhealthy", "C85_declined", "C85_health", "C85_plan", "C85_query", "C85_json", "C85_query_refuted", "C85_shares", "C85_counts", "C85_goes_on", "C85_ends", "C85_figures", "C85_success", "C85_outcome", "C85_warmup_refuted", "C85_connections_refuted", "C85_first_requests_refuted"], "Hosts without '{' and line breaks. Times are natural numbers of nanoseconds whose sum fits a Duration; the average is rounded down to a nanosecond. Throughput, pauses and printing are not modelled. C85_outcome is about a server without a token, as the program sends none.")
claim("C86", "proved", ["C86_only_json", "C86_line_json", "C86_line", "C86_post", "C86_line_twice", "C86_post_twice", "C86_fields", "C86_twice", "C86_read"], "Names of members may be spelled in any way; values of known fields nest at most 126 deep. Which texts are read, and as what, is C87.")
claim("C87", "proved", ["C87_read", "C87_unread", "C87_once", "C87_numbers", "C87_depth"], "The values of numbers with 2^53 or more in digits, or a power of ten beyond 22, are those serde_json computes step by step (modelled, not specified independently); an example shows that such a number may miss the nearest double.")
claim("C88", "proved", ["C88_call", "C88_fails", "C88_unread", "C88_unique", "C88_returned", "C88_unchanged", "C88_types_refuted", "C88_crash", "C88_doubles"], "The engine is an oracle. C88_types_refuted: amounts and dates come back as numbers, JSON values as texts. Getters of arrays and functions that never return are not represented.")
claim("C89", "proved", ["C89_same", "C89_names_refuted", "C89_text_refuted"], "Without the two provisos it is false: of arguments a-b and a_b either value may be :a_b, and the text :arguments has its members in any order.")
claim("C90", "proved", ["C90_variables", "C90_json", "C90_one_description", "C90_array_refuted"], "The first two hold where neither evaluation crashes. C90_array_refuted and C80_same_as_sk_refuted show texts that the two programs read differently.")
claim("C91", "proved", ["C91_variables", "C91_json", "C91_distinct"], "Debug of f64 and str is the model of the Rust standard library in F64Text.v and Json.v; which characters outside ASCII can be seen is part of the platform (Ext).")
claim("C92", "proved", ["C92_split_default", "C92_split_empty", "C92_substitute_empty", "C92_wrong_arguments", "C92_substring_length_refuted"], "C92_substring_length_refuted shows that the third argument of SUBSTRING is not checked.")
claim("C93", "proved", ["C93_cast", "C93_json_refuted"], "Together with C31_fails, which says when a cast fails. C93_json_refuted: a cast of a text to Json need not give JSON.")
claim("C94", "proved", ["C94_join", "C94_join_nested", "C94_arrays_only", "C94_count", "C94_in", "C94_contains_nothing"], "REVERSE of a text fails as a function because the functions on arrays come first.")
claim("C95", "proved", ["C95_filled", "C95_no_number", "C95_round", "C95_round_whole", "C95_wrong_times", "C95_off_calendar", "C95_unknown_unit", "C95_date", "C95_clock", "C95_fraction", "C95_if", "C95_amounts_refuted"], "Amounts count as no number: ABS of an amount is 0. Units are compared after lower-casing; C95_unknown_unit is for ASCII units.")
claim("C96", "proved", ["C96_wrong", "C96_first_fails", "C96_round", "C96_round_negative_refuted", "C96_join", "C96_separator", "C96_order", "C96_not_json"], "C96_round_negative_refuted: with negative digits the method rounds to tens and hundreds, the function does not.")
claim("C97", "proved", ["C97_counts", "C97_server", "C97_requests", "C97_page", "C97_forgets", "C97_evictions_refuted"], "With C42_retained, C97_forgets says which result is forgotten. The counters are unbounded in the model (64-bit in the code).")
claim("C98", "proved", ["C98_has", "C98_unknown", "C98_count", "C98_special_refuted", "C98_numbers"], "Names with a dot count as names although no expression can be written with them (C63).")
