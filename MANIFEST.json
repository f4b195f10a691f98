{
 "claims": [
  {
   "property": "C01",
   "status": "proved",
   "theorems": [
    "C01_history_independent",
    "C01_history_independent_no_arguments",
    "C01_question_mark_refuted"
   ],
   "note": ""
  },
  {
   "property": "C02",
   "status": "proved",
   "theorems": [
    "C02_parse_is_safe",
    "C02_parse_is_safe_no_arguments",
    "C02_negative_maxcount_refuted"
   ],
   "note": "maximum counts >= 0 (C02_negative_maxcount_refuted shows the need); integer texts of C18 excluded; strtod and the regular expression matcher enter with their contracts"
  },
  {
   "property": "C03",
   "status": "proved",
   "theorems": [
    "C03_zero_means_constraints_met",
    "C03_zero_means_constraints_met_no_arguments"
   ],
   "note": ""
  },
  {
   "property": "C04",
   "status": "proved",
   "theorems": [
    "C04_error_list",
    "C04_register_sequence",
    "C04_capacity_zero_refuted"
   ],
   "note": ""
  },
  {
   "property": "C05",
   "status": "proved",
   "theorems": [
    "C05_argv_unchanged_nothing_leaked",
    "C05_argv_unchanged_no_arguments"
   ],
   "note": ""
  },
  {
   "property": "C06",
   "status": "proved",
   "theorems": [
    "C06_positionals_in_order",
    "C06_nothing_lost"
   ],
   "note": ""
  },
  {
   "property": "C07",
   "status": "proved",
   "theorems": [
    "C07_after_double_dash"
   ],
   "note": ""
  },
  {
   "property": "C08",
   "status": "proved",
   "theorems": [
    "C08_one_pass",
    "C08_interleaving",
    "C08_positionals_last",
    "C08_posix_stops"
   ],
   "note": ""
  },
  {
   "property": "C09",
   "status": "proved",
   "theorems": [
    "C09_long_option_selected",
    "C09_long_option_rejected"
   ],
   "note": ""
  },
  {
   "property": "C10",
   "status": "proved",
   "theorems": [
    "C10_cluster",
    "C10_attached_value"
   ],
   "note": ""
  },
  {
   "property": "C11",
   "status": "proved",
   "theorems": [
    "C11_equals_sign"
   ],
   "note": ""
  },
  {
   "property": "C12",
   "status": "proved",
   "theorems": [
    "C12_library_kinds_terminate",
    "C12_terminates",
    "C12_never_returns"
   ],
   "note": ""
  },
  {
   "property": "C13",
   "status": "proved",
   "theorems": [
    "C13_block_exchange",
    "C13_empty_second_block_refuted"
   ],
   "note": ""
  },
  {
   "property": "C14",
   "status": "proved",
   "theorems": [
    "C14_bad_option_reported"
   ],
   "note": ""
  },
  {
   "property": "C15",
   "status": "proved",
   "theorems": [
    "C15_long_options_in_bounds",
    "C15_short_options_in_bounds",
    "C15_leading_comma_refuted",
    "C15_empty_longopts_refuted"
   ],
   "note": ""
  },
  {
   "property": "C16",
   "status": "proved",
   "theorems": [
    "C16_bare_occurrence",
    "C16_long_without_value",
    "C16_short_without_value",
    "C16_defaults_kept",
    "C16_flag_without_value_refuted"
   ],
   "note": "the flag for an optional value together with the one for a value; alone it makes the short option require a value (C16_flag_without_value_refuted)"
  },
  {
   "property": "C17",
   "status": "proved",
   "theorems": [
    "C17_int_accepts",
    "C17_int_overflow",
    "C17_int_bad_syntax",
    "C17_int_accepted_only_literals",
    "C17_int_long32_refuted"
   ],
   "note": "LP64. With a 32-bit long the claim is false (C17_int_long32_refuted)."
  },
  {
   "property": "C18",
   "status": "proved",
   "theorems": [
    "C18_int_undefined_iff"
   ],
   "note": "exact characterisation of the undefined inputs, both widths of long"
  },
  {
   "property": "C19",
   "status": "proved",
   "theorems": [
    "C19_int_roundtrip"
   ],
   "note": ""
  },
  {
   "property": "C20",
   "status": "proved",
   "theorems": [
    "C20_file_scan",
    "C20_unix",
    "C20_windows",
    "C20_windows_refuted"
   ],
   "note": ""
  },
  {
   "property": "C21",
   "status": "proved",
   "theorems": [
    "C21_date_scan",
    "C21_date_fields",
    "C21_date_unique"
   ],
   "note": ""
  },
  {
   "property": "C22",
   "status": "proved",
   "theorems": [
    "C22_roundtrip_iso",
    "C22_roundtrip_T",
    "C22_roundtrip_two_digit_year",
    "C22_roundtrip_12_hours"
   ],
   "note": ""
  },
  {
   "property": "C23",
   "status": "proved",
   "theorems": [
    "C23_century_off_by_1900",
    "C23_century_refuted"
   ],
   "note": ""
  },
  {
   "property": "C24",
   "status": "proved",
   "theorems": [
    "C24_sound",
    "C24_sound_boundaries",
    "C24_syntax",
    "C24_boundaries_early",
    "C24_boundaries_at_ends",
    "C24_boundary_refuted",
    "C24_icase_range_refuted",
    "C24_count_refuted"
   ],
   "note": "Soundness for every way to spell every expression of the grammar in RexSpec, and every text. The exclusions are necessary: C24_boundary_refuted, C24_icase_range_refuted, C24_count_refuted. C24_sound_boundaries includes word boundaries, for the boundaries that the program sees; C24_boundaries_early and C24_boundaries_at_ends compare these with the real ones. Patterns of up to 2^30 characters."
  },
  {
   "property": "C25",
   "status": "proved",
   "theorems": [
    "C25_words",
    "C25_literal",
    "C25_prefix_refuted"
   ],
   "note": "Patterns and words are given as texts. The condition on beginnings is necessary: C25_prefix_refuted."
  },
  {
   "property": "C26",
   "status": "proved",
   "theorems": [
    "C26_compile",
    "C26_compiles",
    "C26_ends",
    "C26_inside",
    "C26_verdict",
    "C26_empty_refuted",
    "C26_backslash_refuted",
    "C26_syntax_refuted",
    "C26_range_refuted",
    "C26_count_refuted",
    "C26_dot_refuted"
   ],
   "note": "Accesses to nodes, pattern and text have distinct faults in the model; C26_ends allows only OutsideText (and the NULL dereference after a failed compilation, and int overflow of counts). The conditions are necessary: C26_empty_refuted, C26_backslash_refuted, C26_syntax_refuted, C26_range_refuted, C26_count_refuted, C26_dot_refuted."
  },
  {
   "property": "C27",
   "status": "proved",
   "theorems": [
    "C27_placement",
    "C27_scan",
    "C27_empty",
    "C27_intmax_refuted"
   ],
   "note": "strtod enters with its contract; a maximum count of INT_MAX overflows (C27_intmax_refuted)"
  },
  {
   "property": "C28",
   "status": "proved",
   "theorems": [
    "C28_text",
    "C28_set_part_of_text",
    "C28_set_part_of_text_refuted",
    "C28_shortened_by_client_refuted",
    "C28_set_part_of_fixed_text"
   ],
   "note": ""
  },
  {
   "property": "C29",
   "status": "proved",
   "theorems": [
    "C29_nothing_leaked",
    "C29_released_once",
    "C29_self_append_refuted",
    "C29_use_after_free_refuted"
   ],
   "note": ""
  },
  {
   "property": "C30",
   "status": "proved",
   "theorems": [
    "C30_formatted_append"
   ],
   "note": ""
  },
  {
   "property": "C31",
   "status": "proved",
   "theorems": [
    "C31_registry_is_a_map",
    "C31_register_own_text_refuted",
    "C31_table_is_a_map",
    "C31_duplicate_keys_refuted"
   ],
   "note": "registry and generic table (every key type, hash and equality function meeting their contract). Names/descriptions fit the arrays; registering a command with a pointer into its own information block is a use after free (C31_register_own_text_refuted); with duplicate keys inserted directly the last insertion may lose (C31_duplicate_keys_refuted)"
  },
  {
   "property": "C32",
   "status": "proved",
   "theorems": [
    "C32_count"
   ],
   "note": ""
  },
  {
   "property": "C33",
   "status": "proved",
   "theorems": [
    "C33_registry_iteration",
    "C33_iterator_search",
    "C33_iteration_shows_all"
   ],
   "note": "the iterator's own memory block is not modelled"
  },
  {
   "property": "C34",
   "status": "proved",
   "theorems": [
    "C34_remove_while_iterating"
   ],
   "note": ""
  },
  {
   "property": "C35",
   "status": "proved",
   "theorems": [
    "C35_registry_released",
    "C35_use_after_uninit_refuted",
    "C35_init_twice_leaks_refuted",
    "C35_released_once"
   ],
   "note": "single table; after arg_cmd_uninit the registry dangles and two arg_cmd_init leak (refutations)"
  },
  {
   "property": "C36",
   "status": "proved",
   "theorems": [
    "C36_expansion"
   ],
   "note": "counters are unbounded integers (fewer than 2^32 entries); (float)0.65 is the rational 5452595/2^23"
  },
  {
   "property": "C37",
   "status": "proved",
   "theorems": [
    "C37_mgsort_sorts",
    "C37_mgsort_bytes",
    "C37_more_bytes_refuted"
   ],
   "note": ""
  },
  {
   "property": "C38",
   "status": "proved",
   "theorems": [
    "C38_mgsort_stable_refuted"
   ],
   "note": "the property as stated is false; C38_mgsort_stable_refuted gives the witness"
  },
  {
   "property": "C39",
   "status": "proved",
   "theorems": [
    "C39_verbose",
    "C39_brief",
    "C39_print_option",
    "C39_last_character_refuted"
   ],
   "note": ""
  },
  {
   "property": "C40",
   "status": "proved",
   "theorems": [
    "C40_syntaxv",
    "C40_syntax"
   ],
   "note": ""
  },
  {
   "property": "C41",
   "status": "proved",
   "theorems": [
    "C41_layout",
    "C41_layout_margins",
    "C41_layout_unique",
    "C41_no_word_lost",
    "C41_never_returns",
    "C41_terminates_refuted"
   ],
   "note": ""
  },
  {
   "property": "C42",
   "status": "proved",
   "theorems": [
    "C42_indentation",
    "C42_without_newlines",
    "C42_indented_refuted",
    "C42_newlines_kept_refuted"
   ],
   "note": ""
  },
  {
   "property": "C43",
   "status": "proved",
   "theorems": [
    "C43_messages",
    "C43_message_form",
    "C43_after_parse",
    "C43_after_parse_no_arguments",
    "C43_null_progname_refuted",
    "C43_one_line_refuted",
    "C43_date_sample_refuted",
    "C43_control_character_refuted"
   ],
   "note": "program name not NULL (C43_null_progname_refuted: undefined for errors of entries). Some messages contain an extra line end (C43_one_line_refuted); the sample in a date error is always that of an all-zero date (C43_date_sample_refuted); an unknown option with a character code 1 to 5 is reported as another kind of error (C43_control_character_refuted)"
  },
  {
   "property": "C44",
   "status": "proved",
   "theorems": [
    "C44_nullcheck",
    "C44_null_table"
   ],
   "note": ""
  },
  {
   "property": "C45",
   "status": "proved",
   "theorems": [
    "C45_freetable",
    "C45_freetable_twice",
    "C45_free",
    "C45_free_leaks_refuted",
    "C45_shared_entry_refuted"
   ],
   "note": "distinct entries; an entry in two places is freed twice (C45_shared_entry_refuted); arg_free leaks entries behind a NULL (C45_free_leaks_refuted)"
  },
  {
   "property": "C46",
   "status": "proved",
   "theorems": [
    "C46_precedence",
    "C46_after_parse"
   ],
   "note": ""
  },
  {
   "property": "C47",
   "status": "proved",
   "theorems": [
    "C47_dispatch"
   ],
   "note": ""
  },
  {
   "property": "C48",
   "status": "proved",
   "theorems": [
    "C48_constructors",
    "C48_zero_or_one",
    "C48_described",
    "C48_default_date_format"
   ],
   "note": ""
  },
  {
   "property": "C49",
   "status": "proved",
   "theorems": [
    "C49_short_option_dispatched"
   ],
   "note": ""
  },
  {
   "property": "C50",
   "status": "proved",
   "theorems": [
    "C50_values_in_order"
   ],
   "note": ""
  },
  {
   "property": "C51",
   "status": "proved",
   "theorems": [
    "C51_parse_again",
    "C51_ampm_refuted",
    "C51_default_refuted"
   ],
   "note": ""
  },
  {
   "property": "C52",
   "status": "proved",
   "theorems": [
    "C52_scan_gets_value_iff_declared"
   ],
   "note": ""
  },
  {
   "property": "C53",
   "status": "proved",
   "theorems": [
    "C53_glossary",
    "C53_null_entry_refuted"
   ],
   "note": ""
  },
  {
   "property": "C54",
   "status": "proved",
   "theorems": [
    "C54_glossary_gnu"
   ],
   "note": ""
  },
  {
   "property": "C55",
   "status": "proved",
   "theorems": [
    "C55_get_help",
    "C55_help",
    "C55_errors",
    "C55_not_initialised_refuted",
    "C55_no_command_refuted"
   ],
   "note": "registry initialised and a command given (two refutations); texts as set by the name and version functions of C56"
  },
  {
   "property": "C56",
   "status": "proved",
   "theorems": [
    "C56_name_and_version"
   ],
   "note": ""
  },
  {
   "property": "C57",
   "status": "proved",
   "theorems": [
    "C57_int",
    "C57_str",
    "C57_file",
    "C57_date",
    "C57_rex",
    "C57_end",
    "C57_end_odd_refuted",
    "C57_wrap_refuted",
    "C57_negative_refuted"
   ],
   "note": "struct layout computed from the member lists for 4 and 8 byte pointers; maximum counts >= 0 and sizes within size_t (C57_negative_refuted, C57_wrap_refuted); odd counts misalign the pointers of arg_end on 64-bit machines (C57_end_odd_refuted)"
  },
  {
   "property": "C58",
   "status": "proved",
   "theorems": [
    "C58_exact",
    "C58_exact_boundaries",
    "C58_greedy_refuted",
    "C58_empty_group_refuted"
   ],
   "note": "Orderliness is a condition on languages (RexSpec), not on the code. C58_ex shows it for a pattern and all texts; C25 is a consequence. C58_exact_boundaries includes word boundaries as the program sees them."
  },
  {
   "property": "C59",
   "status": "proved",
   "theorems": [
    "C59_accepted_iff",
    "C59_accepted_values",
    "C59_read_one_way",
    "C59_shared_one_way"
   ],
   "note": "For 64 bit long and values other than the texts of C18 (where the conversion overflows). Command lines with a cluster that ends in a dash never return (C12); they have no reading either. The regular expression matcher is a parameter that must give an answer (C26)."
  },
  {
   "property": "C60",
   "status": "proved",
   "theorems": [
    "C60_new_tables_reached",
    "C60_parse_is_safe",
    "C60_values_in_language",
    "C60_acceptable_iff",
    "C60_satisfied_iff",
    "C60_could_take_iff"
   ],
   "note": "Composition of the table theorems (C02, C59) with the matcher (C24, C26, C58). The width of long is 64 bits for the theorems that use C59. Counts that fit, no word boundaries and case-insensitive ranges as in C24."
  },
  {
   "property": "C61",
   "status": "proved",
   "theorems": [
    "C61_report",
    "C61_report_no_arguments",
    "C61_reading_one_way",
    "C61_report_one_way",
    "C61_no_reading"
   ],
   "note": "For 64 bit long and values other than the texts of C18. Generalises C59 to command lines with mistakes. Command lines without a reading are those on which the parse does not return (C12); C61_no_reading. An unknown short option is recorded with its character as the code, as the code does (see C43 for control characters)."
  },
  {
   "property": "C62",
   "status": "proved",
   "theorems": [
    "C62_remarks_are_inert",
    "C62_remarks_are_inert_no_arguments",
    "C62_shown_as_required",
    "C62_shown_in_verbose_line"
   ],
   "note": "observation: return value, table and recorded errors, with the entries behind the remark renumbered"
  },
  {
   "property": "C63",
   "status": "proved",
   "theorems": [
    "C63_rearranged",
    "C63_exchange",
    "C63_same_values"
   ],
   "note": "of more errors than arg_end has room for, different ones may be recorded"
  },
  {
   "property": "C64",
   "status": "proved",
   "theorems": [
    "C64_spelling",
    "C64_canonical"
   ],
   "note": "an empty value can only be passed by the short option (C16, C61); names containing an equals sign cannot be used"
  },
  {
   "property": "C65",
   "status": "proved",
   "theorems": [
    "C65_new_option",
    "C65_new_short_option"
   ],
   "note": "old command lines may have wrong values, missing or surplus arguments, but no unknown options"
  },
  {
   "property": "C66",
   "status": "proved",
   "theorems": [
    "C66_line_followed",
    "C66_required_parts",
    "C66_optional_before_required_refuted"
   ],
   "note": "values without blanks; without POSIXLY_CORRECT; entries whose flag ARG_HASOPTVALUE was set by hand are left out (shown by example)"
  },
  {
   "property": "C67",
   "status": "proved",
   "theorems": [
    "C67_alternatives_shown",
    "C67_alternatives_work",
    "C67_alternatives_interchangeable",
    "C67_alternatives_complete",
    "C67_equals_sign_refuted"
   ],
   "note": "entries whose flag ARG_HASOPTVALUE was set by hand are left out"
  },
  {
   "property": "C68",
   "status": "proved",
   "theorems": [
    "C68_reading",
    "C68_spelling",
    "C68_fronts",
    "C68_report",
    "C68_accepted_iff",
    "C68_values",
    "C68_any_front_refuted"
   ],
   "note": "the first part must consist of words and complete options; refuted otherwise"
  },
  {
   "property": "C69",
   "status": "proved",
   "theorems": [
    "C69_same_reading_iff",
    "C69_stops_at_first",
    "C69_no_influence",
    "C69_like_dashes"
   ],
   "note": "the environment is a parameter of the model, as in C11"
  },
  {
   "property": "C70",
   "status": "proved",
   "theorems": [
    "C70_texts_are_values",
    "C70_stored",
    "C70_accepted_iff",
    "C70_empty_attached_refuted",
    "C70_empty_long_refuted",
    "C70_bare_positional_refuted",
    "C70_optional_value_refuted"
   ],
   "note": "three places where a text may be misread are given as refutations"
  },
  {
   "property": "C71",
   "status": "proved",
   "theorems": [
    "C71_own_result",
    "C71_own_occurrences",
    "C71_unmentioned",
    "C71_defaults_survive"
   ],
   "note": "about entries with options; positional arguments of an entry without options depend on the entries before it (C14, C59)"
  },
  {
   "property": "C72",
   "status": "proved",
   "theorems": [
    "C72_loosened",
    "C72_constructors",
    "C72_positional_refuted"
   ],
   "note": "for platforms with 64 bit long, like C59"
  },
  {
   "property": "C73",
   "status": "proved",
   "theorems": [
    "C73_table_order",
    "C73_other_exchanges_refuted"
   ],
   "note": "the errors are compared as (entry, code, text); with a full table of errors only their number is"
  },
  {
   "property": "C74",
   "status": "proved",
   "theorems": [
    "C74_every_wish",
    "C74_every_line",
    "C74_every_way",
    "C74_no_gaps"
   ],
   "note": "for platforms with 64 bit long, like C59; texts for int entries that exist in the table must avoid the double negation of C18 (safe_value), which decimal numbers do"
  },
  {
   "property": "C75",
   "status": "proved",
   "theorems": [
    "C75_one_after_another",
    "C75_syntaxes"
   ],
   "note": "each call has its own arguments and arg_end, all of which exist before the first call; the calls in between free what they allocate"
  },
  {
   "property": "C76",
   "status": "proved",
   "theorems": [
    "C76_texts_of_arguments"
   ],
   "note": "about the texts; that the pointers point into the argument strings (so that nothing is copied) is how the model reads the C code, not a theorem"
  },
  {
   "property": "C77",
   "status": "proved",
   "theorems": [
    "C77_written_is_read",
    "C77_example_in_message",
    "C77_padded_day_refuted",
    "C77_abbreviation_refuted"
   ],
   "note": "strftime is specified, not modelled from source: the C library is outside the repository"
  },
  {
   "property": "C78",
   "status": "proved",
   "theorems": [
    "C78_history_independent",
    "C78_arguments_unchanged",
    "C78_written_out",
    "C78_default_lines_kept",
    "C78_one_or_two_dashes",
    "C78_parse_is_safe",
    "C78_same_meaning_refuted",
    "C78_default_lines_kept_refuted",
    "C78_termination_refuted"
   ],
   "note": "Whether an argument ending in a dash is an option argument is judged by its form (dash_tailed), as in C12"
  },
  {
   "property": "C79",
   "status": "proved",
   "theorems": [
    "C79_frame",
    "C79_echo",
    "C79_uname",
    "C79_uname_no_options_refuted",
    "C79_myprog",
    "C79_myprog_no_arguments_refuted",
    "C79_myprog_C89"
   ],
   "note": "Constructors are taken to succeed; printf is taken as the text it prints"
  },
  {
   "property": "C80",
   "status": "proved",
   "theorems": [
    "C80_multisyntax_one_at_most",
    "C80_multisyntax",
    "C80_multisyntax_case_refuted",
    "C80_same_positionals",
    "C80_exclusive",
    "C80_disagreeing_refuted"
   ],
   "note": "Constructors are taken to succeed; printf is taken as the text it prints"
  },
  {
   "property": "C81",
   "status": "proved",
   "theorems": [
    "C81_tables",
    "C81_satisfied_iff",
    "C81_reading",
    "C81_one_meaning",
    "C81_tidy_is_orderly",
    "C81_exact",
    "C81_good_is_written"
   ],
   "note": "The check is sufficient, not necessary"
  },
  {
   "property": "C82",
   "status": "proved",
   "theorems": [
    "C82_constructor",
    "C82_table",
    "C82_parse",
    "C82_value",
    "C82_enough",
    "C82_nullcheck",
    "C82_returning_refuted"
   ],
   "note": "Ownership of blocks only; the number of growths of the node table is left open"
  },
  {
   "property": "C83",
   "status": "proved",
   "theorems": [
    "C83_answers",
    "C83_bound",
    "C83_always",
    "C83_text",
    "C83_once",
    "C83_nested",
    "C83_degree",
    "C83_word",
    "C83_set",
    "C83_star"
   ],
   "note": "Steps of the matcher are counted in the model; the steps of compilation are not"
  },
  {
   "property": "C84",
   "status": "proved",
   "theorems": [
    "C84_getopt",
    "C84_one_line_each",
    "C84_silent",
    "C84_parse_says_nothing",
    "C84_long_option",
    "C84_long_only",
    "C84_one_dash",
    "C84_w_option",
    "C84_same_results",
    "C84_dash_refuted",
    "C84_one_line_each_refuted",
    "C84_letter_refuted"
   ],
   "note": "The messages are the texts passed to warnx; what warnx writes around them is not modelled"
  },
  {
   "property": "C85",
   "status": "proved",
   "theorems": [
    "C85_ls",
    "C85_ls_block_size_refuted",
    "C85_ls_size_unit_refuted",
    "C85_mv",
    "C85_mv_verbose_refuted",
    "C85_mv_backup_refuted",
    "C85_mv_one_operand_refuted"
   ],
   "note": ""
  },
  {
   "property": "C86",
   "status": "proved",
   "theorems": [
    "C86_testargtable3",
    "C86_default_directory_refuted",
    "C86_util",
    "C86_documented_refuted",
    "C86_version_refuted",
    "C86_many_files_refuted"
   ],
   "note": ""
  },
  {
   "property": "C87",
   "status": "proved",
   "theorems": [
    "C87_mgsort_needs",
    "C87_most_calls_needed",
    "C87_same_order"
   ],
   "note": ""
  },
  {
   "property": "C88",
   "status": "proved",
   "theorems": [
    "C88_strings",
    "C88_refused_call",
    "C88_enough",
    "C88_registry",
    "C88_registry_enough",
    "C88_old_command_kept_refuted",
    "C88_crammed_refuted",
    "C88_same_growth_again_refuted",
    "C88_first_name",
    "C88_first_version",
    "C88_later_name_refuted",
    "C88_later_version_refuted",
    "C88_shown_version_refuted"
   ],
   "note": ""
  },
  {
   "property": "C89",
   "status": "proved",
   "theorems": [
    "C89_roaming",
    "C89_unregistering",
    "C89_small",
    "C89_current_refuted",
    "C89_growth_refuted"
   ],
   "note": ""
  },
  {
   "property": "C90",
   "status": "proved",
   "theorems": [
    "C90_shared",
    "C90_empty",
    "C90_returns",
    "C90_last",
    "C90_calls",
    "C90_own"
   ],
   "note": ""
  },
  {
   "property": "C91",
   "status": "proved",
   "theorems": [
    "C91_nested",
    "C91_as_if_alone",
    "C91_scan_never_returns_refuted",
    "C91_scan_skips_refuted",
    "C91_scan_forgets_refuted",
    "C91_scan_repeats_refuted"
   ],
   "note": ""
  },
  {
   "property": "C92",
   "status": "proved",
   "theorems": [
    "C92_line",
    "C92_same_words",
    "C92_hint_refuted",
    "C92_session",
    "C92_unregistered_refuted",
    "C92_usage_line_refuted"
   ],
   "note": ""
  },
  {
   "property": "C93",
   "status": "proved",
   "theorems": [
    "C93_line_followed",
    "C93_same_meaning",
    "C93_letter_equals_refuted",
    "C93_optional_next_refuted"
   ],
   "note": ""
  },
  {
   "property": "C94",
   "status": "proved",
   "theorems": [
    "C94_index_changes_nothing",
    "C94_index",
    "C94_long_option",
    "C94_one_dash",
    "C94_stale_refuted",
    "C94_minus_one_refuted"
   ],
   "note": ""
  },
  {
   "property": "C95",
   "status": "proved",
   "theorems": [
    "C95_buffer",
    "C95_complaint",
    "C95_long_option",
    "C95_silent",
    "C95_always_set_refuted",
    "C95_cut_refuted"
   ],
   "note": ""
  },
  {
   "property": "C96",
   "status": "proved",
   "theorems": [
    "C96_left_out",
    "C96_added",
    "C96_word_refuted"
   ],
   "note": ""
  }
 ]
}