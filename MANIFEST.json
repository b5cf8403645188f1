{
 "claims": [
  {
   "property": "C01",
   "status": "proved",
   "theorems": [
    "C01_traversal_terminates",
    "C01_traversal_errors",
    "C01_traversal_succeeds"
   ],
   "note": ""
  },
  {
   "property": "C02",
   "status": "proved",
   "theorems": [
    "C02_reported_functions_are_reachable",
    "C02_start_is_reported"
   ],
   "note": ""
  },
  {
   "property": "C03",
   "status": "proved",
   "theorems": [
    "C03_reachable_reported_unless_weakly_called",
    "C03_exact_without_weak_calls",
    "C03_discovered_iff_reachable",
    "C03_strongly_reachable_reported_refuted"
   ],
   "note": "Refutation of the stronger wish included; the positive theorems cover the statement."
  },
  {
   "property": "C04",
   "status": "proved",
   "theorems": [
    "C04_callstacks_are_call_chains",
    "C04_callstack_text"
   ],
   "note": ""
  },
  {
   "property": "C05",
   "status": "proved",
   "theorems": [
    "C05_polynomial_cost_refuted"
   ],
   "note": "The theorem proves the exponential lower bound for every n."
  },
  {
   "property": "C06",
   "status": "proved",
   "theorems": [
    "C06_object_list_computed",
    "C06_only_nonequal_reachable_functions_listed"
   ],
   "note": ""
  },
  {
   "property": "C07",
   "status": "proved",
   "theorems": [
    "C07_every_reached_difference_listed_once",
    "C07_no_difference_missed_without_weak_calls"
   ],
   "note": ""
  },
  {
   "property": "C08",
   "status": "proved",
   "theorems": [
    "C08_merge_keeps_every_function",
    "C08_run_keeps_every_function"
   ],
   "note": ""
  },
  {
   "property": "C09",
   "status": "proved",
   "theorems": [
    "C09_difference_kept",
    "C09_difference_never_undecided",
    "C09_difference_never_lost_refuted"
   ],
   "note": "Positive theorems plus the concrete loss."
  },
  {
   "property": "C10",
   "status": "proved",
   "theorems": [
    "C10_undecided_results_resolved",
    "C10_caching_allowed_again"
   ],
   "note": ""
  },
  {
   "property": "C11",
   "status": "proved",
   "theorems": [
    "C11_normalisation_removes_variants"
   ],
   "note": ""
  },
  {
   "property": "C12",
   "status": "proved",
   "theorems": [
    "C12_normalisation_terminates",
    "C12_normalisation_succeeds_iff",
    "C12_normalisation_never_fails_refuted"
   ],
   "note": "Exact characterisation plus both failing shapes."
  },
  {
   "property": "C13",
   "status": "proved",
   "theorems": [
    "C13_marking_terminates",
    "C13_marks_exactly_dependents",
    "C13_marking_errors"
   ],
   "note": ""
  },
  {
   "property": "C14",
   "status": "proved",
   "theorems": [
    "C14_predecessors_are_callers",
    "C14_fresh_predecessors_are_exactly_callers"
   ],
   "note": ""
  },
  {
   "property": "C15",
   "status": "proved",
   "theorems": [
    "C15_update_writes_exactly_cachable",
    "C15_update_succeeds_iff",
    "C15_graph_update_only_decided"
   ],
   "note": ""
  },
  {
   "property": "C16",
   "status": "proved",
   "theorems": [
    "C16_cache_never_hit",
    "C16_written_pair_found_refuted"
   ],
   "note": ""
  },
  {
   "property": "C17",
   "status": "proved",
   "theorems": [
    "C17_contents_round_trip",
    "C17_left_colon_misread"
   ],
   "note": ""
  },
  {
   "property": "C18",
   "status": "proved",
   "theorems": [
    "C18_clear_removes_everything",
    "C18_files_tracked",
    "C18_other_file"
   ],
   "note": ""
  },
  {
   "property": "C19",
   "status": "proved",
   "theorems": [
    "C19_verdict_is_worst",
    "C19_difference_never_masked_by_equal",
    "C19_not_equal_wins_over_unknown_refuted"
   ],
   "note": ""
  },
  {
   "property": "C20",
   "status": "proved",
   "theorems": [
    "C20_simpll_verdicts_read_back",
    "C20_from_string_injective",
    "C20_from_string_rejects_by_KeyError",
    "C20_print_roundtrip_refuted",
    "C20_print_roundtrip_exactly"
   ],
   "note": ""
  },
  {
   "property": "C21",
   "status": "proved",
   "theorems": [
    "C21_symbol_stats_partition",
    "C21_symbol_counts",
    "C21_listing_unknown_complete",
    "C21_listing_errors_refuted",
    "C21_object_stats_partition",
    "C21_object_total_counts_names_once"
   ],
   "note": ""
  },
  {
   "property": "C22",
   "status": "proved",
   "theorems": [
    "C22_lookup_is_last_added",
    "C22_distinct_names_never_shadow",
    "C22_no_shadowing_refuted"
   ],
   "note": ""
  },
  {
   "property": "C23",
   "status": "proved",
   "theorems": [
    "C23_verdict_from_object_list",
    "C23_simpll_failure_is_error",
    "C23_full_diff_verdict",
    "C23_equal_means_no_reachable_difference",
    "C23_full_diff_equal_refuted"
   ],
   "note": ""
  },
  {
   "property": "C24",
   "status": "proved",
   "theorems": [
    "C24_linking_terminates"
   ],
   "note": ""
  },
  {
   "property": "C25",
   "status": "proved",
   "theorems": [
    "C25_known_result_reused",
    "C25_otherwise_simpll_runs"
   ],
   "note": ""
  },
  {
   "property": "C26",
   "status": "proved",
   "theorems": [
    "C26_verdict_by_last_answer",
    "C26_equal_only_if_proved"
   ],
   "note": ""
  },
  {
   "property": "C27",
   "status": "proved",
   "theorems": [
    "C27_every_function_handled_once",
    "C27_sorted_order",
    "C27_graph_handed_on_within_group",
    "C27_overall_result",
    "C27_failures"
   ],
   "note": ""
  },
  {
   "property": "C28",
   "status": "proved",
   "theorems": [
    "C28_verdict_kept_iff_match",
    "C28_only_hides",
    "C28_failures_stay_visible_refuted",
    "C28_filter_fails_iff_object_without_text"
   ],
   "note": ""
  },
  {
   "property": "C29",
   "status": "proved",
   "theorems": [
    "C29_first_free_directory",
    "C29_output_directory_is_new",
    "C29_plain_file_refuted"
   ],
   "note": ""
  },
  {
   "property": "C30",
   "status": "proved",
   "theorems": [
    "C30_cached_iff_referenced_often",
    "C30_each_module_once",
    "C30_two_functions_needed_refuted"
   ],
   "note": ""
  },
  {
   "property": "C31",
   "status": "proved",
   "theorems": [
    "C31_symbols_of_the_lines",
    "C31_lines_unique"
   ],
   "note": ""
  },
  {
   "property": "C32",
   "status": "proved",
   "theorems": [
    "C32_every_pattern_has_the_wanted_value",
    "C32_options_accepted_iff_advertised",
    "C32_order_irrelevant"
   ],
   "note": ""
  },
  {
   "property": "C33",
   "status": "proved",
   "theorems": [
    "C33_advertised_names_work",
    "C33_unused_returns_has_no_effect",
    "C33_unused_return_types_only_with_all",
    "C33_every_name_has_an_effect_refuted"
   ],
   "note": ""
  },
  {
   "property": "C34",
   "status": "proved",
   "theorems": [
    "C34_function_list_round_trip",
    "C34_sysctl_round_trip",
    "C34_other_shapes_refuted"
   ],
   "note": ""
  },
  {
   "property": "C35",
   "status": "proved",
   "theorems": [
    "C35_lookup_is_last_added",
    "C35_lookup_none_iff_never_added",
    "C35_modules_of_current_functions"
   ],
   "note": ""
  },
  {
   "property": "C36",
   "status": "proved",
   "theorems": [
    "C36_filter_keeps_requested",
    "C36_filter_fails_iff_missing"
   ],
   "note": ""
  },
  {
   "property": "C37",
   "status": "proved",
   "theorems": [
    "C37_first_closing_line",
    "C37_terminates",
    "C37_failures",
    "C37_lines",
    "C37_lines_exist",
    "C37_line_zero_refuted"
   ],
   "note": ""
  },
  {
   "property": "C38",
   "status": "proved",
   "theorems": [
    "C38_exactly_the_lines",
    "C38_nothing_else",
    "C38_fails_iff_unreadable",
    "C38_line_zero_refuted"
   ],
   "note": ""
  },
  {
   "property": "C39",
   "status": "proved",
   "theorems": [
    "C39_context_differences",
    "C39_unified_differences",
    "C39_not_obtained",
    "C39_numeric_lines_are_lost",
    "C39_any_source_refuted"
   ],
   "note": ""
  },
  {
   "property": "C40",
   "status": "proved",
   "theorems": [
    "C40_native_command_first",
    "C40_exit_status",
    "C40_missing_environment",
    "C40_exit_code_of_the_compiler_refuted",
    "C40_script_hides_failures",
    "C40_script_used",
    "C40_failure_fails_the_build_refuted"
   ],
   "note": ""
  },
  {
   "property": "C41",
   "status": "proved",
   "theorems": [
    "C41_compilation",
    "C41_link_of_sources",
    "C41_link_of_sources_and_objects",
    "C41_link_of_objects",
    "C41_arguments_determined",
    "C41_kept_arguments",
    "C41_empty_option_refuted",
    "C41_gcc_dropped_refuted"
   ],
   "note": ""
  },
  {
   "property": "C42",
   "status": "proved",
   "theorems": [
    "C42_candidates",
    "C42_not_found",
    "C42_no_database",
    "C42_failures",
    "C42_searched_once",
    "C42_independent_of_history",
    "C42_tilde_refuted",
    "C42_form_feed_refuted"
   ],
   "note": ""
  },
  {
   "property": "C43",
   "status": "proved",
   "theorems": [
    "C43_gcc",
    "C43_gcc_total",
    "C43_output_found",
    "C43_ld",
    "C43_last_command",
    "C43_module_commands",
    "C43_module_name",
    "C43_blank_refuted",
    "C43_mod_refuted",
    "C43_opt"
   ],
   "note": ""
  },
  {
   "property": "C44",
   "status": "proved",
   "theorems": [
    "C44_restored",
    "C44_next_run_restores",
    "C44_disabled",
    "C44_disabled_lines",
    "C44_replacement_text_refuted",
    "C44_left_changed_refuted"
   ],
   "note": ""
  },
  {
   "property": "C45",
   "status": "proved",
   "theorems": [
    "C45_unlinked_after_comparison",
    "C45_unlinked_after_failure_refuted",
    "C45_restore_after_any_links",
    "C45_linked_at_most_once",
    "C45_original_overwritten"
   ],
   "note": ""
  },
  {
   "property": "C46",
   "status": "proved",
   "theorems": [
    "C46_modules_shared_per_source",
    "C46_only_existing_and_not_newer"
   ],
   "note": ""
  },
  {
   "property": "C47",
   "status": "proved",
   "theorems": [
    "C47_results",
    "C47_definitions",
    "C47_paths_resolve",
    "C47_succeeds_iff",
    "C47_no_graph_no_definitions",
    "C47_always_succeeds_refuted"
   ],
   "note": ""
  },
  {
   "property": "C48",
   "status": "proved",
   "theorems": [
    "C48_lists",
    "C48_views_agree",
    "C48_navigation",
    "C48_next_of_unknown_name",
    "C48_reports_are_distinct",
    "C48_stored_by_name",
    "C48_views_agree_with_repetition_refuted"
   ],
   "note": ""
  },
  {
   "property": "C49",
   "status": "proved",
   "theorems": [
    "C49_has_suffix",
    "C49_drop_suffix",
    "C49_unique",
    "C49_names_match",
    "C49_base_exists",
    "C49_idempotent_refuted",
    "C49_number_refuted"
   ],
   "note": ""
  },
  {
   "property": "C50",
   "status": "proved",
   "theorems": [
    "C50_terminates",
    "C50_replaces_all",
    "C50_unique",
    "C50_empty_pattern"
   ],
   "note": ""
  },
  {
   "property": "C51",
   "status": "proved",
   "theorems": [
    "C51_closed",
    "C51_never_closed",
    "C51_either",
    "C51_elsewhere",
    "C51_unclosed_refuted"
   ],
   "note": ""
  },
  {
   "property": "C52",
   "status": "proved",
   "theorems": [
    "C52_result",
    "C52_diverges_iff",
    "C52_either",
    "C52_terminates",
    "C52_termination_refuted",
    "C52_neighbour_refuted"
   ],
   "note": ""
  },
  {
   "property": "C53",
   "status": "proved",
   "theorems": [
    "C53_python",
    "C53_cpp",
    "C53_agree",
    "C53_empty_name",
    "C53_empty_name_refuted"
   ],
   "note": ""
  },
  {
   "property": "C54",
   "status": "proved",
   "theorems": [
    "C54_cached",
    "C54_declarations",
    "C54_one_verdict"
   ],
   "note": ""
  },
  {
   "property": "C55",
   "status": "proved",
   "theorems": [
    "C55_outer_graph_is_last_inner_graph",
    "C55_graph_never_lost_refuted"
   ],
   "note": ""
  },
  {
   "property": "C56",
   "status": "proved",
   "theorems": [
    "C56_bodies_not_mixed_refuted",
    "C56_bodies_belong_to_the_difference"
   ],
   "note": ""
  },
  {
   "property": "C57",
   "status": "proved",
   "theorems": [
    "C57_graph_represents_output",
    "C57_wellformed_output_accepted",
    "C57_no_result_overwritten_refuted"
   ],
   "note": ""
  },
  {
   "property": "C58",
   "status": "proved",
   "theorems": [
    "C58_construction_succeeds"
   ],
   "note": ""
  },
  {
   "property": "C59",
   "status": "proved",
   "theorems": [
    "C59_renamed_callee_reported_refuted"
   ],
   "note": ""
  },
  {
   "property": "C60",
   "status": "proved",
   "theorems": [
    "C60_used_result_difference_listed_refuted"
   ],
   "note": ""
  },
  {
   "property": "C61",
   "status": "proved",
   "theorems": [
    "C61_distinct_files_for_distinct_pairs",
    "C61_same_path_pairs_collide",
    "C61_clear_always_succeeds_refuted"
   ],
   "note": ""
  },
  {
   "property": "C62",
   "status": "proved",
   "theorems": [
    "C62_symbol_users_never_found",
    "C62_symbol_users_found_refuted"
   ],
   "note": ""
  },
  {
   "property": "C63",
   "status": "proved",
   "theorems": [
    "C63_checker_never_sees_functions",
    "C63_checker_used_for_functions_refuted"
   ],
   "note": ""
  },
  {
   "property": "C64",
   "status": "proved",
   "theorems": [
    "C64_known_functions_kept",
    "C64_known_functions_kept_on_failure_refuted"
   ],
   "note": ""
  },
  {
   "property": "C65",
   "status": "proved",
   "theorems": [
    "C65_every_symbol_has_an_entry",
    "C65_only_the_unnamed_group"
   ],
   "note": ""
  },
  {
   "property": "C66",
   "status": "proved",
   "theorems": [
    "C66_functions_of_an_option",
    "C66_generation_fails_iff_uses_unknown"
   ],
   "note": ""
  },
  {
   "property": "C67",
   "status": "proved",
   "theorems": [
    "C67_selected_function_only",
    "C67_fails_iff_function_missing"
   ],
   "note": ""
  },
  {
   "property": "C68",
   "status": "proved",
   "theorems": [
    "C68_shown_exactly",
    "C68_lines_below_their_group",
    "C68_report_written_iff_difference",
    "C68_timeout_shown_refuted"
   ],
   "note": ""
  },
  {
   "property": "C69",
   "status": "proved",
   "theorems": [
    "C69_results_kept_if_names_differ",
    "C69_all_results_kept_refuted"
   ],
   "note": ""
  },
  {
   "property": "C70",
   "status": "proved",
   "theorems": [
    "C70_same_configuration",
    "C70_patterns_reach_simpll",
    "C70_any_path_refuted",
    "C70_any_file_name_refuted"
   ],
   "note": ""
  },
  {
   "property": "C71",
   "status": "proved",
   "theorems": [
    "C71_configuration_accepted_iff",
    "C71_files_of_a_configuration",
    "C71_only_valid_patterns_used_refuted",
    "C71_configuration_needs_extension"
   ],
   "note": ""
  },
  {
   "property": "C72",
   "status": "proved",
   "theorems": [
    "C72_graph_of_last_function",
    "C72_symbols_defined_refuted",
    "C72_known_symbols_kept"
   ],
   "note": ""
  },
  {
   "property": "C73",
   "status": "proved",
   "theorems": [
    "C73_printed_exactly",
    "C73_succeeds_iff",
    "C73_same_as_report",
    "C73_texts_available",
    "C73_texts_available_with_checker_refuted"
   ],
   "note": ""
  },
  {
   "property": "C74",
   "status": "proved",
   "theorems": [
    "C74_difference_flags",
    "C74_sources_copied_once",
    "C74_snapshot_sources_stay_inside",
    "C74_copies_inside_refuted"
   ],
   "note": ""
  },
  {
   "property": "C75",
   "status": "proved",
   "theorems": [
    "C75_recorded",
    "C75_read_back",
    "C75_lines",
    "C75_colon_refuted",
    "C75_default_output_refuted",
    "C75_lookup",
    "C75_missing_file",
    "C75_function_list",
    "C75_definition_line_refuted"
   ],
   "note": ""
  },
  {
   "property": "C76",
   "status": "proved",
   "theorems": [
    "C76_options_reach_the_wrapper",
    "C76_environment_wins",
    "C76_option_wins_refuted",
    "C76_comma_refuted"
   ],
   "note": ""
  },
  {
   "property": "C77",
   "status": "proved",
   "theorems": [
    "C77_log_survives",
    "C77_no_log",
    "C77_killed_cleaning",
    "C77_backup_of_the_user_refuted",
    "C77_killed_refuted",
    "C77_reconfigure",
    "C77_no_configure_line",
    "C77_earlier_dollar_refuted"
   ],
   "note": ""
  },
  {
   "property": "C78",
   "status": "proved",
   "theorems": [
    "C78_found",
    "C78_not_found"
   ],
   "note": ""
  },
  {
   "property": "C79",
   "status": "proved",
   "theorems": [
    "C79_reused",
    "C79_rebuilt",
    "C79_only_the_ir",
    "C79_history",
    "C79_opt_failure_refuted",
    "C79_source_gone"
   ],
   "note": ""
  },
  {
   "property": "C80",
   "status": "proved",
   "theorems": [
    "C80_module_current",
    "C80_up_to_date",
    "C80_failed_link_refuted"
   ],
   "note": ""
  },
  {
   "property": "C81",
   "status": "proved",
   "theorems": [
    "C81_uses",
    "C81_no_use_refuted"
   ],
   "note": ""
  },
  {
   "property": "C82",
   "status": "proved",
   "theorems": [
    "C82_split",
    "C82_every_bracket",
    "C82_nothing",
    "C82_quotes_refuted"
   ],
   "note": ""
  },
  {
   "property": "C83",
   "status": "proved",
   "theorems": [
    "C83_definitions",
    "C83_parameters",
    "C83_keyed",
    "C83_redefinition_refuted"
   ],
   "note": ""
  },
  {
   "property": "C84",
   "status": "proved",
   "theorems": [
    "C84_uses",
    "C84_nothing_found_yet",
    "C84_terminates",
    "C84_terminates_without_composites",
    "C84_differences",
    "C84_reported",
    "C84_none_missed",
    "C84_sees_refuted",
    "C84_previous_line_refuted"
   ],
   "note": ""
  },
  {
   "property": "C85",
   "status": "proved",
   "theorems": [
    "C85_text",
    "C85_contiguous",
    "C85_first_line_refuted",
    "C85_empty_line",
    "C85_lines",
    "C85_past_the_end_refuted"
   ],
   "note": ""
  },
  {
   "property": "C86",
   "status": "proved",
   "theorems": [
    "C86_conversion",
    "C86_sections_exist",
    "C86_choice",
    "C86_undefined_iff_refuted",
    "C86_arguments",
    "C86_groups_exist",
    "C86_no_arguments",
    "C86_accuracy_refuted"
   ],
   "note": ""
  },
  {
   "property": "C87",
   "status": "proved",
   "theorems": [
    "C87_arguments",
    "C87_none",
    "C87_mention_refuted",
    "C87_other_function_refuted"
   ],
   "note": ""
  },
  {
   "property": "C88",
   "status": "proved",
   "theorems": [
    "C88_parse",
    "C88_parse_defined",
    "C88_lookup",
    "C88_lookup_defined",
    "C88_data",
    "C88_child",
    "C88_handler",
    "C88_cast_of_address_refuted",
    "C88_prefix_refuted",
    "C88_dotted_name_refuted"
   ],
   "note": ""
  },
  {
   "property": "C89",
   "status": "proved",
   "theorems": [
    "C89_table",
    "C89_other",
    "C89_other_net",
    "C89_net_refuted",
    "C89_missing_entry",
    "C89_dotted_child_refuted"
   ],
   "note": ""
  },
  {
   "property": "C90",
   "status": "proved",
   "theorems": [
    "C90_results",
    "C90_no_crash",
    "C90_one_verdict",
    "C90_same_verdict_everywhere"
   ],
   "note": ""
  },
  {
   "property": "C91",
   "status": "proved",
   "theorems": [
    "C91_justified",
    "C91_unknown",
    "C91_main",
    "C91_same",
    "C91_suggestion",
    "C91_keeps_differences_refuted",
    "C91_order_independent_refuted",
    "C91_no_crash_refuted",
    "C91_ends_refuted"
   ],
   "note": ""
  },
  {
   "property": "C92",
   "status": "proved",
   "theorems": [
    "C92_white_space",
    "C92_letters",
    "C92_digits",
    "C92_name_characters",
    "C92_line_breaks",
    "C92_ascii",
    "C92_strip",
    "C92_strip_unique",
    "C92_decimal",
    "C92_integers",
    "C92_decimal_unique",
    "C92_place",
    "C92_relative",
    "C92_extension",
    "C92_option_value",
    "C92_words"
   ],
   "note": ""
  },
  {
   "property": "C93",
   "status": "proved",
   "theorems": [
    "C93_copy_equal",
    "C93_copy_never_differs",
    "C93_answer_stays"
   ],
   "note": ""
  },
  {
   "property": "C94",
   "status": "proved",
   "theorems": [
    "C94_equal_same_runs",
    "C94_straight_same_runs"
   ],
   "note": ""
  },
  {
   "property": "C95",
   "status": "proved",
   "theorems": [
    "C95_targets_of_branches_refuted",
    "C95_split_case_refuted",
    "C95_phi_nodes_refuted",
    "C95_unreachable_code_refuted",
    "C95_loads_refuted",
    "C95_zero_geps_refuted",
    "C95_relocation_to_branch_refuted",
    "C95_relocation_lost_refuted",
    "C95_relocation_of_store_refuted",
    "C95_relocation_answers_refuted",
    "C95_relocation_of_call_refuted",
    "C95_inverse_condition_refuted",
    "C95_negated_comparison_refuted",
    "C95_aliases_refuted",
    "C95_atomics_refuted",
    "C95_types_of_loads_refuted",
    "C95_call_arguments_refuted"
   ],
   "note": ""
  },
  {
   "property": "C96",
   "status": "proved",
   "theorems": [
    "C96_reordered_same_value"
   ],
   "note": ""
  },
  {
   "property": "C97",
   "status": "proved",
   "theorems": [
    "C97_skipped_load_same_value",
    "C97_results_are_reached"
   ],
   "note": ""
  },
  {
   "property": "C98",
   "status": "proved",
   "theorems": [
    "C98_comparisons",
    "C98_branches",
    "C98_negations"
   ],
   "note": ""
  },
  {
   "property": "C99",
   "status": "proved",
   "theorems": [
    "C99_visible_operations"
   ],
   "note": ""
  },
  {
   "property": "C100",
   "status": "proved",
   "theorems": [
    "C100_left_out",
    "C100_addresses",
    "C100_ignored_values",
    "C100_failed_pair"
   ],
   "note": ""
  },
  {
   "property": "C101",
   "status": "proved",
   "theorems": [
    "C101_relocated_code",
    "C101_no_relocation_left"
   ],
   "note": ""
  },
  {
   "property": "C102",
   "status": "proved",
   "theorems": [
    "C102_side_effects",
    "C102_kept",
    "C102_other_cast_refuted",
    "C102_atomic_refuted"
   ],
   "note": ""
  },
  {
   "property": "C103",
   "status": "proved",
   "theorems": [
    "C103_same_run",
    "C103_stored_condition_refuted"
   ],
   "note": ""
  },
  {
   "property": "C104",
   "status": "proved",
   "theorems": [
    "C104_dependent_kept",
    "C104_loop_refuted",
    "C104_switch_refuted",
    "C104_global_refuted",
    "C104_local_refuted",
    "C104_nested_refuted",
    "C104_phi_refuted",
    "C104_reachability_refuted"
   ],
   "note": ""
  },
  {
   "property": "C105",
   "status": "proved",
   "theorems": [
    "C105_instructions",
    "C105_incoming",
    "C105_predecessors",
    "C105_reachable",
    "C105_return_refuted",
    "C105_endless_refuted"
   ],
   "note": ""
  },
  {
   "property": "C106",
   "status": "proved",
   "theorems": [
    "C106_kept",
    "C106_names",
    "C106_same_runs",
    "C106_bodies_refuted",
    "C106_definition_refuted",
    "C106_suffix_refuted"
   ],
   "note": ""
  },
  {
   "property": "C107",
   "status": "proved",
   "theorems": [
    "C107_called",
    "C107_terminates"
   ],
   "note": ""
  },
  {
   "property": "C108",
   "status": "proved",
   "theorems": [
    "C108_abstractions",
    "C108_dollar_refuted",
    "C108_compared"
   ],
   "note": ""
  },
  {
   "property": "C109",
   "status": "proved",
   "theorems": [
    "C109_changes",
    "C109_same_runs",
    "C109_asm_refuted"
   ],
   "note": ""
  },
  {
   "property": "C110",
   "status": "proved",
   "theorems": [
    "C110_simplified",
    "C110_simplified_runs",
    "C110_memcpy",
    "C110_lifetime",
    "C110_asserts",
    "C110_sprintf_refuted",
    "C110_memcpy_result_refuted",
    "C110_asserts_refuted"
   ],
   "note": ""
  },
  {
   "property": "C111",
   "status": "proved",
   "theorems": [
    "C111_marks",
    "C111_start",
    "C111_inputs",
    "C111_pattern",
    "C111_functions",
    "C111_unknown_refuted",
    "C111_undefined_refuted"
   ],
   "note": ""
  },
  {
   "property": "C112",
   "status": "proved",
   "theorems": [
    "C112_values",
    "C112_loads",
    "C112_globals_refuted",
    "C112_local_refuted",
    "C112_one_side_refuted"
   ],
   "note": ""
  },
  {
   "property": "C113",
   "status": "proved",
   "theorems": [
    "C113_matched",
    "C113_covered",
    "C113_whole",
    "C113_inputs_terminate"
   ],
   "note": ""
  },
  {
   "property": "C114",
   "status": "proved",
   "theorems": [
    "C114_found",
    "C114_between_refuted",
    "C114_group_refuted",
    "C114_start_refuted",
    "C114_end_refuted"
   ],
   "note": ""
  },
  {
   "property": "C115",
   "status": "proved",
   "theorems": [
    "C115_inputs",
    "C115_first",
    "C115_order",
    "C115_outputs",
    "C115_sizes",
    "C115_start",
    "C115_outputs_refuted",
    "C115_endless_refuted"
   ],
   "note": ""
  },
  {
   "property": "C116",
   "status": "proved",
   "theorems": [
    "C116_index",
    "C116_index_missing",
    "C116_name",
    "C116_name_beyond",
    "C116_type_name",
    "C116_padding_refuted",
    "C116_empty_refuted",
    "C116_union_refuted"
   ],
   "note": ""
  },
  {
   "property": "C117",
   "status": "proved",
   "theorems": [
    "C117_access",
    "C117_off",
    "C117_index_refuted",
    "C117_pointer_refuted"
   ],
   "note": ""
  },
  {
   "property": "C118",
   "status": "proved",
   "theorems": [
    "C118_noted",
    "C118_first",
    "C118_second",
    "C118_complete",
    "C118_fields",
    "C118_nested_refuted",
    "C118_front_refuted",
    "C118_removed_refuted"
   ],
   "note": ""
  },
  {
   "property": "C119",
   "status": "proved",
   "theorems": [
    "C119_sound",
    "C119_complete",
    "C119_two_refuted",
    "C119_empty_refuted"
   ],
   "note": ""
  },
  {
   "property": "C120",
   "status": "proved",
   "theorems": [
    "C120_access",
    "C120_address",
    "C120_longer",
    "C120_unpacked",
    "C120_large_refuted",
    "C120_between_refuted",
    "C120_single_refuted"
   ],
   "note": ""
  },
  {
   "property": "C121",
   "status": "proved",
   "theorems": [
    "C121_sound",
    "C121_complete",
    "C121_off",
    "C121_flags_refuted",
    "C121_exchanged_refuted",
    "C121_extra_refuted"
   ],
   "note": ""
  },
  {
   "property": "C122",
   "status": "proved",
   "theorems": [
    "C122_types",
    "C122_refl",
    "C122_symmetric",
    "C122_structure",
    "C122_transitive",
    "C122_order_refuted",
    "C122_casts_refuted",
    "C122_unions_refuted"
   ],
   "note": ""
  },
  {
   "property": "C123",
   "status": "proved",
   "theorems": [
    "C123_ends",
    "C123_constants",
    "C123_numbers",
    "C123_reads",
    "C123_opcodes_refuted",
    "C123_constness_refuted",
    "C123_widths_refuted"
   ],
   "note": ""
  },
  {
   "property": "C124",
   "status": "proved",
   "theorems": [
    "C124_copied",
    "C124_succeeds",
    "C124_missing",
    "C124_setup",
    "C124_prefix_refuted",
    "C124_relative_refuted",
    "C124_missing_refuted",
    "C124_same_refuted",
    "C124_emptied_refuted"
   ],
   "note": ""
  },
  {
   "property": "C125",
   "status": "proved",
   "theorems": [
    "C125_moved",
    "C125_unique",
    "C125_kept",
    "C125_path",
    "C125_names_refuted",
    "C125_elsewhere_refuted",
    "C125_constant_refuted",
    "C125_root_refuted"
   ],
   "note": ""
  },
  {
   "property": "C126",
   "status": "proved",
   "theorems": [
    "C126_sources",
    "C126_once",
    "C126_kinds_refuted",
    "C126_first_refuted"
   ],
   "note": ""
  },
  {
   "property": "C127",
   "status": "proved",
   "theorems": [
    "C127_exact",
    "C127_functions",
    "C127_once",
    "C127_fields_refuted",
    "C127_beyond_refuted",
    "C127_nested_refuted",
    "C127_names_refuted"
   ],
   "note": ""
  },
  {
   "property": "C128",
   "status": "proved",
   "theorems": [
    "C128_variable",
    "C128_unique",
    "C128_ends",
    "C128_kinds",
    "C128_missing",
    "C128_names_refuted",
    "C128_declared_refuted"
   ],
   "note": ""
  },
  {
   "property": "C129",
   "status": "proved",
   "theorems": [
    "C129_log",
    "C129_messages",
    "C129_differences",
    "C129_end_refuted"
   ],
   "note": ""
  },
  {
   "property": "C130",
   "status": "proved",
   "theorems": [
    "C130_names",
    "C130_structures",
    "C130_ends",
    "C130_sizes",
    "C130_declaration_refuted",
    "C130_functions_refuted"
   ],
   "note": ""
  },
  {
   "property": "C131",
   "status": "proved",
   "theorems": [
    "C131_others",
    "C131_distinct",
    "C131_named",
    "C131_apart",
    "C131_same",
    "C131_names_refuted",
    "C131_nested_refuted",
    "C131_twice_refuted"
   ],
   "note": ""
  },
  {
   "property": "C132",
   "status": "proved",
   "theorems": [
    "C132_ends",
    "C132_shown",
    "C132_complete",
    "C132_same",
    "C132_names",
    "C132_missing_refuted",
    "C132_crash_refuted"
   ],
   "note": ""
  },
  {
   "property": "C133",
   "status": "proved",
   "theorems": [
    "C133_buttons",
    "C133_labels",
    "C133_columns",
    "C133_label_again_refuted"
   ],
   "note": ""
  },
  {
   "property": "C134",
   "status": "proved",
   "theorems": [
    "C134_pages",
    "C134_reach",
    "C134_arrows",
    "C134_along",
    "C134_path",
    "C134_compared",
    "C134_compared_back_refuted"
   ],
   "note": ""
  },
  {
   "property": "C135",
   "status": "proved",
   "theorems": [
    "C135_first",
    "C135_lines",
    "C135_code",
    "C135_visit",
    "C135_stale_refuted",
    "C135_renamed_refuted",
    "C135_new_name_refuted",
    "C135_recursive_refuted"
   ],
   "note": ""
  },
  {
   "property": "C136",
   "status": "proved",
   "theorems": [
    "C136_results_arrive",
    "C136_one_sided_calls_refuted"
   ],
   "note": ""
  },
  {
   "property": "C137",
   "status": "proved",
   "theorems": [
    "C137_short_text",
    "C137_long_text",
    "C137_memory_kept_refuted"
   ],
   "note": ""
  },
  {
   "property": "C138",
   "status": "proved",
   "theorems": [
    "C138_function",
    "C138_global",
    "C138_dots",
    "C138_dollar",
    "C138_exact_refuted"
   ],
   "note": ""
  },
  {
   "property": "C139",
   "status": "proved",
   "theorems": [
    "C139_behaviour",
    "C139_left",
    "C139_casts",
    "C139_calls",
    "C139_allowed",
    "C139_allowed_refuted"
   ],
   "note": ""
  },
  {
   "property": "C140",
   "status": "proved",
   "theorems": [
    "C140_type",
    "C140_equal",
    "C140_rest",
    "C140_factor_refuted",
    "C140_array_refuted",
    "C140_structure_refuted",
    "C140_type_refuted",
    "C140_blank_refuted",
    "C140_rest_refuted"
   ],
   "note": ""
  },
  {
   "property": "C141",
   "status": "proved",
   "theorems": [
    "C141_start",
    "C141_sources",
    "C141_types",
    "C141_number_refuted",
    "C141_once_refuted",
    "C141_branch_refuted",
    "C141_ends_refuted",
    "C141_debug_refuted"
   ],
   "note": ""
  },
  {
   "property": "C142",
   "status": "proved",
   "theorems": [
    "C142_reasons",
    "C142_crash",
    "C142_kept",
    "C142_names",
    "C142_arguments_refuted",
    "C142_both_refuted"
   ],
   "note": ""
  },
  {
   "property": "C143",
   "status": "proved",
   "theorems": [
    "C143_verdict",
    "C143_equal",
    "C143_ends",
    "C143_long_output_refuted",
    "C143_answer_in_time_refuted",
    "C143_nothing_left_refuted",
    "C143_couplings",
    "C143_missing",
    "C143_command",
    "C143_timer_kills"
   ],
   "note": ""
  },
  {
   "property": "C144",
   "status": "proved",
   "theorems": [
    "C144_expressions",
    "C144_unnamed",
    "C144_instruction_refuted",
    "C144_no_register",
    "C144_unnamed_field",
    "C144_debug_refuted",
    "C144_index_refuted",
    "C144_distinct_refuted",
    "C144_nested_refuted",
    "C144_element_refuted",
    "C144_pointer_refuted"
   ],
   "note": ""
  },
  {
   "property": "C145",
   "status": "proved",
   "theorems": [
    "C145_started",
    "C145_compared",
    "C145_version"
   ],
   "note": ""
  },
  {
   "property": "C146",
   "status": "proved",
   "theorems": [
    "C146_only_there",
    "C146_restored",
    "C146_unchanged",
    "C146_lists",
    "C146_stopped_refuted",
    "C146_own_list_refuted"
   ],
   "note": ""
  },
  {
   "property": "C147",
   "status": "proved",
   "theorems": [
    "C147_history",
    "C147_modes",
    "C147_variable",
    "C147_itself",
    "C147_variable_refuted"
   ],
   "note": ""
  },
  {
   "property": "C148",
   "status": "proved",
   "theorems": [
    "C148_goes_on",
    "C148_ends",
    "C148_nothing_after",
    "C148_kept"
   ],
   "note": ""
  },
  {
   "property": "C149",
   "status": "proved",
   "theorems": [
    "C149_once",
    "C149_prepared"
   ],
   "note": ""
  },
  {
   "property": "C150",
   "status": "proved",
   "theorems": [
    "C150_right",
    "C150_shown",
    "C150_hyphen_refuted"
   ],
   "note": ""
  },
  {
   "property": "C151",
   "status": "proved",
   "theorems": [
    "C151_lines",
    "C151_call"
   ],
   "note": ""
  },
  {
   "property": "C152",
   "status": "proved",
   "theorems": [
    "C152_expand",
    "C152_reach"
   ],
   "note": ""
  },
  {
   "property": "C153",
   "status": "proved",
   "theorems": [
    "C153_indexed",
    "C153_tmp"
   ],
   "note": ""
  },
  {
   "property": "C154",
   "status": "proved",
   "theorems": [
    "C154_answers"
   ],
   "note": ""
  },
  {
   "property": "C155",
   "status": "proved",
   "theorems": [
    "C155_killed"
   ],
   "note": ""
  },
  {
   "property": "C156",
   "status": "proved",
   "theorems": [
    "C156_same_runs",
    "C156_first_stays",
    "C156_other_first_refuted"
   ],
   "note": ""
  },
  {
   "property": "C157",
   "status": "proved",
   "theorems": [
    "C157_left",
    "C157_edges",
    "C157_dependent_stay"
   ],
   "note": ""
  },
  {
   "property": "C158",
   "status": "proved",
   "theorems": [
    "C158_when",
    "C158_runs",
    "C158_blocks_left_refuted",
    "C158_defined",
    "C158_nothing_left_refuted"
   ],
   "note": ""
  },
  {
   "property": "C159",
   "status": "proved",
   "theorems": [
    "C159_required_kept",
    "C159_any_function",
    "C159_part_refuted",
    "C159_switch_refuted",
    "C159_loop_refuted"
   ],
   "note": ""
  },
  {
   "property": "C160",
   "status": "proved",
   "theorems": [
    "C160_symbols_gone",
    "C160_rest_kept",
    "C160_symbols_not_compared",
    "C160_works",
    "C160_declared_refuted",
    "C160_used_refuted",
    "C160_shared_refuted",
    "C160_uses_refuted"
   ],
   "note": ""
  },
  {
   "property": "C161",
   "status": "proved",
   "theorems": [
    "C161_floats",
    "C161_compared",
    "C161_patterns",
    "C161_assembly",
    "C161_symmetric",
    "C161_same_refuted",
    "C161_patterns_refuted"
   ],
   "note": ""
  },
  {
   "property": "C162",
   "status": "proved",
   "theorems": [
    "C162_file_loaded",
    "C162_all_loaded",
    "C162_some_loaded",
    "C162_capitals_refuted",
    "C162_keys_refuted",
    "C162_unsupported_refuted"
   ],
   "note": ""
  },
  {
   "property": "C163",
   "status": "proved",
   "theorems": [
    "C163_access",
    "C163_function",
    "C163_unprepared",
    "C163_function_refuted",
    "C163_once",
    "C163_own",
    "C163_kept",
    "C163_released",
    "C163_seen",
    "C163_seen_function",
    "C163_seen_table",
    "C163_loaded",
    "C163_functions",
    "C163_equal",
    "C163_arrays",
    "C163_arrays_refuted"
   ],
   "note": ""
  },
  {
   "property": "C164",
   "status": "proved",
   "theorems": [
    "C164_names",
    "C164_verdict",
    "C164_equal",
    "C164_inside",
    "C164_all_inside",
    "C164_function",
    "C164_second_refuted",
    "C164_use_refuted",
    "C164_error_refuted",
    "C164_shown_refuted"
   ],
   "note": ""
  },
  {
   "property": "C165",
   "status": "proved",
   "theorems": [
    "C165_call",
    "C165_same",
    "C165_void",
    "C165_arguments_refuted",
    "C165_tail",
    "C165_function",
    "C165_function_refuted"
   ],
   "note": ""
  }
 ]
}