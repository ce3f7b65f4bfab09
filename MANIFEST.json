{
 "claims": [
  {
   "property": "C01",
   "status": "proved",
   "theorems": [
    "C01_sha1_standard",
    "C01_content_addressed",
    "C01_content_addressed_fresh"
   ],
   "note": ""
  },
  {
   "property": "C02",
   "status": "proved",
   "theorems": [
    "C02_recorded_readable",
    "C02_nothing_invented",
    "C02_frame"
   ],
   "note": ""
  },
  {
   "property": "C03",
   "status": "proved",
   "theorems": [
    "C03_order_and_multiplicity",
    "C03_idempotent"
   ],
   "note": ""
  },
  {
   "property": "C04",
   "status": "proved",
   "theorems": [
    "C04_concurrent_intact",
    "C04_no_failure",
    "C04_progress",
    "C04_frame"
   ],
   "note": ""
  },
  {
   "property": "C05",
   "status": "proved",
   "theorems": [
    "C05_killed_leaves_prefix",
    "C05_atomic_refuted",
    "C05_concurrent_prefix_refuted",
    "C05_concurrent_bytes",
    "C05_recording_again_repairs"
   ],
   "note": ""
  },
  {
   "property": "C06",
   "status": "proved",
   "theorems": [
    "C06_name",
    "C06_name_distinct",
    "C06_not_skipped"
   ],
   "note": ""
  },
  {
   "property": "C07",
   "status": "proved",
   "theorems": [
    "C07_directories_agree"
   ],
   "note": ""
  },
  {
   "property": "C08",
   "status": "proved",
   "theorems": [
    "C08_directories_disagree",
    "C08_directories_agree_refuted"
   ],
   "note": ""
  },
  {
   "property": "C09",
   "status": "proved",
   "theorems": [
    "C09_directories_disjoint",
    "C09_output_subdirectories",
    "C09_crate_names_distinct_refuted",
    "C09_layout"
   ],
   "note": ""
  },
  {
   "property": "C10",
   "status": "proved",
   "theorems": [
    "C10_ids_disjoint",
    "C10_id_source",
    "C10_thread_id"
   ],
   "note": ""
  },
  {
   "property": "C11",
   "status": "proved",
   "theorems": [
    "C11_targets_exact",
    "C11_listings_cover_all_outputs",
    "C11_targets_invalid",
    "C11_listing_targets_unique"
   ],
   "note": ""
  },
  {
   "property": "C12",
   "status": "proved",
   "theorems": [
    "C12_filter_exact"
   ],
   "note": ""
  },
  {
   "property": "C13",
   "status": "proved",
   "theorems": [
    "C13_executables",
    "C13_asked",
    "C13_flatten_exact"
   ],
   "note": ""
  },
  {
   "property": "C14",
   "status": "proved",
   "theorems": [
    "C14_round_trip",
    "C14_round_trip_sticky"
   ],
   "note": ""
  },
  {
   "property": "C15",
   "status": "proved",
   "theorems": [
    "C15_injective",
    "C15_same_file"
   ],
   "note": ""
  },
  {
   "property": "C16",
   "status": "proved",
   "theorems": [
    "C16_well_typed",
    "C16_total",
    "C16_total_recursive",
    "C16_extension",
    "C16_deeper_stack",
    "C16_extension_refuted",
    "C16_recursion_refuted",
    "C16_huge_value_refuted"
   ],
   "note": ""
  },
  {
   "property": "C17",
   "status": "proved",
   "theorems": [
    "C17_long_string_lost",
    "C17_boundary_exact"
   ],
   "note": ""
  },
  {
   "property": "C18",
   "status": "proved",
   "theorems": [
    "C18_round_trip",
    "C18_injective",
    "C18_decoding_total",
    "C18_encoding_within_limit_refuted"
   ],
   "note": ""
  },
  {
   "property": "C19",
   "status": "proved",
   "theorems": [
    "C19_recorded",
    "C19_kept",
    "C19_replayed",
    "C19_fuzzed",
    "C19_end_to_end"
   ],
   "note": ""
  },
  {
   "property": "C20",
   "status": "proved",
   "theorems": [
    "C20_round_trip",
    "C20_unique",
    "C20_call",
    "C20_typed_receiver_refuted",
    "C20_mut_self_refuted",
    "C20_pattern_refuted",
    "C20_wildcard_refuted",
    "C20_parenthesised_refuted"
   ],
   "note": ""
  },
  {
   "property": "C21",
   "status": "proved",
   "theorems": [
    "C21_exact",
    "C21_last_conversion",
    "C21_attributed",
    "C21_reference_refuted"
   ],
   "note": ""
  },
  {
   "property": "C22",
   "status": "proved",
   "theorems": [
    "C22_names",
    "C22_distinct",
    "C22_shown",
    "C22_user_clash_refuted",
    "C22_wrap_refuted"
   ],
   "note": ""
  },
  {
   "property": "C23",
   "status": "proved",
   "theorems": [
    "C23_rule",
    "C23_stem_unique",
    "C23_collision_exact",
    "C23_collision_cases",
    "C23_discovered",
    "C23_distinct_targets_refuted"
   ],
   "note": ""
  },
  {
   "property": "C24",
   "status": "proved",
   "theorems": [
    "C24_items",
    "C24_second_attribute_refuted",
    "C24_function"
   ],
   "note": ""
  },
  {
   "property": "C25",
   "status": "proved",
   "theorems": [
    "C25_only_before_lists",
    "C25_every_occurrence",
    "C25_already_done",
    "C25_self_type",
    "C25_no_arguments",
    "C25_changed_list_refuted",
    "C25_second_colons_refuted",
    "C25_not_a_list_refuted"
   ],
   "note": ""
  },
  {
   "property": "C26",
   "status": "proved",
   "theorems": [
    "C26_replaced",
    "C26_eliminated",
    "C26_unchanged",
    "C26_inherent",
    "C26_associated_arguments_refuted",
    "C26_array_length_refuted"
   ],
   "note": ""
  },
  {
   "property": "C27",
   "status": "proved",
   "theorems": [
    "C27_assigned_from_the_right",
    "C27_too_many",
    "C27_substitution",
    "C27_substitution_rejected",
    "C27_parameter_gone",
    "C27_lifetimes_completed",
    "C27_order_exact",
    "C27_order_refuted",
    "C27_constant_refuted",
    "C27_combined"
   ],
   "note": ""
  },
  {
   "property": "C28",
   "status": "proved",
   "theorems": [
    "C28_inert"
   ],
   "note": ""
  },
  {
   "property": "C29",
   "status": "proved",
   "theorems": [
    "C29_display_never_calls",
    "C29_display_shows"
   ],
   "note": ""
  },
  {
   "property": "C30",
   "status": "proved",
   "theorems": [
    "C30_called_once",
    "C30_panic",
    "C30_coverage_warning",
    "C30_returns"
   ],
   "note": ""
  },
  {
   "property": "C31",
   "status": "proved",
   "theorems": [
    "C31_records_then_runs",
    "C31_recording_failure_panics_first",
    "C31_transparent"
   ],
   "note": ""
  },
  {
   "property": "C32",
   "status": "proved",
   "theorems": [
    "C32_production_off",
    "C32_production_on",
    "C32_test_build_ignores_write"
   ],
   "note": ""
  },
  {
   "property": "C33",
   "status": "proved",
   "theorems": [
    "C33_entries_never_record",
    "C33_fuzzing_never_records"
   ],
   "note": ""
  },
  {
   "property": "C34",
   "status": "proved",
   "theorems": [
    "C34_modes_as_asked",
    "C34_modes_as_asked_refuted"
   ],
   "note": ""
  },
  {
   "property": "C35",
   "status": "proved",
   "theorems": [
    "C35_at_most_once",
    "C35_once_iff_disabled"
   ],
   "note": ""
  },
  {
   "property": "C36",
   "status": "proved",
   "theorems": [
    "C36_every_value_used",
    "C36_only_generated_values"
   ],
   "note": ""
  },
  {
   "property": "C37",
   "status": "proved",
   "theorems": [
    "C37_count_exact"
   ],
   "note": ""
  },
  {
   "property": "C38",
   "status": "proved",
   "theorems": [
    "C38_values",
    "C38_in_range_and_middle"
   ],
   "note": ""
  },
  {
   "property": "C39",
   "status": "proved",
   "theorems": [
    "C39_all_attempted",
    "C39_words_shown",
    "C39_error_identifies",
    "C39_nothing_to_do",
    "C39_test_selected",
    "C39_generated_corpus",
    "C39_inherited_variable_refuted"
   ],
   "note": ""
  },
  {
   "property": "C40",
   "status": "proved",
   "theorems": [
    "C40_release_exact",
    "C40_symmetric",
    "C40_missing",
    "C40_prerelease_tool",
    "C40_prerelease_dependency",
    "C40_all_executables",
    "C40_first_error"
   ],
   "note": ""
  },
  {
   "property": "C41",
   "status": "proved",
   "theorems": [
    "C41_hint_exact",
    "C41_hint_text",
    "C41_all_hints",
    "C41_prerelease_tool",
    "C41_hint_means_newer_refuted"
   ],
   "note": ""
  },
  {
   "property": "C42",
   "status": "proved",
   "theorems": [
    "C42_one_kind",
    "C42_invalid_rejected",
    "C42_data_untouched",
    "C42_success_means_done",
    "C42_shown_targets_exact",
    "C42_built_first",
    "C42_directory_shown",
    "C42_clear_is_consolidate_or_reset",
    "C42_replay_object_ignored_refuted",
    "C42_coverage_report",
    "C42_clean_failure",
    "C42_cleared_targets",
    "C42_fuzzed_targets"
   ],
   "note": ""
  },
  {
   "property": "C43",
   "status": "proved",
   "theorems": [
    "C43_never_both",
    "C43_instrumented_exact",
    "C43_fuzzing_uses_instrumented_build"
   ],
   "note": ""
  },
  {
   "property": "C44",
   "status": "proved",
   "theorems": [
    "C44_exit_codes",
    "C44_without_exit_code",
    "C44_no_ui",
    "C44_missing_cargo_afl_refuted",
    "C44_exit_code_implies_no_ui",
    "C44_exit_code_1_exact"
   ],
   "note": ""
  },
  {
   "property": "C45",
   "status": "proved",
   "theorems": [
    "C45_arguments_exact",
    "C45_outputs_differ",
    "C45_harness_command",
    "C45_harness_command_refuted",
    "C45_timeout_overflow_panics",
    "C45_timeout_milliseconds_refuted"
   ],
   "note": ""
  },
  {
   "property": "C46",
   "status": "proved",
   "theorems": [
    "C46_exact",
    "C46_seen_by_test",
    "C46_no_finding_lost",
    "C46_crash_safe",
    "C46_succeeds",
    "C46_reset_all_wins_refuted"
   ],
   "note": ""
  },
  {
   "property": "C47",
   "status": "proved",
   "theorems": [
    "C47_failed_consolidation_removes_nothing",
    "C47_corpus_kept",
    "C47_never_fuzzed_fails",
    "C47_write_error_keeps_corpus_refuted"
   ],
   "note": ""
  },
  {
   "property": "C48",
   "status": "proved",
   "theorems": [
    "C48_reset_exact",
    "C48_reset_contained",
    "C48_others_untouched",
    "C48_reset_succeeds"
   ],
   "note": ""
  },
  {
   "property": "C49",
   "status": "proved",
   "theorems": [
    "C49_consolidate_all_crashes",
    "C49_consolidate_all_works_refuted",
    "C49_single_target_only"
   ],
   "note": ""
  },
  {
   "property": "C50",
   "status": "proved",
   "theorems": [
    "C50_each_entry_once",
    "C50_entries_exact",
    "C50_failure_stops_in_order",
    "C50_report_shape",
    "C50_arguments",
    "C50_directory",
    "C50_every_report_ends_with_newline_refuted"
   ],
   "note": ""
  },
  {
   "property": "C51",
   "status": "proved",
   "theorems": [
    "C51_summary_exact",
    "C51_failures_are_not_errors",
    "C51_error_text",
    "C51_participle"
   ],
   "note": ""
  },
  {
   "property": "C52",
   "status": "proved",
   "theorems": [
    "C52_bounded_parallelism",
    "C52_count_exact",
    "C52_events_of_running"
   ],
   "note": ""
  },
  {
   "property": "C53",
   "status": "proved",
   "theorems": [
    "C53_never_panics",
    "C53_unregistered_event_panics"
   ],
   "note": ""
  },
  {
   "property": "C54",
   "status": "proved",
   "theorems": [
    "C54_failed_never_restarted",
    "C54_failed_exactly",
    "C54_gives_up_only_if_all_failed",
    "C54_gives_up_when_all_failed",
    "C54_others_served"
   ],
   "note": ""
  },
  {
   "property": "C55",
   "status": "proved",
   "theorems": [
    "C55_first_run_exact"
   ],
   "note": ""
  },
  {
   "property": "C56",
   "status": "proved",
   "theorems": [
    "C56_cyclic",
    "C56_skip_only_if",
    "C56_fair"
   ],
   "note": ""
  },
  {
   "property": "C57",
   "status": "proved",
   "theorems": [
    "C57_progress",
    "C57_livelock",
    "C57_always_progress_refuted"
   ],
   "note": ""
  },
  {
   "property": "C58",
   "status": "proved",
   "theorems": [
    "C58_started_at_most_once",
    "C58_success_means_all_done",
    "C58_ends_when_all_done",
    "C58_starts_without_waiting"
   ],
   "note": ""
  },
  {
   "property": "C59",
   "status": "proved",
   "theorems": [
    "C59_lines_independent_of_chunks",
    "C59_every_output",
    "C59_invalid_utf8_is_error",
    "C59_read_error_is_error"
   ],
   "note": ""
  },
  {
   "property": "C60",
   "status": "proved",
   "theorems": [
    "C60_markers_exact"
   ],
   "note": ""
  },
  {
   "property": "C61",
   "status": "proved",
   "theorems": [
    "C61_truncation",
    "C61_ascii_lines_never_panic"
   ],
   "note": ""
  },
  {
   "property": "C62",
   "status": "proved",
   "theorems": [
    "C62_panics_inside_character",
    "C62_truncation_total_refuted"
   ],
   "note": ""
  },
  {
   "property": "C63",
   "status": "proved",
   "theorems": [
    "C63_divider"
   ],
   "note": ""
  },
  {
   "property": "C64",
   "status": "proved",
   "theorems": [
    "C64_panels_fill_screen",
    "C64_small_terminal"
   ],
   "note": ""
  },
  {
   "property": "C65",
   "status": "proved",
   "theorems": [
    "C65_transparent",
    "C65_alone",
    "C65_deserialise",
    "C65_round_trip",
    "C65_postcard"
   ],
   "note": ""
  },
  {
   "property": "C66",
   "status": "proved",
   "theorems": [
    "C66_course",
    "C66_guards_returned",
    "C66_unchanged",
    "C66_state_as_before_refuted",
    "C66_write_locked_refuted"
   ],
   "note": ""
  },
  {
   "property": "C67",
   "status": "proved",
   "theorems": [
    "C67_conversion_preserves",
    "C67_later_variables_win"
   ],
   "note": ""
  },
  {
   "property": "C68",
   "status": "proved",
   "theorems": [
    "C68_versions_exact",
    "C68_error_exact",
    "C68_error_text",
    "C68_executables_exact"
   ],
   "note": ""
  },
  {
   "property": "C69",
   "status": "proved",
   "theorems": [
    "C69_first_run_wins",
    "C69_single_run_own",
    "C69_stale_directory_refuted"
   ],
   "note": ""
  },
  {
   "property": "C70",
   "status": "proved",
   "theorems": [
    "C70_placeholder",
    "C70_distinct",
    "C70_debug_is_used"
   ],
   "note": ""
  },
  {
   "property": "C71",
   "status": "proved",
   "theorems": [
    "C71_every_variable",
    "C71_inside",
    "C71_itself",
    "C71_outside",
    "C71_crashes",
    "C71_quotes_inside_refuted"
   ],
   "note": ""
  },
  {
   "property": "C72",
   "status": "proved",
   "theorems": [
    "C72_recorded_text",
    "C72_displayed_once",
    "C72_nongeneric_newline_refuted",
    "C72_seen_by_test"
   ],
   "note": ""
  },
  {
   "property": "C73",
   "status": "proved",
   "theorems": [
    "C73_plan_exact",
    "C73_no_coverage"
   ],
   "note": ""
  },
  {
   "property": "C75",
   "status": "proved",
   "theorems": [
    "C75_version_exact",
    "C75_missing_is_a_panic",
    "C75_advice"
   ],
   "note": ""
  },
  {
   "property": "C76",
   "status": "proved",
   "theorems": [
    "C76_same_workspace",
    "C76_manifest_path_refuted"
   ],
   "note": ""
  },
  {
   "property": "C77",
   "status": "proved",
   "theorems": [
    "C77_instrumentation",
    "C77_stderr",
    "C77_arguments_exact"
   ],
   "note": ""
  },
  {
   "property": "C78",
   "status": "proved",
   "theorems": [
    "C78_entry_exact",
    "C78_fuzzing_build",
    "C78_ordinary_build"
   ],
   "note": ""
  },
  {
   "property": "C74",
   "status": "proved",
   "theorems": [
    "C74_console",
    "C74_attributable",
    "C74_display"
   ],
   "note": ""
  },
  {
   "property": "C79",
   "status": "proved",
   "theorems": [
    "C79_fuzzing_environment",
    "C79_entry_environment"
   ],
   "note": ""
  },
  {
   "property": "C80",
   "status": "proved",
   "theorems": [
    "C80_extends_simple_harness",
    "C80_passing_inputs_replay",
    "C80_failing_replays_crash",
    "C80_fuzzing_passes_or_aborts",
    "C80_caught_panic_aborts",
    "C80_crashes_replay_refuted"
   ],
   "note": ""
  },
  {
   "property": "C81",
   "status": "proved",
   "theorems": [
    "C81_persistent_shows_nothing",
    "C81_persistent_display_inert",
    "C81_display_shows_arguments_refuted",
    "C81_persistent_one_by_one",
    "C81_independent_inputs_refuted",
    "C81_persistent_replay_aborts"
   ],
   "note": ""
  },
  {
   "property": "C82",
   "status": "proved",
   "theorems": [
    "C82_only_decoded_arguments",
    "C82_transparent",
    "C82_never_outside"
   ],
   "note": ""
  },
  {
   "property": "C83",
   "status": "proved",
   "theorems": [
    "C83_round_trip_postcard",
    "C83_round_trip_bincode",
    "C83_same_record_exactly",
    "C83_takes_no_room"
   ],
   "note": ""
  },
  {
   "property": "C84",
   "status": "proved",
   "theorems": [
    "C84_leak_converts_iff",
    "C84_leak_argument",
    "C84_serde_ref"
   ],
   "note": ""
  },
  {
   "property": "C85",
   "status": "proved",
   "theorems": [
    "C85_exact",
    "C85_subcommand",
    "C85_order",
    "C85_fuzzer_arguments",
    "C85_no_instrumentation",
    "C85_any_flags"
   ],
   "note": ""
  },
  {
   "property": "C86",
   "status": "proved",
   "theorems": [
    "C86_fields",
    "C86_stored_unique",
    "C86_trait_path",
    "C86_call"
   ],
   "note": ""
  },
  {
   "property": "C87",
   "status": "proved",
   "theorems": [
    "C87_documented_values",
    "C87_total",
    "C87_entries",
    "C87_integers"
   ],
   "note": ""
  },
  {
   "property": "C88",
   "status": "proved",
   "theorems": [
    "C88_types_exact",
    "C88_types_refuted",
    "C88_parameters_exact",
    "C88_recorded",
    "C88_recorded_refuted",
    "C88_captured"
   ],
   "note": ""
  },
  {
   "property": "C89",
   "status": "proved",
   "theorems": [
    "C89_parallel_fuzzers",
    "C89_foreground_fuzzer",
    "C89_environment",
    "C89_configuration"
   ],
   "note": ""
  },
  {
   "property": "C90",
   "status": "proved",
   "theorems": [
    "C90_accepted_exact",
    "C90_values",
    "C90_forms",
    "C90_expansion",
    "C90_parses",
    "C90_defaults"
   ],
   "note": ""
  },
  {
   "property": "C91",
   "status": "proved",
   "theorems": [
    "C91_one_instantiation",
    "C91_result_args",
    "C91_recorded_types",
    "C91_order_refuted"
   ],
   "note": ""
  },
  {
   "property": "C92",
   "status": "proved",
   "theorems": [
    "C92_bounds_exact"
   ],
   "note": ""
  },
  {
   "property": "C93",
   "status": "proved",
   "theorems": [
    "C93_same_format",
    "C93_which_format",
    "C93_as_feature",
    "C93_mixed_formats_refuted"
   ],
   "note": ""
  },
  {
   "property": "C94",
   "status": "proved",
   "theorems": [
    "C94_retry"
   ],
   "note": ""
  },
  {
   "property": "C95",
   "status": "proved",
   "theorems": [
    "C95_log"
   ],
   "note": ""
  },
  {
   "property": "C96",
   "status": "proved",
   "theorems": [
    "C96_headings",
    "C96_narrow_terminal_refuted"
   ],
   "note": ""
  },
  {
   "property": "C97",
   "status": "proved",
   "theorems": [
    "C97_failed_build",
    "C97_silent_otherwise"
   ],
   "note": ""
  },
  {
   "property": "C98",
   "status": "proved",
   "theorems": [
    "C98_warnings",
    "C98_all_output_refuted"
   ],
   "note": ""
  },
  {
   "property": "C99",
   "status": "proved",
   "theorems": [
    "C99_limit",
    "C99_total_time",
    "C99_hangs_exact",
    "C99_limit_enforced_refuted",
    "C99_timeout_means_slow_refuted"
   ],
   "note": ""
  },
  {
   "property": "C100",
   "status": "proved",
   "theorems": [
    "C100_session_error",
    "C100_error_cause",
    "C100_no_error",
    "C100_nothing_ignored"
   ],
   "note": ""
  },
  {
   "property": "C101",
   "status": "proved",
   "theorems": [
    "C101_corpus_kept",
    "C101_recording_kept",
    "C101_finding_kept",
    "C101_shown",
    "C101_origin",
    "C101_output_kept",
    "C101_generator"
   ],
   "note": ""
  },
  {
   "property": "C102",
   "status": "proved",
   "theorems": [
    "C102_finding_safe",
    "C102_finding_kept",
    "C102_recording_intact",
    "C102_corpus_kept",
    "C102_alone",
    "C102_ambiguous",
    "C102_late_finding_refuted"
   ],
   "note": ""
  },
  {
   "property": "C103",
   "status": "proved",
   "theorems": [
    "C103_components",
    "C103_pieces",
    "C103_inside",
    "C103_inside_refuted",
    "C103_isolated",
    "C103_isolated_refuted",
    "C103_names_refuted"
   ],
   "note": ""
  },
  {
   "property": "C104",
   "status": "proved",
   "theorems": [
    "C104_reader_sees_prefix",
    "C104_reader_sees_prefix_unsplit",
    "C104_reader_complete",
    "C104_truncated_never_decodes",
    "C104_zero_padding",
    "C104_replay_race",
    "C104_zero_padding_refuted",
    "C104_two_recorders_refuted"
   ],
   "note": ""
  },
  {
   "property": "C105",
   "status": "proved",
   "theorems": [
    "C105_crash_cause",
    "C105_crash_at_once",
    "C105_no_crash"
   ],
   "note": ""
  },
  {
   "property": "C106",
   "status": "proved",
   "theorems": [
    "C106_call",
    "C106_transparent",
    "C106_attempts",
    "C106_inert"
   ],
   "note": ""
  },
  {
   "property": "C107",
   "status": "proved",
   "theorems": [
    "C107_shown",
    "C107_afterwards",
    "C107_text",
    "C107_undecoded",
    "C107_warnings",
    "C107_recorded_call"
   ],
   "note": ""
  },
  {
   "property": "C108",
   "status": "proved",
   "theorems": [
    "C108_hints",
    "C108_determined",
    "C108_reasons",
    "C108_releases"
   ],
   "note": ""
  },
  {
   "property": "C109",
   "status": "proved",
   "theorems": [
    "C109_found",
    "C109_same_verdict",
    "C109_replayed"
   ],
   "note": ""
  },
  {
   "property": "C110",
   "status": "proved",
   "theorems": [
    "C110_round_trip",
    "C110_not_recorded",
    "C110_recorded",
    "C110_always_default",
    "C110_plain",
    "C110_rebuilt",
    "C110_replayed",
    "C110_one_sided_refuted"
   ],
   "note": ""
  },
  {
   "property": "C111",
   "status": "proved",
   "theorems": [
    "C111_determined",
    "C111_exact",
    "C111_ordinary",
    "C111_layout",
    "C111_listed"
   ],
   "note": ""
  },
  {
   "property": "C112",
   "status": "proved",
   "theorems": [
    "C112_understood",
    "C112_own_tool",
    "C112_recorder",
    "C112_recorder_refusals",
    "C112_recorder_found",
    "C112_same_directories",
    "C112_apart",
    "C112_processes_refuted"
   ],
   "note": ""
  },
  {
   "property": "C113",
   "status": "proved",
   "theorems": [
    "C113_accepted",
    "C113_parts"
   ],
   "note": ""
  },
  {
   "property": "C114",
   "status": "proved",
   "theorems": [
    "C114_corpora_exist",
    "C114_foreground",
    "C114_parallel",
    "C114_recorded_is_fuzzed"
   ],
   "note": ""
  },
  {
   "property": "C115",
   "status": "proved",
   "theorems": [
    "C115_qwerty",
    "C115_assert",
    "C115_calm_and_panicky",
    "C115_cast",
    "C115_generic",
    "C115_generic_recorded"
   ],
   "note": ""
  },
  {
   "property": "C116",
   "status": "proved",
   "theorems": [
    "C116_generated",
    "C116_fuzzed",
    "C116_missing"
   ],
   "note": ""
  },
  {
   "property": "C117",
   "status": "proved",
   "theorems": [
    "C117_expansions",
    "C117_inapplicable",
    "C117_impl_trait",
    "C117_impl"
   ],
   "note": ""
  },
  {
   "property": "C118",
   "status": "proved",
   "theorems": [
    "C118_kept",
    "C118_only",
    "C118_count",
    "C118_off",
    "C118_test",
    "C118_impeded"
   ],
   "note": ""
  },
  {
   "property": "C119",
   "status": "proved",
   "theorems": [
    "C119_verdicts",
    "C119_abort",
    "C119_hook_removed",
    "C119_warning",
    "C119_broken_stderr",
    "C119_ends",
    "C119_alone",
    "C119_ordinary",
    "C119_other_test_aborts_refuted",
    "C119_two_harnesses_refuted",
    "C119_own_hook_refuted"
   ],
   "note": ""
  },
  {
   "property": "C120",
   "status": "proved",
   "theorems": [
    "C120_read",
    "C120_round_trip",
    "C120_injective",
    "C120_requirement",
    "C120_precedence",
    "C120_check",
    "C120_build_irrelevant",
    "C120_suggestion",
    "C120_cargo_afl"
   ],
   "note": ""
  },
  {
   "property": "C121",
   "status": "proved",
   "theorems": [
    "C121_scripts",
    "C121_incompatible_test_fuzz",
    "C121_prerelease_refuted",
    "C121_newer_test_fuzz",
    "C121_afl",
    "C121_uninstalled"
   ],
   "note": ""
  },
  {
   "property": "C122",
   "status": "proved",
   "theorems": [
    "C122_operators",
    "C122_prereleases",
    "C122_equal",
    "C122_exact_and_match",
    "C122_only",
    "C122_not_exact_refuted",
    "C122_text"
   ],
   "note": ""
  },
  {
   "property": "C123",
   "status": "proved",
   "theorems": [
    "C123_packages",
    "C123_requirements",
    "C123_tests",
    "C123_table_refuted",
    "C123_changelog",
    "C123_changelog_release",
    "C123_changelog_refuted"
   ],
   "note": ""
  },
  {
   "property": "C124",
   "status": "proved",
   "theorems": [
    "C124_groups",
    "C124_unique",
    "C124_sorted",
    "C124_crlf",
    "C124_crlf_refuted",
    "C124_avatars",
    "C124_compare",
    "C124_bless"
   ],
   "note": ""
  },
  {
   "property": "C125",
   "status": "proved",
   "theorems": [
    "C125_inline",
    "C125_inline_refuted",
    "C125_sorted",
    "C125_used",
    "C125_used_refuted",
    "C125_usage",
    "C125_license",
    "C125_licenses",
    "C125_license_refuted"
   ],
   "note": ""
  },
  {
   "property": "C126",
   "status": "proved",
   "theorems": [
    "C126_own_line",
    "C126_dashes",
    "C126_found",
    "C126_generic_refuted"
   ],
   "note": ""
  },
  {
   "property": "C127",
   "status": "proved",
   "theorems": [
    "C127_name",
    "C127_name_refuted",
    "C127_run",
    "C127_current",
    "C127_current_refuted",
    "C127_revisions",
    "C127_revisions_refuted"
   ],
   "note": ""
  },
  {
   "property": "C128",
   "status": "proved",
   "theorems": [
    "C128_line",
    "C128_again_refuted",
    "C128_weaker",
    "C128_compatible_refuted"
   ],
   "note": ""
  },
  {
   "property": "C129",
   "status": "proved",
   "theorems": [
    "C129_exact",
    "C129_text",
    "C129_order",
    "C129_found"
   ],
   "note": ""
  },
  {
   "property": "C130",
   "status": "proved",
   "theorems": [
    "C130_exact",
    "C130_few",
    "C130_few_refuted"
   ],
   "note": ""
  },
  {
   "property": "C131",
   "status": "proved",
   "theorems": [
    "C131_regex",
    "C131_found",
    "C131_found_refuted"
   ],
   "note": ""
  },
  {
   "property": "C132",
   "status": "proved",
   "theorems": [
    "C132_given",
    "C132_same_refuted",
    "C132_limits",
    "C132_replayed",
    "C132_mebibytes_refuted"
   ],
   "note": ""
  },
  {
   "property": "C133",
   "status": "proved",
   "theorems": [
    "C133_succeeds",
    "C133_test_job",
    "C133_tested_refuted",
    "C133_fails",
    "C133_matrix",
    "C133_full",
    "C133_queue_refuted",
    "C133_format",
    "C133_nightly",
    "C133_names"
   ],
   "note": ""
  },
  {
   "property": "C134",
   "status": "proved",
   "theorems": [
    "C134_line",
    "C134_published",
    "C134_again",
    "C134_combinators_refuted",
    "C134_version",
    "C134_ref",
    "C134_needs",
    "C134_lower",
    "C134_prerelease",
    "C134_prerelease_refuted",
    "C134_notes"
   ],
   "note": ""
  },
  {
   "property": "C135",
   "status": "proved",
   "theorems": [
    "C135_constant",
    "C135_crashes"
   ],
   "note": ""
  },
  {
   "property": "C136",
   "status": "proved",
   "theorems": [
    "C136_alike",
    "C136_grows",
    "C136_read",
    "C136_once_refuted"
   ],
   "note": ""
  },
  {
   "property": "C137",
   "status": "proved",
   "theorems": [
    "C137_corpus",
    "C137_succeeds",
    "C137_complaint",
    "C137_hangs",
    "C137_hang_found_refuted",
    "C137_crashes",
    "C137_line",
    "C137_read"
   ],
   "note": ""
  },
  {
   "property": "C138",
   "status": "proved",
   "theorems": [
    "C138_any_file",
    "C138_crash",
    "C138_hang"
   ],
   "note": ""
  },
  {
   "property": "C139",
   "status": "proved",
   "theorems": [
    "C139_display",
    "C139_replay",
    "C139_any",
    "C139_shown",
    "C139_recorded",
    "C139_unread_refuted",
    "C139_log_refuted"
   ],
   "note": ""
  },
  {
   "property": "C140",
   "status": "proved",
   "theorems": [
    "C140_passed",
    "C140_commands",
    "C140_no_run",
    "C140_more",
    "C140_updates",
    "C140_all",
    "C140_depends",
    "C140_every_refuted"
   ],
   "note": ""
  },
  {
   "property": "C141",
   "status": "proved",
   "theorems": [
    "C141_passes",
    "C141_hangs",
    "C141_retry",
    "C141_seen",
    "C141_calm_refuted"
   ],
   "note": ""
  }
 ]
}