{
 "claims": [
  {
   "property": "C01",
   "status": "proved",
   "theorems": [
    "C01_table_pointwise",
    "C01_map_pointwise",
    "C01_order_independent"
   ],
   "note": ""
  },
  {
   "property": "C02",
   "status": "proved",
   "theorems": [
    "C02_positions_exact",
    "C02_map_positions_exact"
   ],
   "note": ""
  },
  {
   "property": "C03",
   "status": "proved",
   "theorems": [
    "C03_positions_replay"
   ],
   "note": ""
  },
  {
   "property": "C04",
   "status": "proved",
   "theorems": [
    "C04_last_item_wins"
   ],
   "note": ""
  },
  {
   "property": "C05",
   "status": "proved",
   "theorems": [
    "C05_builds_iff_no_empty",
    "C05_chanoma_panics_iff"
   ],
   "note": ""
  },
  {
   "property": "C06",
   "status": "proved",
   "theorems": [
    "C06_idempotent_iff"
   ],
   "note": ""
  },
  {
   "property": "C07",
   "status": "proved",
   "theorems": [
    "C07_preset_builds",
    "C07_preset_exact"
   ],
   "note": ""
  },
  {
   "property": "C08",
   "status": "proved",
   "theorems": [
    "C08_preset_idempotent"
   ],
   "note": ""
  },
  {
   "property": "C09",
   "status": "proved",
   "theorems": [
    "C09_halfwidth_unchanged",
    "C09_output_fullwidth_refuted"
   ],
   "note": ""
  },
  {
   "property": "C10",
   "status": "proved",
   "theorems": [
    "C10_elimination_exact",
    "C10_elimination_multiplicity",
    "C10_elimination_set_only",
    "C10_elimination_idempotent"
   ],
   "note": ""
  },
  {
   "property": "C11",
   "status": "proved",
   "theorems": [
    "C11_reduction_exact",
    "C11_reduction_stable"
   ],
   "note": ""
  },
  {
   "property": "C12",
   "status": "proved",
   "theorems": [
    "C12_reduction_texts_agree"
   ],
   "note": ""
  },
  {
   "property": "C13",
   "status": "proved",
   "theorems": [
    "C13_one_position_per_run"
   ],
   "note": ""
  },
  {
   "property": "C14",
   "status": "proved",
   "theorems": [
    "C14_positions_exact",
    "C14_positions_locate_run_refuted"
   ],
   "note": ""
  },
  {
   "property": "C15",
   "status": "proved",
   "theorems": [
    "C15_dotted_exact"
   ],
   "note": ""
  },
  {
   "property": "C16",
   "status": "proved",
   "theorems": [
    "C16_dotted_shape",
    "C16_dotted_fixpoints",
    "C16_dotted_subsumes"
   ],
   "note": ""
  },
  {
   "property": "C17",
   "status": "proved",
   "theorems": [
    "C17_trim_exact"
   ],
   "note": ""
  },
  {
   "property": "C18",
   "status": "proved",
   "theorems": [
    "C18_trim_positions_exact",
    "C18_trim_positions_replay"
   ],
   "note": ""
  },
  {
   "property": "C19",
   "status": "proved",
   "theorems": [
    "C19_trim_index_is_byte_offset",
    "C19_conversion_index_is_byte_offset_refuted",
    "C19_conversion_index_is_char_index",
    "C19_reduction_index_is_byte_offset_refuted"
   ],
   "note": ""
  },
  {
   "property": "C20",
   "status": "proved",
   "theorems": [
    "C20_single_exact",
    "C20_empty_key"
   ],
   "note": ""
  },
  {
   "property": "C21",
   "status": "proved",
   "theorems": [
    "C21_simultaneous"
   ],
   "note": ""
  },
  {
   "property": "C22",
   "status": "proved",
   "theorems": [
    "C22_outcomes_exact",
    "C22_order_independent_refuted",
    "C22_overlap_order_refuted"
   ],
   "note": ""
  },
  {
   "property": "C23",
   "status": "proved",
   "theorems": [
    "C23_variants_agree"
   ],
   "note": ""
  },
  {
   "property": "C24",
   "status": "proved",
   "theorems": [
    "C24_builds",
    "C24_exact",
    "C24_order_independent"
   ],
   "note": ""
  },
  {
   "property": "C25",
   "status": "proved",
   "theorems": [
    "C25_shape"
   ],
   "note": ""
  },
  {
   "property": "C26",
   "status": "proved",
   "theorems": [
    "C26_second_pass_collapses",
    "C26_third_pass_same",
    "C26_fixpoints_exact",
    "C26_stable_iff",
    "C26_stable_without_gaps",
    "C26_idempotent_refuted"
   ],
   "note": ""
  },
  {
   "property": "C27",
   "status": "proved",
   "theorems": [
    "C27_single_character",
    "C27_map_exact",
    "C27_functional"
   ],
   "note": ""
  },
  {
   "property": "C28",
   "status": "proved",
   "theorems": [
    "C28_map_exact",
    "C28_pair_composed",
    "C28_other_pairs_kept"
   ],
   "note": ""
  },
  {
   "property": "C29",
   "status": "proved",
   "theorems": [
    "C29_no_positions",
    "C29_positions_account_refuted"
   ],
   "note": ""
  },
  {
   "property": "C30",
   "status": "proved",
   "theorems": [
    "C30_calls_in_order",
    "C30_concatenation_composes",
    "C30_empty_identity",
    "C30_constructors",
    "C30_calls_panic_iff"
   ],
   "note": ""
  },
  {
   "property": "C31",
   "status": "proved",
   "theorems": [
    "C31_records_every_stage",
    "C31_calls_constructible"
   ],
   "note": ""
  },
  {
   "property": "C32",
   "status": "proved",
   "theorems": [
    "C32_log_level",
    "C32_text_panics_iff",
    "C32_log_level_irrelevant_refuted"
   ],
   "note": ""
  },
  {
   "property": "C33",
   "status": "proved",
   "theorems": [
    "C33_add_is_sorted_union",
    "C33_add_algebra"
   ],
   "note": ""
  },
  {
   "property": "C34",
   "status": "proved",
   "theorems": [
    "C34_sub_exact",
    "C34_other_replacement_kept"
   ],
   "note": ""
  },
  {
   "property": "C35",
   "status": "proved",
   "theorems": [
    "C35_builder_is_set",
    "C35_builder_set_determines"
   ],
   "note": ""
  },
  {
   "property": "C36",
   "status": "proved",
   "theorems": [
    "C36_greatest_item_decides",
    "C36_history_independent"
   ],
   "note": ""
  },
  {
   "property": "C37",
   "status": "proved",
   "theorems": [
    "C37_equality_is_list_equality",
    "C37_equality_on_sorted",
    "C37_equality_is_set_equality_refuted"
   ],
   "note": ""
  },
  {
   "property": "C38",
   "status": "proved",
   "theorems": [
    "C38_item_map_exact"
   ],
   "note": ""
  },
  {
   "property": "C39",
   "status": "proved",
   "theorems": [
    "C39_csv_loads_iff",
    "C39_csv_otherwise_error",
    "C39_unreadable_row"
   ],
   "note": ""
  },
  {
   "property": "C40",
   "status": "proved",
   "theorems": [
    "C40_export_drops_first_group",
    "C40_with_header",
    "C40_roundtrip_refuted"
   ],
   "note": ""
  },
  {
   "property": "C41",
   "status": "proved",
   "theorems": [
    "C41_yaml_roundtrip",
    "C41_builder_roundtrip"
   ],
   "note": ""
  },
  {
   "property": "C42",
   "status": "proved",
   "theorems": [
    "C42_yaml_loads_iff",
    "C42_otherwise",
    "C42_list_format_panics",
    "C42_documented_format_refuted"
   ],
   "note": ""
  },
  {
   "property": "C43",
   "status": "proved",
   "theorems": [
    "C43_loads",
    "C43_loads_if",
    "C43_first_bad_entry",
    "C43_other_failures",
    "C43_hash_order_irrelevant"
   ],
   "note": ""
  },
  {
   "property": "C44",
   "status": "proved",
   "theorems": [
    "C44_loads",
    "C44_loads_if",
    "C44_structure",
    "C44_csv_failures",
    "C44_yaml_failures",
    "C44_extension_failures",
    "C44_hash_order_irrelevant"
   ],
   "note": ""
  },
  {
   "property": "C45",
   "status": "proved",
   "theorems": [
    "C45_chanomarc",
    "C45_rest_ignored",
    "C45_yml_refuted"
   ],
   "note": ""
  },
  {
   "property": "C46",
   "status": "proved",
   "theorems": [
    "C46_search_order",
    "C46_effect",
    "C46_first_failure",
    "C46_no_file",
    "C46_yml_refuted"
   ],
   "note": ""
  },
  {
   "property": "C47",
   "status": "proved",
   "theorems": [
    "C47_home_applied_twice",
    "C47_applied_once_refuted"
   ],
   "note": ""
  },
  {
   "property": "C48",
   "status": "proved",
   "theorems": [
    "C48_csv_iff",
    "C48_yaml_iff",
    "C48_errors",
    "C48_extension_unique",
    "C48_print_parse"
   ],
   "note": ""
  },
  {
   "property": "C49",
   "status": "proved",
   "theorems": [
    "C49_candidates",
    "C49_candidates_recognised"
   ],
   "note": ""
  },
  {
   "property": "C50",
   "status": "proved",
   "theorems": [
    "C50_parses",
    "C50_parses_iff",
    "C50_error_iff",
    "C50_panics_iff",
    "C50_written_reducer",
    "C50_written_eliminator",
    "C50_written_converter",
    "C50_eliminator_keeps_separators",
    "C50_no_value"
   ],
   "note": ""
  },
  {
   "property": "C51",
   "status": "proved",
   "theorems": [
    "C51_printed_iff",
    "C51_panics_iff",
    "C51_stdin_error_iff",
    "C51_never_error",
    "C51_crlf_refuted"
   ],
   "note": ""
  },
  {
   "property": "C52",
   "status": "proved",
   "theorems": [
    "C52_constructor_effect",
    "C52_constructor_outcomes",
    "C52_table_union",
    "C52_table_outcomes",
    "C52_table_add"
   ],
   "note": ""
  },
  {
   "property": "C53",
   "status": "proved",
   "theorems": [
    "C53_injective",
    "C53_order",
    "C53_prefix",
    "C53_replace",
    "C53_algorithms_on_bytes",
    "C53_lengths"
   ],
   "note": ""
  },
  {
   "property": "C54",
   "status": "proved",
   "theorems": [
    "C54_block_covered",
    "C54_conflict_only_33A3",
    "C54_converter_cuts",
    "C54_expanded_refuted"
   ],
   "note": ""
  },
  {
   "property": "C55",
   "status": "proved",
   "theorems": [
    "C55_equivalence",
    "C55_total_preorder",
    "C55_equal_refuted",
    "C55_sorted",
    "C55_sorted_order_independent"
   ],
   "note": ""
  },
  {
   "property": "C56",
   "status": "proved",
   "theorems": [
    "C56_empty_string_panics",
    "C56_single_characters_exact",
    "C56_whole_strings_refuted"
   ],
   "note": ""
  },
  {
   "property": "C57",
   "status": "proved",
   "theorems": [
    "C57_cjk_against_unicode",
    "C57_cjk_is_nfkc_refuted"
   ],
   "note": ""
  },
  {
   "property": "C58",
   "status": "proved",
   "theorems": [
    "C58_from_csv_path",
    "C58_from_yaml_path",
    "C58_no_canonical_path",
    "C58_add_from_csv",
    "C58_add_from_yaml",
    "C58_add_failures",
    "C58_add_commutes",
    "C58_add_twice",
    "C58_same_conversion",
    "C58_same_conversion_refuted"
   ],
   "note": ""
  },
  {
   "property": "C59",
   "status": "proved",
   "theorems": [
    "C59_csv_output",
    "C59_yaml_output",
    "C59_deterministic",
    "C59_yaml_reload",
    "C59_csv_reload",
    "C59_csv_reload_refuted"
   ],
   "note": ""
  },
  {
   "property": "C60",
   "status": "proved",
   "theorems": [
    "C60_untouched_kept",
    "C60_untouched_exact",
    "C60_halfwidth_marks",
    "C60_halfwidth_voiced_refuted"
   ],
   "note": ""
  },
  {
   "property": "C61",
   "status": "proved",
   "theorems": [
    "C61_preset_length",
    "C61_neologdn_length",
    "C61_pipeline_length",
    "C61_ligature_longer_refuted",
    "C61_converter_bytes_refuted"
   ],
   "note": ""
  },
  {
   "property": "C62",
   "status": "proved",
   "theorems": [
    "C62_preset_then_neologdn",
    "C62_commute",
    "C62_preset_after_neologdn",
    "C62_neologdn_includes_preset_refuted"
   ],
   "note": ""
  },
  {
   "property": "C63",
   "status": "proved",
   "theorems": [
    "C63_separated",
    "C63_concatenation",
    "C63_concatenation_refuted"
   ],
   "note": ""
  },
  {
   "property": "C64",
   "status": "proved",
   "theorems": [
    "C64_order_independent",
    "C64_calls"
   ],
   "note": ""
  },
  {
   "property": "C65",
   "status": "proved",
   "theorems": [
    "C65_preset_ascii",
    "C65_neologdn_ascii"
   ],
   "note": ""
  },
  {
   "property": "C66",
   "status": "proved",
   "theorems": [
    "C66_items_or_converter",
    "C66_ambiguous_refuted",
    "C66_beside_modifiers_refuted"
   ],
   "note": ""
  },
  {
   "property": "C67",
   "status": "proved",
   "theorems": [
    "C67_texts_differ",
    "C67_path_shown",
    "C67_any_path_shown",
    "C67_messages",
    "C67_config_file_errors",
    "C67_config_file_errors_if",
    "C67_load_rc_errors",
    "C67_not_exist_exact",
    "C67_not_exist_refuted",
    "C67_no_modifier_refuted",
    "C67_missing_files",
    "C67_python_text"
   ],
   "note": ""
  },
  {
   "property": "C68",
   "status": "proved",
   "theorems": [
    "C68_contents",
    "C68_add_sets",
    "C68_preset_iff",
    "C68_cjk_expanded_refuted"
   ],
   "note": ""
  },
  {
   "property": "C69",
   "status": "proved",
   "theorems": [
    "C69_text_loads",
    "C69_rows_unique",
    "C69_same_rows_same_table"
   ],
   "note": ""
  },
  {
   "property": "C70",
   "status": "proved",
   "theorems": [
    "C70_never_panics",
    "C70_text_loads",
    "C70_read_error",
    "C70_records_before_failure",
    "C70_utf8_iff"
   ],
   "note": ""
  },
  {
   "property": "C71",
   "status": "proved",
   "theorems": [
    "C71_export_text",
    "C71_reload",
    "C71_with_header",
    "C71_tool_prints",
    "C71_tool_reload"
   ],
   "note": ""
  },
  {
   "property": "C72",
   "status": "proved",
   "theorems": [
    "C72_within_text",
    "C72_range_within_refuted",
    "C72_ascii_offsets"
   ],
   "note": ""
  },
  {
   "property": "C73",
   "status": "proved",
   "theorems": [
    "C73_accepted_iff",
    "C73_order_irrelevant",
    "C73_any_text_escaped",
    "C73_text_alone_iff",
    "C73_hyphen_text_refuted"
   ],
   "note": ""
  },
  {
   "property": "C74",
   "status": "proved",
   "theorems": [
    "C74_output_iff",
    "C74_other_results",
    "C74_rest_ignored",
    "C74_argument_ignores_stdin"
   ],
   "note": ""
  },
  {
   "property": "C75",
   "status": "proved",
   "theorems": [
    "C75_convert_convert",
    "C75_convert_eliminate",
    "C75_convert_reduce",
    "C75_convert_trim",
    "C75_convert_dotted",
    "C75_always",
    "C75_eliminate_reduce",
    "C75_eliminate_trim",
    "C75_eliminate_dotted",
    "C75_reduce_dotted",
    "C75_order_refuted"
   ],
   "note": ""
  },
  {
   "property": "C76",
   "status": "proved",
   "theorems": [
    "C76_origin",
    "C76_introduces_exact",
    "C76_text_stays_text",
    "C76_left_alone"
   ],
   "note": ""
  },
  {
   "property": "C77",
   "status": "proved",
   "theorems": [
    "C77_equal_iff",
    "C77_equivalence",
    "C77_equal_alike",
    "C77_alike_equal",
    "C77_alike_equal_refuted",
    "C77_ligature_equal_refuted",
    "C77_all_proper",
    "C77_lists_equal_iff",
    "C77_lists_equal_alike",
    "C77_reload_equal",
    "C77_yaml_order",
    "C77_yaml_map_order"
   ],
   "note": ""
  },
  {
   "property": "C78",
   "status": "proved",
   "theorems": [
    "C78_run_allowed",
    "C78_all_possible",
    "C78_effect_unique",
    "C78_later_irrelevant"
   ],
   "note": ""
  },
  {
   "property": "C79",
   "status": "proved",
   "theorems": [
    "C79_accepted_iff",
    "C79_any_value",
    "C79_at_most_once",
    "C79_prints",
    "C79_deterministic",
    "C79_redirected",
    "C79_unknown_refused_refuted"
   ],
   "note": ""
  },
  {
   "property": "C80",
   "status": "proved",
   "theorems": [
    "C80_result_unchanged",
    "C80_quiet",
    "C80_log_exact",
    "C80_every_log_possible",
    "C80_last_record_printed"
   ],
   "note": ""
  },
  {
   "property": "C81",
   "status": "proved",
   "theorems": [
    "C81_file",
    "C81_file_if",
    "C81_search",
    "C81_search_if",
    "C81_env_iff",
    "C81_env",
    "C81_unchanged",
    "C81_vanished",
    "C81_first_failure",
    "C81_csv_not_mixed",
    "C81_one_part_changed",
    "C81_mixture_refuted"
   ],
   "note": ""
  },
  {
   "property": "C82",
   "status": "proved",
   "theorems": [
    "C82_neologdn",
    "C82_conversion",
    "C82_preset",
    "C82_elimination",
    "C82_reduction",
    "C82_trimming",
    "C82_dotted",
    "C82_ligatures"
   ],
   "note": ""
  },
  {
   "property": "C83",
   "status": "proved",
   "theorems": [
    "C83_normal_form",
    "C83_conversions",
    "C83_eliminations",
    "C83_single_characters_decide"
   ],
   "note": ""
  },
  {
   "property": "C84",
   "status": "proved",
   "theorems": [
    "C84_stage",
    "C84_conversion_any_order",
    "C84_pipeline",
    "C84_determined",
    "C84_elimination_hidden",
    "C84_dotted_hidden",
    "C84_ligatures_hidden",
    "C84_neologdn_hidden"
   ],
   "note": ""
  },
  {
   "property": "C85",
   "status": "proved",
   "theorems": [
    "C85_csv_example",
    "C85_covers_preset_refuted",
    "C85_squares_refuted",
    "C85_same_pairs",
    "C85_yaml_example_panics",
    "C85_before_neologdn",
    "C85_before_neologdn_always_refuted"
   ],
   "note": ""
  },
  {
   "property": "C86",
   "status": "proved",
   "theorems": [
    "C86_many",
    "C86_more_stages",
    "C86_conversion",
    "C86_preset",
    "C86_conversion_kernel",
    "C86_elimination",
    "C86_reduction",
    "C86_trimming",
    "C86_dotted",
    "C86_ligatures",
    "C86_neologdn"
   ],
   "note": ""
  },
  {
   "property": "C87",
   "status": "proved",
   "theorems": [
    "C87_printed",
    "C87_printed_once",
    "C87_roundtrip",
    "C87_tool_prints",
    "C87_tool_reload"
   ],
   "note": ""
  },
  {
   "property": "C88",
   "status": "proved",
   "theorems": [
    "C88_readme_modifiers",
    "C88_items_text",
    "C88_no_text_panics",
    "C88_readme_items_panics",
    "C88_example_panics",
    "C88_test_yaml",
    "C88_python_test_yaml"
   ],
   "note": ""
  },
  {
   "property": "C89",
   "status": "proved",
   "theorems": [
    "C89_endings",
    "C89_status",
    "C89_help_first",
    "C89_success_refuted",
    "C89_output_tool"
   ],
   "note": ""
  },
  {
   "property": "C90",
   "status": "proved",
   "theorems": [
    "C90_yaml_exactly",
    "C90_shape",
    "C90_csv_exactly",
    "C90_rc_shape",
    "C90_rc_exactly",
    "C90_each_kind_once",
    "C90_every_pipeline_refuted"
   ],
   "note": ""
  },
  {
   "property": "C91",
   "status": "proved",
   "theorems": [
    "C91_reader",
    "C91_reads",
    "C91_effect",
    "C91_layout_irrelevant",
    "C91_every_value",
    "C91_every_pipeline"
   ],
   "note": ""
  },
  {
   "property": "C92",
   "status": "proved",
   "theorems": [
    "C92_run_allowed",
    "C92_all_possible",
    "C92_determined",
    "C92_failure_changes_nothing",
    "C92_other_calls_irrelevant",
    "C92_failure_kinds",
    "C92_removing_nothing_refuted"
   ],
   "note": ""
  },
  {
   "property": "C93",
   "status": "proved",
   "theorems": [
    "C93_passes_exist",
    "C93_three_passes",
    "C93_without_elimination",
    "C93_without_dotted",
    "C93_reductions_and_trims",
    "C93_two_passes_refuted",
    "C93_one_pass_without_elimination_refuted",
    "C93_one_pass_without_dotted_refuted",
    "C93_settled_iff",
    "C93_settled_iff_refuted",
    "C93_built_in",
    "C93_built_in_one_pass",
    "C93_conversion_passes_refuted",
    "C93_conversion_cycle_refuted",
    "C93_ligature_growth_refuted"
   ],
   "note": ""
  },
  {
   "property": "C94",
   "status": "proved",
   "theorems": [
    "C94_returned",
    "C94_reliable",
    "C94_short",
    "C94_no_room",
    "C94_beginning",
    "C94_dropped_refuted",
    "C94_recovering_refuted",
    "C94_cut",
    "C94_cut_export",
    "C94_cut_refuted",
    "C94_stdout",
    "C94_no_output",
    "C94_status_reliable",
    "C94_status_incomplete_refuted",
    "C94_any_cut",
    "C94_given_back",
    "C94_again",
    "C94_printed",
    "C94_nothing_printed",
    "C94_printed_cut"
   ],
   "note": ""
  },
  {
   "property": "C95",
   "status": "proved",
   "theorems": [
    "C95_found",
    "C95_found_iff",
    "C95_preset",
    "C95_early_trim_refuted",
    "C95_ligature_refuted",
    "C95_neologdn_found",
    "C95_ordinary",
    "C95_neologdn_found_refuted",
    "C95_neologdn_match"
   ],
   "note": ""
  },
  {
   "property": "C96",
   "status": "proved",
   "theorems": [
    "C96_line_read",
    "C96_log_read",
    "C96_printed",
    "C96_grammar_read",
    "C96_output_from_log",
    "C96_one_line",
    "C96_text_verbatim"
   ],
   "note": ""
  },
  {
   "property": "C97",
   "status": "proved",
   "theorems": [
    "C97_stays_local",
    "C97_presets",
    "C97_few_changes",
    "C97_exact",
    "C97_trim_refuted",
    "C97_ligature_refuted",
    "C97_ligatures",
    "C97_ligatures_exact"
   ],
   "note": ""
  },
  {
   "property": "C98",
   "status": "proved",
   "theorems": [
    "C98_neologdn_narrowing_commutes",
    "C98_preset_is_width",
    "C98_same_decomposition",
    "C98_same_decomposition_exact",
    "C98_narrowing_commutes",
    "C98_after_narrowing",
    "C98_all_widths_refuted",
    "C98_neologdn_refuted"
   ],
   "note": ""
  },
  {
   "property": "C99",
   "status": "proved",
   "theorems": [
    "C99_renaming",
    "C99_exact",
    "C99_ligature_exact_refuted",
    "C99_letter_case",
    "C99_ascii_case_refuted"
   ],
   "note": ""
  },
  {
   "property": "C100",
   "status": "proved",
   "theorems": [
    "C100_printed",
    "C100_ends",
    "C100_deterministic",
    "C100_read",
    "C100_one_line",
    "C100_names_chanomarc",
    "C100_missing",
    "C100_names_file_refuted"
   ],
   "note": ""
  },
  {
   "property": "C101",
   "status": "proved",
   "theorems": [
    "C101_backwards",
    "C101_palindromes",
    "C101_preset",
    "C101_overlap_refuted",
    "C101_neologdn",
    "C101_neologdn_no_marks",
    "C101_neologdn_refuted"
   ],
   "note": ""
  },
  {
   "property": "C102",
   "status": "proved",
   "theorems": [
    "C102_single",
    "C102_empty_key",
    "C102_map",
    "C102_bound",
    "C102_exponential"
   ],
   "note": ""
  },
  {
   "property": "C103",
   "status": "proved",
   "theorems": [
    "C103_behind",
    "C103_before",
    "C103_behind_neologdn",
    "C103_before_neologdn",
    "C103_part_of_neologdn",
    "C103_anywhere"
   ],
   "note": ""
  },
  {
   "property": "C104",
   "status": "proved",
   "theorems": [
    "C104_same",
    "C104_file",
    "C104_load",
    "C104_from_str",
    "C104_cli",
    "C104_places"
   ],
   "note": ""
  },
  {
   "property": "C105",
   "status": "proved",
   "theorems": [
    "C105_elimination",
    "C105_reduction",
    "C105_dotted",
    "C105_trimming",
    "C105_conversion",
    "C105_chain_refuted",
    "C105_preset",
    "C105_ligatures",
    "C105_overlap_refuted",
    "C105_neologdn"
   ],
   "note": ""
  },
  {
   "property": "C106",
   "status": "proved",
   "theorems": [
    "C106_extends",
    "C106_piecewise",
    "C106_neologdn",
    "C106_trim_refuted"
   ],
   "note": ""
  },
  {
   "property": "C107",
   "status": "proved",
   "theorems": [
    "C107_laws",
    "C107_value",
    "C107_decided"
   ],
   "note": ""
  },
  {
   "property": "C108",
   "status": "proved",
   "theorems": [
    "C108_short",
    "C108_finite",
    "C108_decidable",
    "C108_idempotent",
    "C108_exchange",
    "C108_no_fixed_length_refuted"
   ],
   "note": ""
  },
  {
   "property": "C109",
   "status": "proved",
   "theorems": [
    "C109_cut",
    "C109_neologdn",
    "C109_ligatures",
    "C109_overlap_refuted",
    "C109_pipeline",
    "C109_hidden_refuted"
   ],
   "note": ""
  },
  {
   "property": "C110",
   "status": "proved",
   "theorems": [
    "C110_all_orders_show",
    "C110_short",
    "C110_compare",
    "C110_results",
    "C110_decidable",
    "C110_pairs",
    "C110_single",
    "C110_pairs_refuted"
   ],
   "note": ""
  },
  {
   "property": "C111",
   "status": "proved",
   "theorems": [
    "C111_file",
    "C111_load",
    "C111_process",
    "C111_each_place"
   ],
   "note": ""
  },
  {
   "property": "C112",
   "status": "proved",
   "theorems": [
    "C112_conversion",
    "C112_elimination",
    "C112_others",
    "C112_pipeline",
    "C112_undone",
    "C112_undone_only",
    "C112_presets",
    "C112_ligature",
    "C112_short_key",
    "C112_long_key_refuted",
    "C112_stages_refuted",
    "C112_key_in_front",
    "C112_key_at_end",
    "C112_key_at_end_refuted",
    "C112_key_in_front_undone",
    "C112_empty_key_undone_refuted"
   ],
   "note": ""
  },
  {
   "property": "C113",
   "status": "proved",
   "theorems": [
    "C113_what_is_left",
    "C113_three",
    "C113_finite",
    "C113_idempotent",
    "C113_exchange",
    "C113_two_refuted",
    "C113_trims_refuted",
    "C113_dotted_refuted"
   ],
   "note": ""
  },
  {
   "property": "C114",
   "status": "proved",
   "theorems": [
    "C114_first_line",
    "C114_failure",
    "C114_message",
    "C114_status",
    "C114_joined",
    "C114_built_in",
    "C114_unchanged_refuted",
    "C114_status_refuted"
   ],
   "note": ""
  },
  {
   "property": "C115",
   "status": "proved",
   "theorems": [
    "C115_loads",
    "C115_effect",
    "C115_same_iff",
    "C115_append",
    "C115_exchange",
    "C115_leave_out",
    "C115_any_order",
    "C115_two_files",
    "C115_two_files_refuted",
    "C115_fewest",
    "C115_twice",
    "C115_undo",
    "C115_undo_moves",
    "C115_settles",
    "C115_settles_after",
    "C115_settles_tight"
   ],
   "note": ""
  },
  {
   "property": "C116",
   "status": "proved",
   "theorems": [
    "C116_in_order",
    "C116_places",
    "C116_no_reordering",
    "C116_ligatures_refuted",
    "C116_neologdn"
   ],
   "note": ""
  },
  {
   "property": "C117",
   "status": "proved",
   "theorems": [
    "C117_as_csv",
    "C117_loads",
    "C117_effect",
    "C117_same_iff",
    "C117_every_csv",
    "C117_order_refuted"
   ],
   "note": ""
  }
 ]
}