{
 "claims": [
  {
   "property": "C01",
   "status": "proved",
   "theorems": [
    "C01_unescape_escape",
    "C01_guard_needed_panic",
    "C01_unguarded_refuted"
   ],
   "note": ""
  },
  {
   "property": "C02",
   "status": "proved",
   "theorems": [
    "C02_unescape_text_escape",
    "C02_unguarded_refuted"
   ],
   "note": ""
  },
  {
   "property": "C03",
   "status": "proved",
   "theorems": [
    "C03_escape_no_markup",
    "C03_text_escape_no_markup",
    "C03_escape_characterwise",
    "C03_escape_app"
   ],
   "note": ""
  },
  {
   "property": "C04",
   "status": "proved",
   "theorems": [
    "C04_escape_injective"
   ],
   "note": ""
  },
  {
   "property": "C05",
   "status": "proved",
   "theorems": [
    "C05_unescape_single_pass",
    "C05_decodes_function",
    "C05_unguarded_refuted",
    "C05_exact",
    "C05_replaced"
   ],
   "note": ""
  },
  {
   "property": "C06",
   "status": "proved",
   "theorems": [
    "C06_unescape_terminates",
    "C06_no_panic_ascii",
    "C06_panic_amp",
    "C06_panic_numeric",
    "C06_panic_exact"
   ],
   "note": ""
  },
  {
   "property": "C07",
   "status": "proved",
   "theorems": [
    "C07_unescape_identity",
    "C07_unescape_never_grows"
   ],
   "note": ""
  },
  {
   "property": "C08",
   "status": "proved",
   "theorems": [
    "C08_new_succeeds_iff",
    "C08_bad_element_name",
    "C08_bad_attribute_name",
    "C08_new_result",
    "C08_new_from_name",
    "C08_other_constructors"
   ],
   "note": ""
  },
  {
   "property": "C09",
   "status": "proved",
   "theorems": [
    "C09_set_attr",
    "C09_remove_attr",
    "C09_history",
    "C09_history_changes_attributes_only",
    "C09_attributes"
   ],
   "note": ""
  },
  {
   "property": "C10",
   "status": "proved",
   "theorems": [
    "C10_comment_new",
    "C10_comment_set_content",
    "C10_cdata_new",
    "C10_cdata_set_text",
    "C10_comment_history",
    "C10_cdata_history"
   ],
   "note": ""
  },
  {
   "property": "C11",
   "status": "proved",
   "theorems": [
    "C11_append_normal",
    "C11_append_all_normal",
    "C11_set_text_normal",
    "C11_insert_normal"
   ],
   "note": ""
  },
  {
   "property": "C12",
   "status": "proved",
   "theorems": [
    "C12_append_cleaned",
    "C12_cleaned_function",
    "C12_non_text_kept",
    "C12_text_kept"
   ],
   "note": ""
  },
  {
   "property": "C13",
   "status": "proved",
   "theorems": [
    "C13_append",
    "C13_append_all",
    "C13_append_all_is_iterated_append",
    "C13_blank_guard_refuted"
   ],
   "note": ""
  },
  {
   "property": "C14",
   "status": "proved",
   "theorems": [
    "C14_insert_out_of_bounds",
    "C14_insert_in_bounds"
   ],
   "note": ""
  },
  {
   "property": "C15",
   "status": "proved",
   "theorems": [
    "C15_remove_in_bounds",
    "C15_remove_out_of_bounds"
   ],
   "note": ""
  },
  {
   "property": "C16",
   "status": "proved",
   "theorems": [
    "C16_remove_by"
   ],
   "note": ""
  },
  {
   "property": "C17",
   "status": "proved",
   "theorems": [
    "C17_remove_all_pruned",
    "C17_pruned_function",
    "C17_remove_all_trails",
    "C17_remove_all_elements"
   ],
   "note": ""
  },
  {
   "property": "C18",
   "status": "proved",
   "theorems": [
    "C18_remove_element",
    "C18_remove_element_out_of_bounds",
    "C18_remove_elements",
    "C18_remove_elements_by_name"
   ],
   "note": ""
  },
  {
   "property": "C19",
   "status": "proved",
   "theorems": [
    "C19_set_text"
   ],
   "note": ""
  },
  {
   "property": "C20",
   "status": "proved",
   "theorems": [
    "C20_child_elements",
    "C20_elements_by_name",
    "C20_elements_by_namespace",
    "C20_elements_by_namespace_prefix",
    "C20_picked_function",
    "C20_first_element_by_name"
   ],
   "note": ""
  },
  {
   "property": "C21",
   "status": "proved",
   "theorems": [
    "C21_all_children",
    "C21_all_children_descendants",
    "C21_search",
    "C21_search_elements",
    "C21_search_elements_by_name",
    "C21_search_text",
    "C21_search_comments",
    "C21_order",
    "C21_search_order",
    "C21_document_order_refuted",
    "C21_search_stateful",
    "C21_search_log",
    "C21_search_elements_stateful"
   ],
   "note": ""
  },
  {
   "property": "C22",
   "status": "proved",
   "theorems": [
    "C22_text",
    "C22_document_order"
   ],
   "note": ""
  },
  {
   "property": "C23",
   "status": "proved",
   "theorems": [
    "C23_built_elements_valid",
    "C23_built_nodes_valid",
    "C23_calls_preserve_validity",
    "C23_descendants_valid"
   ],
   "note": ""
  },
  {
   "property": "C24",
   "status": "proved",
   "theorems": [
    "C24_built_ok",
    "C24_element_meaning",
    "C24_node_meaning",
    "C24_element_refl",
    "C24_element_sym",
    "C24_element_trans",
    "C24_node_refl",
    "C24_node_sym",
    "C24_node_trans",
    "C24_document_meaning",
    "C24_document_refl",
    "C24_document_sym",
    "C24_document_trans"
   ],
   "note": ""
  },
  {
   "property": "C25",
   "status": "proved",
   "theorems": [
    "C25_clone_element",
    "C25_clone_identical",
    "C25_clone_node"
   ],
   "note": ""
  },
  {
   "property": "C26",
   "status": "proved",
   "theorems": [
    "C26_documents",
    "C26_elements",
    "C26_iteration_order"
   ],
   "note": ""
  },
  {
   "property": "C27",
   "status": "proved",
   "theorems": [
    "C27_elements",
    "C27_nodes",
    "C27_partial_cmp_refuted"
   ],
   "note": ""
  },
  {
   "property": "C28",
   "status": "proved",
   "theorems": [
    "C28_total_order",
    "C28_order_meaning",
    "C28_written_in_order",
    "C28_order_unique",
    "C28_string_order"
   ],
   "note": ""
  },
  {
   "property": "C29",
   "status": "proved",
   "theorems": [
    "C29_bad_indent",
    "C29_bad_indent_element",
    "C29_default_indent",
    "C29_ends_with_newline",
    "C29_layout",
    "C29_layout_element",
    "C29_layout_function"
   ],
   "note": ""
  },
  {
   "property": "C30",
   "status": "proved",
   "theorems": [
    "C30_mixed_content",
    "C30_mixed_content_nested",
    "C30_inline_function"
   ],
   "note": ""
  },
  {
   "property": "C31",
   "status": "proved",
   "theorems": [
    "C31_round_trip",
    "C31_round_trip_default",
    "C31_texts",
    "C31_comment_refuted",
    "C31_text_refuted",
    "C31_adjacent_refuted",
    "C31_namespace_refuted"
   ],
   "note": ""
  },
  {
   "property": "C32",
   "status": "proved",
   "theorems": [
    "C32_canonical"
   ],
   "note": ""
  },
  {
   "property": "C33",
   "status": "proved",
   "theorems": [
    "C33_parse_terminates",
    "C33_progress",
    "C33_bound_irrelevant"
   ],
   "note": ""
  },
  {
   "property": "C34",
   "status": "proved",
   "theorems": [
    "C34_ascii_never_panics",
    "C34_panic_sources",
    "C34_abbreviate_panics",
    "C34_unescape_refuted",
    "C34_comment_refuted",
    "C34_hash_refuted"
   ],
   "note": ""
  },
  {
   "property": "C35",
   "status": "proved",
   "theorems": [
    "C35_balanced",
    "C35_splits_unique"
   ],
   "note": ""
  },
  {
   "property": "C36",
   "status": "proved",
   "theorems": [
    "C36_no_logic_error",
    "C36_calls"
   ],
   "note": ""
  },
  {
   "property": "C37",
   "status": "proved",
   "theorems": [
    "C37_rebuild",
    "C37_rebuild_exact",
    "C37_adjacent_text_refuted"
   ],
   "note": ""
  },
  {
   "property": "C38",
   "status": "proved",
   "theorems": [
    "C38_after_root",
    "C38_second_root_refuted"
   ],
   "note": ""
  },
  {
   "property": "C39",
   "status": "proved",
   "theorems": [
    "C39_prefix",
    "C39_root_declared",
    "C39_double_xmlns_refuted"
   ],
   "note": ""
  },
  {
   "property": "C40",
   "status": "proved",
   "theorems": [
    "C40_default",
    "C40_hidden_refuted"
   ],
   "note": ""
  },
  {
   "property": "C41",
   "status": "proved",
   "theorems": [
    "C41_append_adopts",
    "C41_append_element",
    "C41_idempotent",
    "C41_insert_refuted"
   ],
   "note": ""
  },
  {
   "property": "C42",
   "status": "proved",
   "theorems": [
    "C42_from_str",
    "C42_display",
    "C42_from_str_panics",
    "C42_from_str_returns",
    "C42_parsed",
    "C42_angle_refuted"
   ],
   "note": ""
  },
  {
   "property": "C43",
   "status": "proved",
   "theorems": [
    "C43_written",
    "C43_parsed_written",
    "C43_file",
    "C43_empty_refuted",
    "C43_from_string",
    "C43_from_string_returns",
    "C43_parsed",
    "C43_display_refuted"
   ],
   "note": ""
  },
  {
   "property": "C44",
   "status": "proved",
   "theorems": [
    "C44_quotes",
    "C44_quotes_wf",
    "C44_spaced_refuted"
   ],
   "note": ""
  },
  {
   "property": "C45",
   "status": "proved",
   "theorems": [
    "C45_layout",
    "C45_all",
    "C45_accepted"
   ],
   "note": ""
  },
  {
   "property": "C46",
   "status": "proved",
   "theorems": [
    "C46_joined",
    "C46_same_element",
    "C46_documents",
    "C46_first_spaced",
    "C46_spaced_refuted"
   ],
   "note": ""
  },
  {
   "property": "C47",
   "status": "proved",
   "theorems": [
    "C47_last_wins",
    "C47_document_means"
   ],
   "note": ""
  },
  {
   "property": "C48",
   "status": "proved",
   "theorems": [
    "C48_parsed_valid"
   ],
   "note": ""
  },
  {
   "property": "C49",
   "status": "proved",
   "theorems": [
    "C49_verbatim"
   ],
   "note": ""
  },
  {
   "property": "C50",
   "status": "proved",
   "theorems": [
    "C50_line_and_column",
    "C50_error_positions"
   ],
   "note": ""
  },
  {
   "property": "C51",
   "status": "proved",
   "theorems": [
    "C51_order",
    "C51_decode",
    "C51_round_trip",
    "C51_bytes",
    "C51_boundary",
    "C51_slice",
    "C51_slice_panics",
    "C51_find",
    "C51_starts",
    "C51_ends"
   ],
   "note": ""
  },
  {
   "property": "C52",
   "status": "proved",
   "theorems": [
    "C52_stream",
    "C52_stream_invalid",
    "C52_stream_breaks",
    "C52_stream_cases",
    "C52_file",
    "C52_file_invalid",
    "C52_file_unreadable",
    "C52_write_stream",
    "C52_write_stream_succeeds",
    "C52_write_path",
    "C52_write_path_succeeds",
    "C52_text",
    "C52_file_back",
    "C52_stream_back",
    "C52_file_round_trip",
    "C52_defaults"
   ],
   "note": ""
  },
  {
   "property": "C53",
   "status": "proved",
   "theorems": [
    "C53_child_elements_mut",
    "C53_elements_by_name_mut",
    "C53_elements_by_namespace_mut",
    "C53_elements_by_namespace_prefix_mut",
    "C53_first_element_by_name_mut",
    "C53_children_mut"
   ],
   "note": ""
  },
  {
   "property": "C54",
   "status": "proved",
   "theorems": [
    "C54_one_kind",
    "C54_tests",
    "C54_casts",
    "C54_cast_errors",
    "C54_mut_casts",
    "C54_mut_cast_errors",
    "C54_clone",
    "C54_node_eq",
    "C54_elem_eq",
    "C54_kinds_differ",
    "C54_leaf_eq",
    "C54_comment_eq",
    "C54_cdata_eq",
    "C54_leaf_text",
    "C54_leaf_indent",
    "C54_leaf_string",
    "C54_type_names",
    "C54_from"
   ],
   "note": ""
  },
  {
   "property": "C55",
   "status": "proved",
   "theorems": [
    "C55_new",
    "C55_new_with",
    "C55_set_declaration",
    "C55_set_doctype_defs",
    "C55_doctype_defs_mut",
    "C55_root_element_mut",
    "C55_eq"
   ],
   "note": ""
  },
  {
   "property": "C56",
   "status": "proved",
   "theorems": [
    "C56_tag_name",
    "C56_default_namespace",
    "C56_no_prefixes",
    "C56_prefixes"
   ],
   "note": ""
  },
  {
   "property": "C57",
   "status": "proved",
   "theorems": [
    "C57_leaves",
    "C57_leaves_meaning",
    "C57_elements",
    "C57_elements_meaning",
    "C57_eq_consistent"
   ],
   "note": ""
  },
  {
   "property": "C58",
   "status": "proved",
   "theorems": [
    "C58_parsing_new",
    "C58_nested",
    "C58_display_once",
    "C58_integers",
    "C58_index",
    "C58_index_refuted",
    "C58_injective"
   ],
   "note": ""
  },
  {
   "property": "C59",
   "status": "proved",
   "theorems": [
    "C59_every_cycle",
    "C59_parsed_round_trip",
    "C59_parsed_canonical",
    "C59_ascii",
    "C59_text_refuted"
   ],
   "note": ""
  },
  {
   "property": "C60",
   "status": "proved",
   "theorems": [
    "C60_characters",
    "C60_unicode",
    "C60_file_cycle"
   ],
   "note": ""
  },
  {
   "property": "C61",
   "status": "proved",
   "theorems": [
    "C61_synonymous",
    "C61_same_output"
   ],
   "note": ""
  },
  {
   "property": "C62",
   "status": "proved",
   "theorems": [
    "C62_explained",
    "C62_reported",
    "C62_kinds",
    "C62_mismatch",
    "C62_not_closed",
    "C62_not_supported"
   ],
   "note": ""
  },
  {
   "property": "C63",
   "status": "proved",
   "theorems": [
    "C63_displayed",
    "C63_place",
    "C63_prefix",
    "C63_mismatch",
    "C63_casts",
    "C63_index",
    "C63_remove_range_refuted",
    "C63_names"
   ],
   "note": ""
  },
  {
   "property": "C64",
   "status": "proved",
   "theorems": [
    "C64_accepted",
    "C64_rejected",
    "C64_error",
    "C64_panics",
    "C64_cases"
   ],
   "note": ""
  },
  {
   "property": "C65",
   "status": "proved",
   "theorems": [
    "C65_panic",
    "C65_error",
    "C65_change",
    "C65_incomplete",
    "C65_prefix",
    "C65_trailing"
   ],
   "note": ""
  },
  {
   "property": "C66",
   "status": "proved",
   "theorems": [
    "C66_result",
    "C66_printed",
    "C66_warnings",
    "C66_silent",
    "C66_document_indent",
    "C66_element_indent"
   ],
   "note": ""
  },
  {
   "property": "C67",
   "status": "proved",
   "theorems": [
    "C67_document",
    "C67_unique",
    "C67_exact",
    "C67_items",
    "C67_items_unique"
   ],
   "note": ""
  },
  {
   "property": "C68",
   "status": "proved",
   "theorems": [
    "C68_exact",
    "C68_indent",
    "C68_dtd_lost",
    "C68_contents",
    "C68_names_refuted"
   ],
   "note": ""
  },
  {
   "property": "C69",
   "status": "proved",
   "theorems": [
    "C69_document",
    "C69_total",
    "C69_cut_unique",
    "C69_unique",
    "C69_exact",
    "C69_one_root"
   ],
   "note": ""
  },
  {
   "property": "C70",
   "status": "proved",
   "theorems": [
    "C70_reads_xml",
    "C70_only",
    "C70_one_tree",
    "C70_references",
    "C70_tokens",
    "C70_pi_refuted",
    "C70_prolog_pi_refuted",
    "C70_dtd_quote_refuted",
    "C70_dtd_angle_refuted",
    "C70_dtd_pi_refuted",
    "C70_dtd_default_refuted",
    "C70_dtd_tokens_refuted",
    "C70_epilog_refuted",
    "C70_equals_refuted",
    "C70_letter_refuted",
    "C70_attribute_letter_refuted",
    "C70_ogham_refuted",
    "C70_decimal_refuted",
    "C70_hexadecimal_refuted",
    "C70_skipped_refuted",
    "C70_last_refuted",
    "C70_line_end_refuted",
    "C70_comment_line_end_refuted",
    "C70_cdata_line_end_refuted",
    "C70_value_refuted",
    "C70_space_refuted",
    "C70_comment_refuted",
    "C70_warning_refuted",
    "C70_default_refuted",
    "C70_undeclared_refuted",
    "C70_xml_prefix_refuted",
    "C70_characters_refuted"
   ],
   "note": ""
  },
  {
   "property": "C71",
   "status": "proved",
   "theorems": [
    "C71_written_xml",
    "C71_indent",
    "C71_readers",
    "C71_value_refuted",
    "C71_return_refuted",
    "C71_control_refuted",
    "C71_comment_refuted",
    "C71_blank_refuted",
    "C71_adjacent_refuted",
    "C71_prefix_refuted",
    "C71_dtd_refuted"
   ],
   "note": ""
  },
  {
   "property": "C72",
   "status": "proved",
   "theorems": [
    "C72_search_lazy",
    "C72_search_next",
    "C72_search_kinds",
    "C72_remove_by",
    "C72_remove_all",
    "C72_protocol_once",
    "C72_elements",
    "C72_elements_only",
    "C72_steady",
    "C72_steady_elements",
    "C72_first_refuted",
    "C72_unwinding_refuted"
   ],
   "note": ""
  },
  {
   "property": "C73",
   "status": "proved",
   "theorems": [
    "C73_programs",
    "C73_parse",
    "C73_new",
    "C73_append",
    "C73_append_all",
    "C73_insert",
    "C73_set_text",
    "C73_seen",
    "C73_written",
    "C73_document_written",
    "C73_compared",
    "C73_prefixes",
    "C73_found",
    "C73_equivalence",
    "C73_model",
    "C73_model_order",
    "C73_parse_model",
    "C73_reported_name",
    "C73_message_refuted"
   ],
   "note": ""
  },
  {
   "property": "C74",
   "status": "proved",
   "theorems": [
    "C74_integers",
    "C74_parse",
    "C74_parse_32",
    "C74_same_everywhere",
    "C74_unescape",
    "C74_append",
    "C74_append_all",
    "C74_insert",
    "C74_set_text",
    "C74_remove_all",
    "C74_remove_all_elements",
    "C74_debug_refuted",
    "C74_release_refuted"
   ],
   "note": ""
  },
  {
   "property": "C75",
   "status": "proved",
   "theorems": [
    "C75_to_string",
    "C75_document_to_string",
    "C75_text",
    "C75_clone",
    "C75_drop",
    "C75_search",
    "C75_remove_all",
    "C75_remove_all_elements",
    "C75_remove_by",
    "C75_remove_elements",
    "C75_remove_element",
    "C75_clear_children",
    "C75_set_text",
    "C75_eq",
    "C75_parsed",
    "C75_enough",
    "C75_nested_refuted"
   ],
   "note": ""
  },
  {
   "property": "C76",
   "status": "proved",
   "theorems": [
    "C76_text",
    "C76_value",
    "C76_text_same",
    "C76_value_same",
    "C76_text_gains",
    "C76_value_gains",
    "C76_text_fates",
    "C76_value_fates",
    "C76_panics",
    "C76_cycles",
    "C76_fates",
    "C76_equal",
    "C76_parsed"
   ],
   "note": ""
  },
  {
   "property": "C77",
   "status": "proved",
   "theorems": [
    "C77_own_trees",
    "C77_adding",
    "C77_new",
    "C77_child_elements",
    "C77_search",
    "C77_removing",
    "C77_copy",
    "C77_remove_element",
    "C77_equality",
    "C77_not_equal_to_itself",
    "C77_serialization",
    "C77_serialization_plain",
    "C77_hollow_element",
    "C77_hollow_text",
    "C77_hollow_other",
    "C77_node_type"
   ],
   "note": ""
  },
  {
   "property": "C78",
   "status": "proved",
   "theorems": [
    "C78_reads",
    "C78_attr_name",
    "C78_elem_name",
    "C78_whitespace",
    "C78_blank",
    "C78_tag",
    "C78_set_attr",
    "C78_new",
    "C78_white_space",
    "C78_name_says",
    "C78_whitespace_says",
    "C78_blank_says"
   ],
   "note": ""
  },
  {
   "property": "C79",
   "status": "proved",
   "theorems": [
    "C79_len",
    "C79_slice",
    "C79_slice_else",
    "C79_slice_from",
    "C79_slice_to",
    "C79_eq",
    "C79_starts_with",
    "C79_ends_with",
    "C79_strip_prefix",
    "C79_strip_suffix",
    "C79_find",
    "C79_find_none",
    "C79_contains",
    "C79_split_once",
    "C79_split_once_none",
    "C79_replace",
    "C79_trim",
    "C79_get",
    "C79_get_none",
    "C79_insert",
    "C79_remove",
    "C79_contains_key",
    "C79_vec_get",
    "C79_vec_remove",
    "C79_vec_insert",
    "C79_vec_set",
    "C79_vec_panics",
    "C79_from_str_radix",
    "C79_from_u32",
    "C79_cmp"
   ],
   "note": ""
  },
  {
   "property": "C80",
   "status": "proved",
   "theorems": [
    "C80_programs",
    "C80_programs_end",
    "C80_ascii_programs",
    "C80_programs_without_parsing",
    "C80_panicking_calls",
    "C80_constructors",
    "C80_changing",
    "C80_looking",
    "C80_writing"
   ],
   "note": ""
  },
  {
   "property": "C81",
   "status": "proved",
   "theorems": [
    "C81_replace",
    "C81_line",
    "C81_mixed",
    "C81_attributes",
    "C81_document",
    "C81_same",
    "C81_part_function",
    "C81_sort_refuted",
    "C81_only_child_refuted"
   ],
   "note": ""
  },
  {
   "property": "C82",
   "status": "proved",
   "theorems": [
    "C82_embed",
    "C82_insert",
    "C82_tags",
    "C82_append_refuted",
    "C82_after_last_refuted",
    "C82_prolog_refuted"
   ],
   "note": ""
  },
  {
   "property": "C83",
   "status": "proved",
   "theorems": [
    "C83_document",
    "C83_elements",
    "C83_drawn",
    "C83_namespace",
    "C83_prefixes",
    "C83_namespaces",
    "C83_namespaces_quadratic",
    "C83_linear_refuted",
    "C83_written",
    "C83_rewritten",
    "C83_indent_quadratic"
   ],
   "note": ""
  },
  {
   "property": "C84",
   "status": "proved",
   "theorems": [
    "C84_same",
    "C84_parse",
    "C84_unescape",
    "C84_entities",
    "C84_children",
    "C84_linear_refuted",
    "C84_append",
    "C84_append_least",
    "C84_write",
    "C84_nodes",
    "C84_rewrite",
    "C84_nesting",
    "C84_quadratic_refuted"
   ],
   "note": ""
  },
  {
   "property": "C85",
   "status": "proved",
   "theorems": [
    "C85_keeps",
    "C85_normal",
    "C85_back",
    "C85_always",
    "C85_again",
    "C85_xml",
    "C85_new",
    "C85_classes",
    "C85_xml_class",
    "C85_mixed_refuted",
    "C85_blank_refuted",
    "C85_empty_refuted",
    "C85_style_refuted"
   ],
   "note": ""
  },
  {
   "property": "C86",
   "status": "proved",
   "theorems": [
    "C86_exact",
    "C86_alike",
    "C86_equal",
    "C86_stay",
    "C86_made",
    "C86_programs",
    "C86_equal_refuted"
   ],
   "note": ""
  },
  {
   "property": "C87",
   "status": "proved",
   "theorems": [
    "C87_insert_remove",
    "C87_append_remove",
    "C87_remove_insert",
    "C87_at_home",
    "C87_appended",
    "C87_read",
    "C87_set_attr",
    "C87_remove_attr",
    "C87_attributes_children",
    "C87_attributes_fail",
    "C87_two_attributes",
    "C87_apart",
    "C87_above",
    "C87_remove_twice",
    "C87_remove_by",
    "C87_remove_all",
    "C87_append_all",
    "C87_at_home_refuted",
    "C87_roots_refuted",
    "C87_text_refuted",
    "C87_deep_refuted",
    "C87_blank_refuted"
   ],
   "note": ""
  },
  {
   "property": "C88",
   "status": "proved",
   "theorems": [
    "C88_exact",
    "C88_others",
    "C88_easy",
    "C88_only",
    "C88_equals_refuted",
    "C88_first_comment_refuted",
    "C88_plain_refuted"
   ],
   "note": ""
  },
  {
   "property": "C89",
   "status": "proved",
   "theorems": [
    "C89_same",
    "C89_append_all",
    "C89_normal",
    "C89_append_all_normal",
    "C89_texts",
    "C89_insert",
    "C89_one_by_one",
    "C89_as_fast_refuted",
    "C89_remove",
    "C89_remove_by",
    "C89_jumps",
    "C89_first_half",
    "C89_remove_all",
    "C89_search",
    "C89_search_least",
    "C89_search_read",
    "C89_search_nest",
    "C89_text",
    "C89_text_wrapped",
    "C89_text_linear_refuted"
   ],
   "note": ""
  },
  {
   "property": "C90",
   "status": "proved",
   "theorems": [
    "C90_kept",
    "C90_same",
    "C90_never",
    "C90_none",
    "C90_ampersand_refuted"
   ],
   "note": ""
  },
  {
   "property": "C91",
   "status": "proved",
   "theorems": [
    "C91_same",
    "C91_compare",
    "C91_equal",
    "C91_names",
    "C91_children",
    "C91_clone",
    "C91_remove_element",
    "C91_read",
    "C91_linear_refuted",
    "C91_hash",
    "C91_hash_cheap"
   ],
   "note": ""
  },
  {
   "property": "C92",
   "status": "proved",
   "theorems": [
    "C92_local",
    "C92_local_no_prolog",
    "C92_exact",
    "C92_no_prolog",
    "C92_xml",
    "C92_text_after_refuted",
    "C92_two_roots_refuted",
    "C92_brackets_refuted",
    "C92_ampersand_refuted",
    "C92_comment_refuted",
    "C92_closing_refuted",
    "C92_twice_refuted",
    "C92_ogham_refuted"
   ],
   "note": ""
  },
  {
   "property": "C93",
   "status": "proved",
   "theorems": [
    "C93_text",
    "C93_every_element",
    "C93_kept",
    "C93_spacing",
    "C93_respaced",
    "C93_documented_refuted",
    "C93_reference_refuted"
   ],
   "note": ""
  },
  {
   "property": "C94",
   "status": "proved",
   "theorems": [
    "C94_cut",
    "C94_written",
    "C94_prefix_free",
    "C94_sequence",
    "C94_file",
    "C94_stream",
    "C94_save",
    "C94_atomic_refuted",
    "C94_two_roots_refuted",
    "C94_append_refuted"
   ],
   "note": ""
  },
  {
   "property": "C95",
   "status": "proved",
   "theorems": [
    "C95_back",
    "C95_file",
    "C95_exact",
    "C95_made",
    "C95_once",
    "C95_others",
    "C95_ink",
    "C95_joined_refuted"
   ],
   "note": ""
  },
  {
   "property": "C96",
   "status": "proved",
   "theorems": [
    "C96_document",
    "C96_element",
    "C96_message",
    "C96_line",
    "C96_tells",
    "C96_clean",
    "C96_chars",
    "C96_parse_tells",
    "C96_any_line",
    "C96_line_refuted"
   ],
   "note": ""
  },
  {
   "property": "C97",
   "status": "proved",
   "theorems": [
    "C97_line",
    "C97_tells",
    "C97_form",
    "C97_display_any_line",
    "C97_display_tells_refuted"
   ],
   "note": ""
  },
  {
   "property": "C98",
   "status": "proved",
   "theorems": [
    "C98_parse",
    "C98_file",
    "C98_stream",
    "C98_panics",
    "C98_document",
    "C98_element",
    "C98_save",
    "C98_write"
   ],
   "note": ""
  }
 ]
}