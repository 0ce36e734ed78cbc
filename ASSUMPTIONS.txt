C01_exact: Closed under the global context
C01_integer_partial: Closed under the global context
C01_constrained_partial: Closed under the global context
C01_semi_constrained_partial: Closed under the global context
C01_unconstrained_partial: Closed under the global context
C01_extensible_partial: Closed under the global context
C01_integer_refuted: Closed under the global context
C01_long_integer_refuted: Closed under the global context
C02_exact: Closed under the global context
C02_enumerated_partial: Closed under the global context
C02_large_enumerated_lost: Closed under the global context
C02_enumerated_refuted: Closed under the global context
C03_exact: Closed under the global context
C03_bit_string_partial: Closed under the global context
C03_fixed_size: Closed under the global context
C03_variable_size_partial: Closed under the global context
C03_empty_refuted: Closed under the global context
C03_extended_refuted: Closed under the global context
C04_exact: Closed under the global context
C04_octet_string_partial: Closed under the global context
C04_fixed_size: Closed under the global context
C04_unconstrained_partial: Closed under the global context
C04_variable_size_partial: Closed under the global context
C04_octet_string_refuted: Closed under the global context
C04_empty_refuted: Closed under the global context
C05_exact: Closed under the global context
C05_sequence_of_partial: Closed under the global context
C05_simple_elements_partial: Closed under the global context
C05_sequence_of_refuted: Closed under the global context
C06_choice_partial: Closed under the global context
C06_choice_refuted: Closed under the global context
C07_sequence_partial: Closed under the global context
C07_sequence_refuted: Closed under the global context
C08_message_partial: Closed under the global context
C08_answered_message_partial: Closed under the global context
C08_any_offset_partial: Closed under the global context
C08_message_refuted: Closed under the global context
C09_whole_octets: Closed under the global context
C09_unique: Closed under the global context
C10_rest_ignored: Closed under the global context
C10_decode_rest_ignored: Closed under the global context
C10_never_backwards: Closed under the global context
C11_injective_partial: Closed under the global context
C11_prefix_free_partial: Closed under the global context
C11_injective_refuted: Closed under the global context
C12_truncated_refuted: Closed under the global context
C12_cut_message_refuted: Closed under the global context
C12_empty_partial: Closed under the global context
C12_overrun_partial: Closed under the global context
C12_past_the_end_partial: Closed under the global context
C13_valid_partial: Closed under the global context
C13_valid_refuted: Closed under the global context
C13_lower_size_refuted: Closed under the global context
C14_constrained_layout: Closed under the global context
C14_unique: Closed under the global context
C14_extensible_root: Closed under the global context
C14_enumerated: Closed under the global context
C15_shortest_contents: Closed under the global context
C15_unconstrained_partial: Closed under the global context
C15_length_refuted: Closed under the global context
C15_exact: Closed under the global context
C16_semi_constrained_partial: Closed under the global context
C16_length_refuted: Closed under the global context
C16_exact: Closed under the global context
C17_octet_string_partial: Closed under the global context
C17_sequence_of_partial: Closed under the global context
C17_decoded: Closed under the global context
C17_length_refuted: Closed under the global context
C17_exact: Closed under the global context
C18_extension_bit_partial: Closed under the global context
C18_first_bit_partial: Closed under the global context
C18_missing_bit_refuted: Closed under the global context
C18_empty_bits_refuted: Closed under the global context
C18_exact: Closed under the global context
C19_presence_bitmap: Closed under the global context
C20_default_not_sent_partial: Closed under the global context
C20_default_restored_partial: Closed under the global context
C20_default_refuted: Closed under the global context
C20_addition_refuted: Closed under the global context
C20_told_apart_iff: Closed under the global context
C20_exact: Closed under the global context
C21_mandatory_additions_partial: Closed under the global context
C21_prefix_partial: Closed under the global context
C21_gap_raises_partial: Closed under the global context
C21_groups_partial: Closed under the global context
C21_group_mandatory: Closed under the global context
C21_mandatory_additions_refuted: Closed under the global context
C21_groups_refuted: Closed under the global context
C21_exact: Closed under the global context
C22_like_version_1_partial: Closed under the global context
C22_nothing_to_send_partial: Closed under the global context
C22_like_version_1_refuted: Closed under the global context
C22_false_alarm_refuted: Closed under the global context
C22_exact: Closed under the global context
C22_default_addition: Closed under the global context
C23_first_invented: Closed under the global context
C23_old_decoder_partial: Closed under the global context
C23_old_decoder_refuted: Closed under the global context
C23_continue_refuted: Closed under the global context
C24_first_lost: Closed under the global context
C24_new_decoder_partial: Closed under the global context
C24_new_decoder_refuted: Closed under the global context
C25_size_refused_partial: Closed under the global context
C25_exceptions_partial: Closed under the global context
C25_size_refused_refuted: Closed under the global context
C25_zero_unchecked: Closed under the global context
C25_exact: Closed under the global context
C26_hole_refused: Closed under the global context
C27_open_type_end: Closed under the global context
C27_inner_irrelevant: Closed under the global context
C28_repeatable_partial: Closed under the global context
C28_quiet_partial: Closed under the global context
C28_second_encode_refuted: Closed under the global context
C29_reading_partial: Closed under the global context
C29_instantiated_partial: Closed under the global context
C29_empty_sequence_refuted: Closed under the global context
C29_default_refuted: Closed under the global context
C29_alternative_refuted: Closed under the global context
C30_same_dict_partial: Closed under the global context
C30_single_value_refuted: Closed under the global context
C30_choice_refuted: Closed under the global context
C31_distinct_partial: Closed under the global context
C31_bit_string_refuted: Closed under the global context
C31_absent_refuted: Closed under the global context
C31_empty_lists_refuted: Closed under the global context
C32_encode_answers: Closed under the global context
C32_decode_answers: Closed under the global context
C32_range_least: Closed under the global context
C32_twos_least: Closed under the global context
C32_elements_bounded: Closed under the global context
C33_pointer_exact: Closed under the global context
C33_pointer_unique: Closed under the global context
C33_answer: Closed under the global context
C34_dichotomy: Closed under the global context
C34_exact: Closed under the global context
C34_all_survive_iff: Closed under the global context
C34_end_points_partial: Closed under the global context
C34_object_encoded_partial: Closed under the global context
C34_end_points_refuted: Closed under the global context
C34_misencoded_refuted: Closed under the global context
C35_exact: Closed under the global context
C35_ranges_wider: Closed under the global context
C35_effective_partial: Closed under the global context
C35_effective_refuted: Closed under the global context
C36_numbering: Closed under the global context
C36_codec_numbers: Closed under the global context
C37_permutation: Closed under the global context
C37_total: Closed under the global context
C38_ordered_partial: Closed under the global context
C38_alias_partial: Closed under the global context
C38_simple_partial: Closed under the global context
C38_plain_alias_partial: Closed under the global context
C38_long_chain_refuted: Closed under the global context
C38_alias_refuted: Closed under the global context
C38_two_aliases_refuted: Closed under the global context
C38_class_name_refuted: Closed under the global context
C39_lines_partial: Closed under the global context
C39_none_left: Closed under the global context
C39_idempotent: Closed under the global context
C39_rest_lost: Closed under the global context
C39_closed_comment_refuted: Closed under the global context
C39_block_comment_refuted: Closed under the global context
C39_string_refuted: Closed under the global context
C40_component_order: Closed under the global context
C40_each_once: Closed under the global context
C41_structure_partial: Closed under the global context
C41_second_root_refuted: Closed under the global context
C41_group_first_refuted: Closed under the global context
C42_named_numbers_refuted: Closed under the global context
C42_names_partial: Closed under the global context
C42_exact: Closed under the global context
C43_values_partial: Closed under the global context
C43_constants_refuted: Closed under the global context
C44_names_distinct: Closed under the global context
C44_no_hyphen: Closed under the global context
C45_unique: Closed under the global context
C45_conforms_partial: Closed under the global context
C45_any_offset_partial: Closed under the global context
C45_empty_bits_refuted: Closed under the global context
C45_empty_octets_refuted: Closed under the global context
C45_extension_bit_refuted: Closed under the global context
C45_intersection_refuted: Closed under the global context
C45_long_integer_refuted: Closed under the global context
C45_default_addition_refuted: Closed under the global context
C45_large_bound_refuted: Closed under the global context
C45_conforms_refuted: Closed under the global context
C45_simple_exact: Closed under the global context
C45_list_exact: Closed under the global context
C46_any_sender_partial: Closed under the global context
C46_injective_partial: Closed under the global context
C47_dictionary_partial: Closed under the global context
C47_received_partial: Closed under the global context
C47_choice_refuted: Closed under the global context
C47_incomplete_refuted: Closed under the global context
C48_range_partial: Closed under the global context
C48_single_partial: Closed under the global context
C48_union_partial: Closed under the global context
C48_meaning: Closed under the global context
C48_union_order_refuted: Closed under the global context
C48_gap_refuted: Closed under the global context
C48_except_refuted: Closed under the global context
C48_intersection_refuted: Closed under the global context
C48_open_ends_refuted: Closed under the global context
C48_additional_refuted: Closed under the global context
C48_size_marker_refuted: Closed under the global context
C48_size_union_refuted: Closed under the global context
C48_nested_refuted: Closed under the global context
C48_all_except_refuted: Closed under the global context
C49_modules_partial: Closed under the global context
C49_one_meaning: Closed under the global context
C49_any_order: Closed under the global context
C49_imported: Closed under the global context
C49_size_from_min_refuted: Closed under the global context
C49_element_constraint_refuted: Closed under the global context
C49_hidden_library_refuted: Closed under the global context
C49_hidden_sequence_refuted: Closed under the global context
C49_library_name_refuted: Closed under the global context
C49_keyword_type_refuted: Closed under the global context
C49_keyword_component_refuted: Closed under the global context
C49_late_alias_refuted: Closed under the global context
C49_structured_alias_refuted: Closed under the global context
C49_hyphen_bound_refuted: Closed under the global context
C49_hyphen_default_refuted: Closed under the global context
C49_boolean_default_refuted: Closed under the global context
C49_octets_default_refuted: Closed under the global context
C49_empty_default_refuted: Closed under the global context
C49_alias_default_refuted: Closed under the global context
C49_constant_default_refuted: Closed under the global context
C49_constant_bound_refuted: Closed under the global context
C49_value_constraint_refuted: Closed under the global context
C49_value_of_value_refuted: Closed under the global context
C49_enum_constant_refuted: Closed under the global context
C49_undefined: Closed under the global context
C49_recursive_refuted: Closed under the global context
C50_blanks_refuted: Closed under the global context
C50_constrained_reference_refuted: Closed under the global context
C50_serial_constraint_refuted: Closed under the global context
C50_closed_comment_refuted: Closed under the global context
C50_external_refuted: Closed under the global context
C50_empty_default_refuted: Closed under the global context
C50_tagged_refuted: Closed under the global context
C50_null_refuted: Closed under the global context
C50_set_of_refuted: Closed under the global context
C50_parentheses_refuted: Closed under the global context
C50_imports_refuted: Closed under the global context
C50_named_number_refuted: Closed under the global context
C50_version_refuted: Closed under the global context
C50_exception_refuted: Closed under the global context
C50_named_bit_refuted: Closed under the global context
C50_bare_size_refuted: Closed under the global context
C50_tags_refuted: Closed under the global context
C50_reading_partial: Closed under the global context
C50_comments_partial: Closed under the global context
C50_unambiguous: Closed under the global context
C50_written_partial: Closed under the global context
C50_text_to_module_partial: Closed under the global context
C51_parser_answers: Closed under the global context
C52_agreement_partial: Closed under the global context
C53_example: Closed under the global context
C53_no_other_name: Closed under the global context
C53_found: Closed under the global context
C54_frame_partial: Closed under the global context
C54_tail_refuted: Closed under the global context
C54_range_refuted: Closed under the global context
C54_size_refuted: Closed under the global context
C54_boolean_range_refuted: Closed under the global context
C54_names_refuted: Closed under the global context
C54_twins_refuted: Closed under the global context
C54_empty_range_refuted: Closed under the global context
C54_constant_refuted: Closed under the global context
C55_relay_partial: Closed under the global context
C55_any_sender_partial: Closed under the global context
C55_octets_refuted: Closed under the global context
C55_group_refuted: Closed under the global context
C56_same_octets: Closed under the global context
C56_new_reads_old: Closed under the global context
C56_old_reads_new: Closed under the global context
C56_refused: Closed under the global context
C57_independent_partial: Closed under the global context
C57_second_schema_partial: Closed under the global context
C57_constants_refuted: Closed under the global context
C57_inner_names_refuted: Closed under the global context
C57_missing_types_refuted: Closed under the global context
C58_bound_partial: Closed under the global context
C58_complete_partial: Closed under the global context
C58_elements_partial: Closed under the global context
C58_own_partial: Closed under the global context
C58_nested_refuted: Closed under the global context
C58_bound_refuted: Closed under the global context
C58_counted_refuted: Closed under the global context
C58_string_refuted: Closed under the global context
C58_announced_refuted: Closed under the global context
C59_encode_partial: Closed under the global context
C59_strict_partial: Closed under the global context
C59_decode_partial: Closed under the global context
C59_decoded_made: Closed under the global context
C59_relay_partial: Closed under the global context
C59_model_covers: Closed under the global context
C59_strict_raised: Closed under the global context
C59_encode_refuted: Closed under the global context
C59_decode_refuted: Closed under the global context
C60_settled: Closed under the global context
C60_ask_partial: Closed under the global context
C60_whole_partial: Closed under the global context
C60_result_partial: Closed under the global context
C60_fills_partial: Closed under the global context
C60_fills_refuted: Closed under the global context
C60_ask_refuted: Closed under the global context
C60_alternative_refuted: Closed under the global context
C61_kinds_partial: Closed under the global context
C61_nested_refuted: Closed under the global context
C61_polynomial_refuted: Closed under the global context
C62_result: Closed under the global context
C62_spec_partial: Closed under the global context
C62_choiceless_partial: Closed under the global context
C62_choice_refuted: Closed under the global context
C62_optional_refuted: Closed under the global context
C63_octets: Closed under the global context
C63_refusals: Closed under the global context
C63_decode: Closed under the global context
C64_one_file: Closed under the global context
C64_failures: Closed under the global context
C64_inside: Closed under the global context
C64_both_kept_partial: Closed under the global context
C64_importable_refuted: Closed under the global context
C64_importable_partial: Closed under the global context
C64_both_kept_refuted: Closed under the global context
C64_answers: Closed under the global context
C65_names_partial: Closed under the global context
C65_versions_partial: Closed under the global context
C65_number_spoils_module: Closed under the global context
C65_numbers_refuted: Closed under the global context
C66_classes_partial: Closed under the global context
C66_texts_partial: Closed under the global context
C66_type_names_partial: Closed under the global context
C66_spellings_refuted: Closed under the global context
C67_longest: Closed under the global context
C67_integer_exact: Closed under the global context
C67_zero_size_unlimited: Closed under the global context
C68_safe: Closed under the global context
C68_limited: Closed under the global context
C68_integer_exact: Closed under the global context
C68_bits_exact: Closed under the global context
C68_octets_exact: Closed under the global context
C68_list_exact: Closed under the global context
C68_nothing_hidden: Closed under the global context
C68_rules_needed: Closed under the global context
C68_hidden_without_check: Closed under the global context
C69_standard: Closed under the global context
C69_limited: Closed under the global context
C69_rules_needed: Closed under the global context
C70_texts_partial: Closed under the global context
C70_two_texts_partial: Closed under the global context
C70_every_value: Closed under the global context
C70_any_sender: Closed under the global context
C70_no_confusion: Closed under the global context
C70_messages_valid: Closed under the global context
C70_bare_needed: Closed under the global context
C71_readme: Closed under the global context
C71_readme_exact: Closed under the global context
C71_readme_silent: Closed under the global context
C71_exact: Closed under the global context
C71_sent: Closed under the global context
C71_any_sender: Closed under the global context
C71_settled_needed: Closed under the global context
C72_readme: Closed under the global context
C72_readme_any_sender: Closed under the global context
C72_received: Closed under the global context
C72_received_all: Closed under the global context
C72_any_sender: Closed under the global context
C72_arrives: Closed under the global context
C72_unchanged: Closed under the global context
C72_shorter: Closed under the global context
C72_digits: Closed under the global context
C72_once: Closed under the global context
C72_messages: Closed under the global context
C72_every_message: Closed under the global context
C72_refused: Closed under the global context
C73_readme: Closed under the global context
C73_relay: Closed under the global context
C73_chain: Closed under the global context
C73_transparent: Closed under the global context
C74_read: Closed under the global context
C74_same_text: Closed under the global context
C74_skipped: Closed under the global context
C74_import: Closed under the global context
C74_generated: Closed under the global context
C75_text_to_text_partial: Closed under the global context
C75_written_text: Closed under the global context
C75_readme: Closed under the global context
C76_file_partial: Closed under the global context
C76_two_parties_partial: Closed under the global context
C76_readme: Closed under the global context
