{
 "claims": [
  {
   "property": "C01",
   "status": "partial",
   "theorems": [
    "C01_exact",
    "C01_integer_partial",
    "C01_constrained_partial",
    "C01_semi_constrained_partial",
    "C01_unconstrained_partial",
    "C01_extensible_partial",
    "C01_integer_refuted",
    "C01_long_integer_refuted"
   ],
   "note": "full statement is false of the code: single-value extensible root and integers of 256+ octets; proved for everything else inside the implemented lengths, and C01_exact says exactly which values survive"
  },
  {
   "property": "C02",
   "status": "partial",
   "theorems": [
    "C02_exact",
    "C02_enumerated_partial",
    "C02_large_enumerated_lost",
    "C02_enumerated_refuted"
   ],
   "note": "false beyond 65536 root items; proved up to that, and C02_exact says exactly which values survive"
  },
  {
   "property": "C03",
   "status": "partial",
   "theorems": [
    "C03_exact",
    "C03_bit_string_partial",
    "C03_fixed_size",
    "C03_variable_size_partial",
    "C03_empty_refuted",
    "C03_extended_refuted"
   ],
   "note": "empty string and extended strings of odd length (inside a larger type) are lost; proved elsewhere, and C03_exact says exactly which strings survive as a message"
  },
  {
   "property": "C04",
   "status": "partial",
   "theorems": [
    "C04_exact",
    "C04_octet_string_partial",
    "C04_fixed_size",
    "C04_unconstrained_partial",
    "C04_variable_size_partial",
    "C04_octet_string_refuted",
    "C04_empty_refuted"
   ],
   "note": "leading zero digit lost with variable size; empty string lost without constraint; proved elsewhere, and C04_exact says exactly which strings survive as a message"
  },
  {
   "property": "C05",
   "status": "partial",
   "theorems": [
    "C05_exact",
    "C05_sequence_of_partial",
    "C05_simple_elements_partial",
    "C05_sequence_of_refuted"
   ],
   "note": "single-size extensible root comes back empty; proved elsewhere, and C05_exact says exactly which numbers of elements survive"
  },
  {
   "property": "C06",
   "status": "partial",
   "theorems": [
    "C06_choice_partial",
    "C06_choice_refuted"
   ],
   "note": "inherits the exclusions of the component types; proved by induction on the type for every supported object"
  },
  {
   "property": "C07",
   "status": "partial",
   "theorems": [
    "C07_sequence_partial",
    "C07_sequence_refuted"
   ],
   "note": "inherits the exclusions of the component types and of components without visible content; proved by induction on the type for every supported object"
  },
  {
   "property": "C08",
   "status": "partial",
   "theorems": [
    "C08_message_partial",
    "C08_answered_message_partial",
    "C08_any_offset_partial",
    "C08_message_refuted"
   ],
   "note": "false in full because of C01-C07; proved for every supported message, at every starting offset"
  },
  {
   "property": "C09",
   "status": "proved",
   "theorems": [
    "C09_whole_octets",
    "C09_unique"
   ],
   "note": "encode output is the produced bit string, padded with fewer than 8 zero bits to whole octets"
  },
  {
   "property": "C10",
   "status": "proved",
   "theorems": [
    "C10_rest_ignored",
    "C10_decode_rest_ignored",
    "C10_never_backwards"
   ],
   "note": ""
  },
  {
   "property": "C11",
   "status": "partial",
   "theorems": [
    "C11_injective_partial",
    "C11_prefix_free_partial",
    "C11_injective_refuted"
   ],
   "note": "false in full; proved for supported messages, together with prefix freedom"
  },
  {
   "property": "C12",
   "status": "partial",
   "theorems": [
    "C12_truncated_refuted",
    "C12_cut_message_refuted",
    "C12_empty_partial",
    "C12_overrun_partial",
    "C12_past_the_end_partial"
   ],
   "note": "false of the code: a cut message can be accepted; proved that empty input raises, that only the last read can overrun and that a cut message raises or leaves the pointer past the end"
  },
  {
   "property": "C13",
   "status": "partial",
   "theorems": [
    "C13_valid_partial",
    "C13_valid_refuted",
    "C13_lower_size_refuted"
   ],
   "note": "false for the SIZE of SEQUENCE OF (upper end, and lower end without upper end); everything else proved, and groups are complete; an OCTET STRING of a variable size never comes with a leading zero digit"
  },
  {
   "property": "C14",
   "status": "proved",
   "theorems": [
    "C14_constrained_layout",
    "C14_unique",
    "C14_extensible_root",
    "C14_enumerated"
   ],
   "note": "all four layouts of a constrained whole number, also reached through extensible roots and ENUMERATED"
  },
  {
   "property": "C15",
   "status": "partial",
   "theorems": [
    "C15_shortest_contents",
    "C15_unconstrained_partial",
    "C15_length_refuted",
    "C15_exact"
   ],
   "note": "contents octets exact; the length octet is not X.691 from 128 octets on (refuted); C15_exact: X.691 is followed exactly up to 127 octets"
  },
  {
   "property": "C16",
   "status": "partial",
   "theorems": [
    "C16_semi_constrained_partial",
    "C16_length_refuted",
    "C16_exact"
   ],
   "note": "proved up to 16383 octets; the length of longer ones is malformed (refuted); C16_exact: X.691 is followed exactly up to 16383 octets"
  },
  {
   "property": "C17",
   "status": "partial",
   "theorems": [
    "C17_octet_string_partial",
    "C17_sequence_of_partial",
    "C17_decoded",
    "C17_length_refuted",
    "C17_exact"
   ],
   "note": "proved up to 16383; 16384 gives a 17-bit length (refuted); C17_exact: 16384 is the only length that is neither sent properly nor refused"
  },
  {
   "property": "C18",
   "status": "partial",
   "theorems": [
    "C18_extension_bit_partial",
    "C18_first_bit_partial",
    "C18_missing_bit_refuted",
    "C18_empty_bits_refuted",
    "C18_exact"
   ],
   "note": "false for SIZE(0..0,...) and for empty BIT STRINGs outside the root; proved elsewhere; C18_exact says exactly for which values the bit is right"
  },
  {
   "property": "C19",
   "status": "proved",
   "theorems": [
    "C19_presence_bitmap"
   ],
   "note": ""
  },
  {
   "property": "C20",
   "status": "partial",
   "theorems": [
    "C20_default_not_sent_partial",
    "C20_default_restored_partial",
    "C20_default_refuted",
    "C20_addition_refuted",
    "C20_told_apart_iff",
    "C20_exact"
   ],
   "note": "false for BIT STRING defaults compared as numbers and for DEFAULT additions; C20_told_apart_iff and C20_exact say which values are taken for the default, and that exactly those equal to it come back"
  },
  {
   "property": "C21",
   "status": "partial",
   "theorems": [
    "C21_mandatory_additions_partial",
    "C21_prefix_partial",
    "C21_gap_raises_partial",
    "C21_groups_partial",
    "C21_group_mandatory",
    "C21_mandatory_additions_refuted",
    "C21_groups_refuted",
    "C21_exact"
   ],
   "note": "only the immediately preceding addition is checked, so the full statement is false; C21_exact gives the rules that decide whether the encoder accepts"
  },
  {
   "property": "C22",
   "status": "partial",
   "theorems": [
    "C22_like_version_1_partial",
    "C22_nothing_to_send_partial",
    "C22_like_version_1_refuted",
    "C22_false_alarm_refuted",
    "C22_exact",
    "C22_default_addition"
   ],
   "note": "false for additions with DEFAULT, and for an untouched all-optional SEQUENCE after a required addition; C22_exact gives the exact condition, C22_default_addition covers every DEFAULT addition of a simple value"
  },
  {
   "property": "C23",
   "status": "partial",
   "theorems": [
    "C23_first_invented",
    "C23_old_decoder_partial",
    "C23_old_decoder_refuted",
    "C23_continue_refuted"
   ],
   "note": "false when the first addition is absent and another sent, and for what follows the SEQUENCE; proved otherwise; C23_first_invented: in the first case the receiver always has an addition that was not sent, unless it raises"
  },
  {
   "property": "C24",
   "status": "partial",
   "theorems": [
    "C24_first_lost",
    "C24_new_decoder_partial",
    "C24_new_decoder_refuted"
   ],
   "note": "false as soon as an addition is sent; proved when none is; C24_first_lost: whenever additions are sent, the first one sent never arrives"
  },
  {
   "property": "C25",
   "status": "partial",
   "theorems": [
    "C25_size_refused_partial",
    "C25_exceptions_partial",
    "C25_size_refused_refuted",
    "C25_zero_unchecked",
    "C25_exact"
   ],
   "note": "false for SIZE(0..0); proved elsewhere; C25_zero_unchecked: SIZE(0) lets every list pass, so C25_exact"
  },
  {
   "property": "C26",
   "status": "proved",
   "theorems": [
    "C26_hole_refused"
   ],
   "note": "the hole may be at any depth reached by the encoder"
  },
  {
   "property": "C27",
   "status": "proved",
   "theorems": [
    "C27_open_type_end",
    "C27_inner_irrelevant"
   ],
   "note": "whatever decoder is used for the content"
  },
  {
   "property": "C28",
   "status": "partial",
   "theorems": [
    "C28_repeatable_partial",
    "C28_quiet_partial",
    "C28_second_encode_refuted"
   ],
   "note": "false when an addition group is sent without one of its mandatory components; proved for every other object, and for every object of a quiet type"
  },
  {
   "property": "C29",
   "status": "partial",
   "theorems": [
    "C29_reading_partial",
    "C29_instantiated_partial",
    "C29_empty_sequence_refuted",
    "C29_default_refuted",
    "C29_alternative_refuted"
   ],
   "note": "false for SEQUENCEs of optional presence whose components may all be absent or defaulted, and for a CHOICE asked for an alternative that is not selected; proved for every sequence of the other reads, errors included"
  },
  {
   "property": "C30",
   "status": "partial",
   "theorems": [
    "C30_same_dict_partial",
    "C30_single_value_refuted",
    "C30_choice_refuted"
   ],
   "note": "false for the values C01-C07 lose and for a CHOICE of a SEQUENCE without visible content; proved, errors included, for supported messages whose unsent components are untouched"
  },
  {
   "property": "C31",
   "status": "partial",
   "theorems": [
    "C31_distinct_partial",
    "C31_bit_string_refuted",
    "C31_absent_refuted",
    "C31_empty_lists_refuted"
   ],
   "note": "false for BIT STRINGs of varying length, for left-out SEQUENCEs with defaults and for empty lists; proved for messages without those"
  },
  {
   "property": "C32",
   "status": "proved",
   "theorems": [
    "C32_encode_answers",
    "C32_decode_answers",
    "C32_range_least",
    "C32_twos_least",
    "C32_elements_bounded"
   ],
   "note": "also bounds the number of elements a SEQUENCE OF can announce"
  },
  {
   "property": "C33",
   "status": "proved",
   "theorems": [
    "C33_pointer_exact",
    "C33_pointer_unique",
    "C33_answer"
   ],
   "note": "for every sequence of reads and alignments"
  },
  {
   "property": "C34",
   "status": "partial",
   "theorems": [
    "C34_dichotomy",
    "C34_exact",
    "C34_all_survive_iff",
    "C34_end_points_partial",
    "C34_object_encoded_partial",
    "C34_end_points_refuted",
    "C34_misencoded_refuted"
   ],
   "note": "false with an extensible part inside a non-extensible union; C34_dichotomy and C34_exact: every constraint is bounded by its end points unless its markers let every number pass, and C34_all_survive_iff: exactly then numbers are lost on the wire"
  },
  {
   "property": "C35",
   "status": "partial",
   "theorems": [
    "C35_exact",
    "C35_ranges_wider",
    "C35_effective_partial",
    "C35_effective_refuted"
   ],
   "note": "false for intersections (their hull is used); proved for unions of ranges and single values; C35_exact: the end points of an intersection are effective exactly if all parts have the same"
  },
  {
   "property": "C36",
   "status": "proved",
   "theorems": [
    "C36_numbering",
    "C36_codec_numbers"
   ],
   "note": "also: the numbers are those the codec proofs assume"
  },
  {
   "property": "C37",
   "status": "proved",
   "theorems": [
    "C37_permutation",
    "C37_total"
   ],
   "note": "and sorting succeeds unless a top-level type is DATE or VisibleString"
  },
  {
   "property": "C38",
   "status": "partial",
   "theorems": [
    "C38_ordered_partial",
    "C38_alias_partial",
    "C38_simple_partial",
    "C38_plain_alias_partial",
    "C38_long_chain_refuted",
    "C38_alias_refuted",
    "C38_two_aliases_refuted",
    "C38_class_name_refuted"
   ],
   "note": "false for chains of more than 101 types (100 passes), for references through aliases and for types named like library classes; proved for every other acyclic set of references, aliases of one level and simple types"
  },
  {
   "property": "C39",
   "status": "partial",
   "theorems": [
    "C39_lines_partial",
    "C39_none_left",
    "C39_idempotent",
    "C39_rest_lost",
    "C39_closed_comment_refuted",
    "C39_block_comment_refuted",
    "C39_string_refuted"
   ],
   "note": "false for text behind a comment closed on its line, for /* */ comments and for double hyphens in strings; everything else proved"
  },
  {
   "property": "C40",
   "status": "proved",
   "theorems": [
    "C40_component_order",
    "C40_each_once"
   ],
   "note": "also from the token list on: every component exactly once"
  },
  {
   "property": "C41",
   "status": "partial",
   "theorems": [
    "C41_structure_partial",
    "C41_second_root_refuted",
    "C41_group_first_refuted"
   ],
   "note": "false with a second root list and with a group before a single addition; proved otherwise"
  },
  {
   "property": "C42",
   "status": "partial",
   "theorems": [
    "C42_named_numbers_refuted",
    "C42_names_partial",
    "C42_exact"
   ],
   "note": "false as soon as a number is written; proved for items without numbers; C42_exact: an item keeps its name exactly if no number is written, and its number is always its place; see C65 for what importing such a module does"
  },
  {
   "property": "C43",
   "status": "partial",
   "theorems": [
    "C43_values_partial",
    "C43_constants_refuted"
   ],
   "note": "false for values of defined types; proved for values of builtin types"
  },
  {
   "property": "C44",
   "status": "proved",
   "theorems": [
    "C44_names_distinct",
    "C44_no_hyphen"
   ],
   "note": "class names; component names are kept as they are"
  },
  {
   "property": "C45",
   "status": "partial",
   "theorems": [
    "C45_unique",
    "C45_conforms_partial",
    "C45_any_offset_partial",
    "C45_empty_bits_refuted",
    "C45_empty_octets_refuted",
    "C45_extension_bit_refuted",
    "C45_intersection_refuted",
    "C45_long_integer_refuted",
    "C45_default_addition_refuted",
    "C45_large_bound_refuted",
    "C45_conforms_refuted",
    "C45_simple_exact",
    "C45_list_exact"
   ],
   "note": "false for empty strings of variable size, integers of 128 octets, DEFAULT additions, intersections, size bounds of 64K; proved for everything outside (conf), and for simple types and lists conf is exactly where the octets are those of X.691 (C45_simple_exact, C45_list_exact)"
  },
  {
   "property": "C46",
   "status": "partial",
   "theorems": [
    "C46_any_sender_partial",
    "C46_injective_partial"
   ],
   "note": "for messages that C08 and C45 cover"
  },
  {
   "property": "C47",
   "status": "partial",
   "theorems": [
    "C47_dictionary_partial",
    "C47_received_partial",
    "C47_choice_refuted",
    "C47_incomplete_refuted"
   ],
   "note": "false for a CHOICE whose selected SEQUENCE has no value and for components left out because they are incomplete; proved for every other object of types with DEFAULT on simple components"
  },
  {
   "property": "C48",
   "status": "partial",
   "theorems": [
    "C48_range_partial",
    "C48_single_partial",
    "C48_union_partial",
    "C48_meaning",
    "C48_union_order_refuted",
    "C48_gap_refuted",
    "C48_except_refuted",
    "C48_intersection_refuted",
    "C48_open_ends_refuted",
    "C48_additional_refuted",
    "C48_size_marker_refuted",
    "C48_size_union_refuted",
    "C48_nested_refuted",
    "C48_all_except_refuted"
   ],
   "note": "false for unions with gaps or not in rising order, intersections, EXCEPT, open end points, values behind the marker, and the marker or union inside SIZE; proved for single ranges, single values and rising unions without gaps"
  },
  {
   "property": "C49",
   "status": "partial",
   "theorems": [
    "C49_modules_partial",
    "C49_one_meaning",
    "C49_any_order",
    "C49_imported",
    "C49_size_from_min_refuted",
    "C49_element_constraint_refuted",
    "C49_hidden_library_refuted",
    "C49_hidden_sequence_refuted",
    "C49_library_name_refuted",
    "C49_keyword_type_refuted",
    "C49_keyword_component_refuted",
    "C49_late_alias_refuted",
    "C49_structured_alias_refuted",
    "C49_hyphen_bound_refuted",
    "C49_hyphen_default_refuted",
    "C49_boolean_default_refuted",
    "C49_octets_default_refuted",
    "C49_empty_default_refuted",
    "C49_alias_default_refuted",
    "C49_constant_default_refuted",
    "C49_constant_bound_refuted",
    "C49_value_constraint_refuted",
    "C49_value_of_value_refuted",
    "C49_enum_constant_refuted",
    "C49_undefined",
    "C49_recursive_refuted"
   ],
   "note": "false for 22 kinds of schemas, one refutation each (constraints on elements, names of the library, hyphens in constants, chains of aliases, DEFAULTs through references, ...); proved, for any number of assignments in any order, for the schemas in fine_schema and sortable, which 11 of the 14 schemas of the test suite meet"
  },
  {
   "property": "C50",
   "status": "partial",
   "theorems": [
    "C50_blanks_refuted",
    "C50_constrained_reference_refuted",
    "C50_serial_constraint_refuted",
    "C50_closed_comment_refuted",
    "C50_external_refuted",
    "C50_empty_default_refuted",
    "C50_tagged_refuted",
    "C50_null_refuted",
    "C50_set_of_refuted",
    "C50_parentheses_refuted",
    "C50_imports_refuted",
    "C50_named_number_refuted",
    "C50_version_refuted",
    "C50_exception_refuted",
    "C50_named_bit_refuted",
    "C50_bare_size_refuted",
    "C50_tags_refuted",
    "C50_reading_partial",
    "C50_comments_partial",
    "C50_unambiguous",
    "C50_written_partial",
    "C50_text_to_module_partial"
   ],
   "note": "false for other blanks inside OCTET STRING, constraints on references, second constraints, closed comments, types of other modules, DEFAULT {}, tagged types, NULL, SET OF, IMPORTS, DEFAULTs that are named numbers, versions, exceptions, named bits with constants, SIZE outside parentheses, EXPLICIT and IMPLICIT tags; proved for every spelling (Texts.v) of every schema in the notation of Meaning.v, any layout, tabs and comments"
  },
  {
   "property": "C51",
   "status": "proved",
   "theorems": [
    "C51_parser_answers"
   ],
   "note": "for every text; the bound on the depth of calls in the model is shown not to matter"
  },
  {
   "property": "C52",
   "status": "partial",
   "theorems": [
    "C52_agreement_partial"
   ],
   "note": "for the texts of C50, the schemas of C49 and the messages of C45"
  },
  {
   "property": "C53",
   "status": "proved",
   "theorems": [
    "C53_example",
    "C53_no_other_name",
    "C53_found"
   ],
   "note": "for every text; numbers, strings and end points of constraints are not among the words"
  },
  {
   "property": "C54",
   "status": "partial",
   "theorems": [
    "C54_frame_partial",
    "C54_tail_refuted",
    "C54_range_refuted",
    "C54_size_refuted",
    "C54_boolean_range_refuted",
    "C54_names_refuted",
    "C54_twins_refuted",
    "C54_empty_range_refuted",
    "C54_constant_refuted"
   ],
   "note": "false: text behind END, ranges without '..', SIZE of INTEGER, ranges of BOOLEAN, reserved words and trailing hyphens in names, components of one name, empty ranges, constants of another type; proved that the words of a module's frame must be there"
  },
  {
   "property": "C55",
   "status": "partial",
   "theorems": [
    "C55_relay_partial",
    "C55_any_sender_partial",
    "C55_octets_refuted",
    "C55_group_refuted"
   ],
   "note": "false for octets with leading zero digits (05 01 leaves as 50 10) and for addition groups sent without their mandatory components; proved for every other supported message, and for every conforming message of any sender"
  },
  {
   "property": "C56",
   "status": "proved",
   "theorems": [
    "C56_same_octets",
    "C56_new_reads_old",
    "C56_old_reads_new",
    "C56_refused"
   ],
   "note": "for all octet strings and objects; SEQUENCE components stay the same in both versions (C22-C24 are about those)"
  },
  {
   "property": "C57",
   "status": "partial",
   "theorems": [
    "C57_independent_partial",
    "C57_second_schema_partial",
    "C57_constants_refuted",
    "C57_inner_names_refuted",
    "C57_missing_types_refuted"
   ],
   "note": "holds for every schema whose typereferences and DEFAULT words, as far as earlier schemas know them, are defined in it (for any earlier state), and for every schema of the fragment of C49 unless an earlier one has a type named like an inner class or a constant named like a DEFAULT word; false otherwise: a constant of one schema turns up in the module of another, a type named EnumeratedType changes inline types of later schemas, and a schema that lacks a type gets that of another"
  },
  {
   "property": "C58",
   "status": "partial",
   "theorems": [
    "C58_bound_partial",
    "C58_complete_partial",
    "C58_elements_partial",
    "C58_own_partial",
    "C58_nested_refuted",
    "C58_bound_refuted",
    "C58_counted_refuted",
    "C58_string_refuted",
    "C58_announced_refuted"
   ],
   "note": "holds for every type whose list elements each take a bit: at most a factor (1 + depth of lists) per bit when decoding ends inside the input and no extension marker is there, the depth of lists alone without strings, and a constant more when input is missing; false otherwise: lists of elements without bits multiply with every level (k^d from one octet), two octets give 65535 elements, and missing bits of strings and open types are made up (16 to 65535 bits from one octet, 1000 elements from four)"
  },
  {
   "property": "C59",
   "status": "partial",
   "theorems": [
    "C59_encode_partial",
    "C59_strict_partial",
    "C59_decode_partial",
    "C59_decoded_made",
    "C59_relay_partial",
    "C59_model_covers",
    "C59_strict_raised",
    "C59_encode_refuted",
    "C59_decode_refuted"
   ],
   "note": "the exact lists: encode raises the declared ones, PyAsn1Error, TypeError (also by raise NotImplemented) and AttributeError, on strict types only the declared ones, PyAsn1Error and raise NotImplemented; decode raises PyAsn1Error, ValueError, TypeError, IndexError and raise NotImplemented; every one of them is raised by some type; false as claimed. It also shows that the model of the codec never stops at a point it does not describe (C59_model_covers)"
  },
  {
   "property": "C60",
   "status": "partial",
   "theorems": [
    "C60_settled",
    "C60_ask_partial",
    "C60_whole_partial",
    "C60_result_partial",
    "C60_fills_partial",
    "C60_fills_refuted",
    "C60_ask_refuted",
    "C60_alternative_refuted"
   ],
   "note": "with a meter on fill_field_list and isValue, and encoding an extension alternative twice as the code does: the same result as Encoder.v on the objects of C28, fewer than 2^(d+1) calls of fill_field_list for each part under d extension alternatives, one isValue asks each object once if nothing mandatory is missing, otherwise at most 2^levels times; false as claimed: 2^(d+1)-1 calls for d alternatives in each other, reading an absent component makes every later encode ask 2^(d+2)-1 times, and an alternative that can be encoded as a root alternative is refused as an extension alternative"
  },
  {
   "property": "C61",
   "status": "partial",
   "theorems": [
    "C61_kinds_partial",
    "C61_nested_refuted",
    "C61_polynomial_refuted"
   ],
   "note": "the calls of _parse for any text are of at most 7200 kinds per character (with or without actions, the 3600 expressions of the grammar, the places of the text), so a parser that remembers its answers would be linear; false as claimed: the library does not enable that, alternatives are tried one by one and the best is read again, and every SEQUENCE around a type multiplies the calls by at least 384: 4 * 384^d calls for a correct schema of 41 + 15 d characters; no polynomial bounds the number of calls"
  },
  {
   "property": "C62",
   "status": "partial",
   "theorems": [
    "C62_result",
    "C62_spec_partial",
    "C62_choiceless_partial",
    "C62_choice_refuted",
    "C62_optional_refuted"
   ],
   "note": "the first half holds for every object, exceptions included; the second is false when the octets select another alternative of a CHOICE (the object loses its value) and when they contain an OPTIONAL SEQUENCE whose components may all be absent (the object has it afterwards); proved for quiet types when the message selects the alternatives the object has selected, in particular when there are no CHOICEs"
  },
  {
   "property": "C63",
   "status": "proved",
   "theorems": [
    "C63_octets",
    "C63_refusals",
    "C63_decode"
   ],
   "note": "for types with distinct names in each SEQUENCE and CHOICE (what pyasn1 demands); the errors of the encoder are the same but for the component name two of them carry"
  },
  {
   "property": "C64",
   "status": "partial",
   "theorems": [
    "C64_one_file",
    "C64_failures",
    "C64_inside",
    "C64_both_kept_partial",
    "C64_importable_refuted",
    "C64_importable_partial",
    "C64_both_kept_refuted",
    "C64_answers"
   ],
   "note": "one file directly in the folder, the same text, nothing on failure: proved for every text; false that files of other modules are kept (two modules of one name) and that the module can be imported (hyphens in the name); C64_importable_partial says exactly which names can"
  },
  {
   "property": "C65",
   "status": "partial",
   "theorems": [
    "C65_names_partial",
    "C65_versions_partial",
    "C65_number_spoils_module",
    "C65_numbers_refuted"
   ],
   "note": "proved for the types of fine and sortable schemas with at most 65536 items, by composing the meaning of generated modules (C49), the codec (C02) and versions (C56); false with numbers in the schema: such a module cannot be imported (C65_numbers_refuted, C65_number_spoils_module)"
  },
  {
   "property": "C66",
   "status": "partial",
   "theorems": [
    "C66_classes_partial",
    "C66_texts_partial",
    "C66_type_names_partial",
    "C66_spellings_refuted"
   ],
   "note": "proved for pairs of fine and sortable schemas, from the texts on (C66_texts_partial) and for classes (C66_classes_partial), and that other type names give the very same types (C66_type_names_partial); false in general: a constraint on the element of a SEQUENCE OF is kept when it is named and dropped when it is written in place (C66_spellings_refuted)"
  },
  {
   "property": "C67",
   "status": "proved",
   "theorems": [
    "C67_longest",
    "C67_integer_exact",
    "C67_zero_size_unlimited"
   ],
   "note": "C67_longest for all sane types and values; C67_integer_exact says when INTEGERs have no limit, C67_zero_size_unlimited that lists constrained to SIZE(0) have none"
  },
  {
   "property": "C68",
   "status": "proved",
   "theorems": [
    "C68_safe",
    "C68_limited",
    "C68_integer_exact",
    "C68_bits_exact",
    "C68_octets_exact",
    "C68_list_exact",
    "C68_nothing_hidden",
    "C68_rules_needed",
    "C68_hidden_without_check"
   ],
   "note": "C68_safe for all types that pass `safe` and modest messages, C68_limited for all messages of types that pass `limited` too; C68_nothing_hidden: what is set reads as present; C68_integer_exact, C68_bits_exact, C68_octets_exact, C68_list_exact: the check rejects only types that lose a message; C68_rules_needed: for each rule on constructed types a message lost without it"
  },
  {
   "property": "C69",
   "status": "proved",
   "theorems": [
    "C69_standard",
    "C69_limited",
    "C69_rules_needed"
   ],
   "note": "C69_standard for all types that pass `safe` and `standard` and all messages within the limits, C69_limited for all messages of types that pass `limited` too; C69_rules_needed: for each rule of `standard` a message that deviates without it"
  },
  {
   "property": "C70",
   "status": "partial",
   "theorems": [
    "C70_texts_partial",
    "C70_two_texts_partial",
    "C70_every_value",
    "C70_any_sender",
    "C70_no_confusion",
    "C70_messages_valid",
    "C70_bare_needed"
   ],
   "note": "C70_every_value, C70_any_sender, C70_no_confusion for all types that pass `trusted` and all their values; C70_messages_valid: the values of messages are values of the type; C70_bare_needed: a DEFAULT in a group misread; C70_texts_partial, C70_two_texts_partial: the same for classes made from texts, missing the texts outside C50"
  },
  {
   "property": "C71",
   "status": "proved",
   "theorems": [
    "C71_readme",
    "C71_readme_exact",
    "C71_readme_silent",
    "C71_exact",
    "C71_sent",
    "C71_any_sender",
    "C71_settled_needed"
   ],
   "note": "C71_exact (survives if and only if the digits show), C71_sent (X.691's octets for all messages, lost or not), C71_any_sender for all types that pass the checks; C71_readme, C71_readme_exact for the module made from the text in the README; C71_readme_silent: payload 01020304 arrives as 10203040; C71_settled_needed: the rule about DEFAULTs is needed"
  },
  {
   "property": "C72",
   "status": "proved",
   "theorems": [
    "C72_readme",
    "C72_readme_any_sender",
    "C72_received",
    "C72_received_all",
    "C72_any_sender",
    "C72_arrives",
    "C72_unchanged",
    "C72_shorter",
    "C72_digits",
    "C72_once",
    "C72_messages",
    "C72_every_message",
    "C72_refused"
   ],
   "note": "C72_arrives (all supported objects, the digits aside), C72_messages and C72_every_message (all complete valid messages of types that pass a check), C72_unchanged, C72_digits, C72_shorter, C72_once (the string itself), C72_refused (one string), C72_received, C72_received_all, C72_any_sender (the value read is the value sent, its strings changed, also for X.691's octets from any sender), C72_readme, C72_readme_any_sender"
  },
  {
   "property": "C73",
   "status": "proved",
   "theorems": [
    "C73_readme",
    "C73_relay",
    "C73_chain",
    "C73_transparent"
   ],
   "note": "C73_transparent (types that pass `trusted`), C73_relay and C73_chain (types that pass `upward`), C73_readme; what is decoded is again a complete valid message (message_again), and digits are moved once (moved_twice)"
  },
  {
   "property": "C74",
   "status": "proved",
   "theorems": [
    "C74_read",
    "C74_same_text",
    "C74_skipped",
    "C74_import",
    "C74_generated"
   ],
   "note": "C74_read (a reader of lines and indentation, Printed.v, gets the statements back), C74_same_text, C74_skipped (equal class texts are equal classes), C74_import, C74_generated (what the generator writes from tidy objects, if it runs); C74_case: the fourteen modules of the test suite are read as the statements of their schemas"
  },
  {
   "property": "C75",
   "status": "partial",
   "theorems": [
    "C75_text_to_text_partial",
    "C75_written_text",
    "C75_readme"
   ],
   "note": "C75_text_to_text_partial (schemas of C49/C50), C75_written_text (any schema with distinct names whose module runs), C75_readme (the Python file of the README's protocol as it is in the test suite); missing are the schemas outside C49 and texts outside C50"
  },
  {
   "property": "C76",
   "status": "partial",
   "theorems": [
    "C76_file_partial",
    "C76_two_parties_partial",
    "C76_readme"
   ],
   "note": "C76_file_partial, C76_two_parties_partial, C76_readme (the README's text, the file, its import and the messages); missing are the schemas outside C49, texts outside C50 and states outside C57"
  }
 ]
}
