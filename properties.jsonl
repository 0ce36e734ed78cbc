{"id": "C01", "title": "INTEGER survives encode/decode", "statement": "For an INTEGER type with any value constraint (none, lower bound only, both bounds, extensible or not) and any value the type accepts, decode(encode(v)) yields an INTEGER equal to v.", "quantifier": "every constraint, every integer value of any magnitude accepted by it", "why_tests_cant": "the value space is unbounded and the encoding changes shape at range 1/2/255/256/65536 and at every power of 256; tests sample a few values per shape", "anchors": ["asn1PERser/codec/per/encoder.py:encode_integer", "asn1PERser/codec/per/decoder.py:decode_integer", "asn1PERser/codec/per/encoder.py:get_range_octet_len", "asn1PERser/codec/per/encoder.py:get_twos_complement_octet_len", "asn1PERser/codec/per/decoder.py:twos_comp"]}
{"id": "C02", "title": "ENUMERATED survives encode/decode", "statement": "For an ENUMERATED type with any number of root items and any number of extension items, decoding the encoding of an item yields the same item.", "quantifier": "every number of root items, every number of extension items, every item", "why_tests_cant": "the index width and the normally-small escape at 64 depend on unbounded counts", "anchors": ["asn1PERser/codec/per/encoder.py:encode_enumerated", "asn1PERser/codec/per/decoder.py:decode_enumerated", "asn1PERser/codec/per/encoder.py:encode_normally_small_non_negative_whole_number", "asn1PERser/codec/per/decoder.py:decode_normally_small_non_negative_whole_number"]}
{"id": "C03", "title": "BIT STRING survives encode/decode", "statement": "For a BIT STRING type with any SIZE constraint and any bit string it accepts, decoding the encoding yields the same bits and the same length.", "quantifier": "every SIZE constraint and every bit string content and length", "why_tests_cant": "2^n contents per length and several length regimes (empty, fixed <=16, fixed >16, variable, extended, unconstrained)", "anchors": ["asn1PERser/codec/per/encoder.py:encode_bitstring", "asn1PERser/codec/per/decoder.py:decode_bitstring", "asn1PERser/classes/data/builtin/BitStringType.py:BitStringType"]}
{"id": "C04", "title": "OCTET STRING survives encode/decode", "statement": "For an OCTET STRING type with any SIZE constraint and any octet string it accepts, decoding the encoding yields the same octets.", "quantifier": "every SIZE constraint and every octet string content and length", "why_tests_cant": "content-dependent (leading zero) failures are only visible for particular contents in particular length regimes", "anchors": ["asn1PERser/codec/per/encoder.py:encode_octetstring", "asn1PERser/codec/per/decoder.py:decode_octetstring", "asn1PERser/classes/data/builtin/OctetStringType.py:OctetStringType"]}
{"id": "C05", "title": "SEQUENCE OF survives encode/decode", "statement": "For a SEQUENCE OF type with any SIZE constraint and any list of element values, if every element survives encode/decode in every position then so does the list: same number of elements, same elements, same order.", "quantifier": "every element type, every SIZE constraint, every list length and contents", "why_tests_cant": "unbounded length and arbitrary element types; elements start at arbitrary bit offsets", "anchors": ["asn1PERser/codec/per/encoder.py:encode_sequence_of", "asn1PERser/codec/per/decoder.py:decode_sequence_of"]}
{"id": "C06", "title": "CHOICE survives encode/decode", "statement": "For a CHOICE type with any root alternatives, extension additions and addition groups, decoding the encoding of a selected alternative yields the same selection with the same content.", "quantifier": "every number of alternatives, every selection, every content", "why_tests_cant": "index width depends on the number of alternatives; extension alternatives are wrapped in open types", "anchors": ["asn1PERser/codec/per/encoder.py:encode_choice", "asn1PERser/codec/per/decoder.py:decode_choice", "asn1PERser/codec/per/encoder.py:encode_open_type_field", "asn1PERser/codec/per/decoder.py:decode_open_type_field"]}
{"id": "C07", "title": "SEQUENCE survives encode/decode", "statement": "For a SEQUENCE type with any mix of mandatory, OPTIONAL and DEFAULT root components, extension additions and addition groups, and any setting of the components, decoding the encoding yields a SEQUENCE in which every component has the same presence and content.", "quantifier": "every component list, every subset of present components, every content", "why_tests_cant": "2^n presence combinations for n optional components, crossed with extension presence", "anchors": ["asn1PERser/codec/per/encoder.py:encode_sequence", "asn1PERser/codec/per/decoder.py:decode_sequence", "asn1PERser/codec/per/encoder.py:create_new_fake_empty_sequence", "asn1PERser/codec/per/decoder.py:create_new_fake_empty_sequence"]}
{"id": "C08", "title": "A whole nested message survives encode/decode", "statement": "For any ASN.1 type built to any depth from BOOLEAN, INTEGER, ENUMERATED, BIT STRING, OCTET STRING, SEQUENCE, SEQUENCE OF and CHOICE, and any message of that type, decode(encode(m)) reads the same as m, whatever the bit offset at which each part starts.", "quantifier": "every type of every depth, every message", "why_tests_cant": "unbounded nesting, and alignment interacts with the bit offset left by preceding siblings", "anchors": ["asn1PERser/codec/per/encoder.py:encode", "asn1PERser/codec/per/decoder.py:decode", "asn1PERser/codec/per/encoder.py:_produce_complete_encoding", "asn1PERser/codec/per/decoder.py:PerBytes"]}
{"id": "C09", "title": "encode returns whole octets with minimal zero padding", "statement": "encode(m), when it returns, returns at least one octet; its bits are the fields in order, each aligned field preceded by the fewest zero bits that reach an octet boundary, and the end padded with fewer than eight zero bits (one zero octet if there are no bits).", "quantifier": "every list of fields any message can produce", "why_tests_cant": "padding depends on the running bit position, which takes all residues modulo 8", "anchors": ["asn1PERser/codec/per/encoder.py:encode", "asn1PERser/codec/per/encoder.py:_produce_complete_encoding", "asn1PERser/codec/per/encoder.py:_bin_to_hex"]}
{"id": "C10", "title": "Bytes after the message do not influence decoding", "statement": "If decode(b, T) returns v having consumed no more than the bits of b, then decode(b + extra, T) returns the same v for any extra bytes, and the decoder never moves its read position backwards.", "quantifier": "every type, every input, every suffix", "why_tests_cant": "all suffixes of all inputs of all types", "anchors": ["asn1PERser/codec/per/decoder.py:decode", "asn1PERser/codec/per/decoder.py:PerBytes.next", "asn1PERser/codec/per/decoder.py:Offset"]}
{"id": "C11", "title": "Different messages have different encodings", "statement": "Two messages of one type that read differently are never encoded to the same bytes.", "quantifier": "every type, every pair of messages", "why_tests_cant": "quadratic in an unbounded message space", "anchors": ["asn1PERser/codec/per/encoder.py:encode"]}
{"id": "C12", "title": "Truncated input is never silently accepted", "statement": "If the input ends before the bits the decoder asks for, decode raises instead of returning a value.", "quantifier": "every type and every truncated input", "why_tests_cant": "every cut point of every encoding", "anchors": ["asn1PERser/codec/per/decoder.py:PerBytes.next", "asn1PERser/codec/per/decoder.py:PerBytes.__getitem__", "asn1PERser/codec/per/decoder.py:decode"]}
{"id": "C13", "title": "Whatever decode accepts satisfies the schema", "statement": "If decode returns v for type T then v satisfies T: integer ranges, string sizes, SEQUENCE OF sizes, known enumeration items, a known CHOICE alternative, every mandatory root component set.", "quantifier": "every type and every input byte string, including adversarial input", "why_tests_cant": "all byte strings as input", "anchors": ["asn1PERser/codec/per/decoder.py:decode", "asn1PERser/classes/types/constraint.py"]}
{"id": "C14", "title": "Constrained whole numbers use the X.691 11.5 bit layout", "statement": "An INTEGER(lb..ub) with range r = ub-lb+1 is encoded as n-lb in: nothing (r=1), the least number of bits able to hold r-1 (r<=255), one aligned octet (r=256), two aligned octets (r<=65536), or a length followed by the least number of aligned octets (r>65536).", "quantifier": "every lb <= n <= ub", "why_tests_cant": "unbounded bounds; the width table is written case by case and must agree with the arithmetic rule for all ranges", "anchors": ["asn1PERser/codec/per/encoder.py:encode_constrained_whole_number", "asn1PERser/codec/per/encoder.py:get_bit_field_size", "asn1PERser/codec/per/encoder.py:create_field_list_for_constrained_whole_number", "asn1PERser/codec/per/encoder.py:get_range_octet_len"]}
{"id": "C15", "title": "Unconstrained INTEGER uses the shortest two's complement", "statement": "An unconstrained INTEGER is encoded, octet aligned, as a length followed by exactly that many octets holding its two's complement value, and no shorter octet string holds it; the length is encoded as X.691 11.9 prescribes.", "quantifier": "every integer of any size", "why_tests_cant": "minimality and sign handling at every power of 256, for unbounded magnitude", "anchors": ["asn1PERser/codec/per/encoder.py:create_field_list_for_unconstrained_whole_number", "asn1PERser/codec/per/encoder.py:encode_twos_complement_binary_integer", "asn1PERser/codec/per/encoder.py:get_twos_complement_octet_len"]}
{"id": "C16", "title": "Semi-constrained INTEGER uses the shortest octet string", "statement": "An INTEGER(lb..MAX) value n is encoded, octet aligned, as the general length k followed by k octets whose unsigned value is n-lb, k being the least number of octets (at least 1).", "quantifier": "every lb and every n >= lb", "why_tests_cant": "unbounded magnitude", "anchors": ["asn1PERser/codec/per/encoder.py:encode_semi_constrained_whole_number", "asn1PERser/codec/per/encoder.py:encode_non_negative_binary_integer", "asn1PERser/codec/per/encoder.py:encode_integer"]}
{"id": "C17", "title": "General length determinants follow X.691 11.9", "statement": "A general length n is sent as one aligned octet 0nnnnnnn when n <= 127, as two aligned octets 10nnnnnn nnnnnnnn when 128 <= n <= 16383, and longer lengths are either fragmented or refused, never sent malformed; the decoder recovers n.", "quantifier": "every n", "why_tests_cant": "boundary behaviour at 127/128 and 16383/16384/16385 and beyond", "anchors": ["asn1PERser/codec/per/encoder.py:encode_length_determinant", "asn1PERser/codec/per/decoder.py:decode_length_determinant"]}
{"id": "C18", "title": "The extension bit tells whether the value is in the root", "statement": "For every extensible type the first bit of the encoding is 0 exactly when the value (integer, size, item, alternative, or set of present components) lies in the extension root.", "quantifier": "every extensible type and every value", "why_tests_cant": "all values of all extensible types", "anchors": ["asn1PERser/codec/per/encoder.py:encode_integer", "asn1PERser/codec/per/encoder.py:encode_bitstring", "asn1PERser/codec/per/encoder.py:encode_octetstring", "asn1PERser/codec/per/encoder.py:encode_sequence_of", "asn1PERser/codec/per/encoder.py:encode_enumerated", "asn1PERser/codec/per/encoder.py:encode_choice", "asn1PERser/codec/per/encoder.py:encode_sequence"]}
{"id": "C19", "title": "The presence bitmap of a SEQUENCE is exact", "statement": "After the extension bit, the encoding of a SEQUENCE carries one bit per OPTIONAL/DEFAULT root component, in schema order, set exactly when that component is sent, and only the components whose bit is set (and the mandatory ones) are sent.", "quantifier": "every SEQUENCE type and every subset of present components", "why_tests_cant": "2^n subsets", "anchors": ["asn1PERser/codec/per/encoder.py:encode_sequence"]}
{"id": "C20", "title": "DEFAULT values are implied, not sent, and restored", "statement": "A DEFAULT component that equals its default is not sent, one that differs is sent, and after decoding the component reads as the original value in both cases.", "quantifier": "every SEQUENCE with DEFAULT components, every default and every value", "why_tests_cant": "all pairs (default, value)", "anchors": ["asn1PERser/codec/per/encoder.py:encode_sequence", "asn1PERser/codec/per/decoder.py:decode_sequence"]}
{"id": "C21", "title": "A sent extension addition implies every earlier mandatory one is sent", "statement": "If encode succeeds, then whenever an extension addition (or addition group) is sent, every earlier addition that is not OPTIONAL/DEFAULT is sent as well; otherwise encode raises.", "quantifier": "every extensible SEQUENCE and every subset of additions set", "why_tests_cant": "2^n subsets of additions", "anchors": ["asn1PERser/codec/per/encoder.py:encode_sequence", "asn1PERser/codec/per/encoder.py:MandatoryExtensionFieldNotPresent", "asn1PERser/codec/per/encoder.py:MandatoryFieldNotPresentInExtensionGroup"]}
{"id": "C22", "title": "With no additions set an extensible SEQUENCE encodes like version 1", "statement": "If no extension addition is set, the encoding of an extensible SEQUENCE is the same as that of the same root declared with only an extension marker.", "quantifier": "every extensible SEQUENCE and every root content", "why_tests_cant": "all root contents and addition lists", "anchors": ["asn1PERser/codec/per/encoder.py:encode_sequence"]}
{"id": "C23", "title": "Old decoder reads a newer sender", "statement": "If the sender's SEQUENCE has further extension additions appended, a decoder built from the shorter schema recovers all root components and all additions it knows, and continues correctly after the SEQUENCE.", "quantifier": "every pair of schema versions and every message", "why_tests_cant": "all version pairs and presence patterns", "anchors": ["asn1PERser/codec/per/decoder.py:decode_sequence"]}
{"id": "C24", "title": "New decoder reads an older sender", "statement": "If the sender's SEQUENCE lacks the last extension additions, a decoder built from the longer schema recovers all components sent and reports the missing additions as absent.", "quantifier": "every pair of schema versions and every message", "why_tests_cant": "all version pairs and presence patterns", "anchors": ["asn1PERser/codec/per/decoder.py:decode_sequence"]}
{"id": "C25", "title": "SEQUENCE OF size violations are refused", "statement": "encode of a non-extensible SEQUENCE OF whose number of elements is outside its SIZE constraint raises and emits nothing.", "quantifier": "every SIZE constraint, every number of elements", "why_tests_cant": "unbounded counts and bounds", "anchors": ["asn1PERser/codec/per/encoder.py:encode_sequence_of", "asn1PERser/codec/per/encoder.py:SizeConstrainViolated", "asn1PERser/codec/per/encoder.py:InvalidComponentIndexIntoStructuredType"]}
{"id": "C26", "title": "A message with a mandatory simple component unset is refused", "statement": "encode never returns bytes for a SEQUENCE (at any depth reached by the encoder) whose mandatory root component of a simple type has not been set, nor for a CHOICE with nothing selected.", "quantifier": "every type, every message with a hole", "why_tests_cant": "all nesting positions of the hole", "anchors": ["asn1PERser/codec/per/encoder.py:encode_sequence", "asn1PERser/codec/per/encoder.py:encode_choice"]}
{"id": "C27", "title": "Only the declared content of an open type is consumed", "statement": "When an extension addition is decoded the read position afterwards is exactly the end of the declared octets, whatever the octets contain and however much of them the inner type uses.", "quantifier": "every type and every open type content", "why_tests_cant": "all contents, including inner values longer or shorter than declared", "anchors": ["asn1PERser/codec/per/decoder.py:decode_open_type_field"]}
{"id": "C28", "title": "encode is repeatable", "statement": "Encoding the same message object twice returns the same bytes; encode does not change what the message reads as.", "quantifier": "every type and every message object, in whatever state of instantiation earlier reads left it", "why_tests_cant": "depends on object history", "anchors": ["asn1PERser/codec/per/encoder.py:encode", "asn1PERser/codec/per/encoder.py:encode_sequence"]}
{"id": "C29", "title": "Reading a message does not change its encoding", "statement": "Calling to_dict() or reading a component of a message does not change what encode returns for it.", "quantifier": "every message object, every sequence of reads", "why_tests_cant": "depends on the history of calls made on the object", "anchors": ["asn1PERser/classes/data/builtin/SequenceType.py:to_dict", "asn1PERser/classes/data/builtin/SequenceType.py:isValue", "asn1PERser/codec/per/encoder.py:encode_sequence"]}
{"id": "C30", "title": "to_dict agrees before and after the wire", "statement": "decode(encode(m)).to_dict() == m.to_dict().", "quantifier": "every type and every message", "why_tests_cant": "unbounded nesting and contents", "anchors": ["asn1PERser/classes/data/builtin/SequenceType.py:to_dict", "asn1PERser/classes/data/builtin/ChoiceType.py:to_dict", "asn1PERser/classes/data/builtin/SequenceOfType.py:to_dict"]}
{"id": "C31", "title": "to_dict distinguishes messages", "statement": "Two messages of the same type that read differently have different to_dict() results.", "quantifier": "every type and pair of messages", "why_tests_cant": "quadratic in an unbounded message space", "anchors": ["asn1PERser/classes/data/builtin/BitStringType.py:to_dict"]}
{"id": "C32", "title": "Encoder and decoder terminate and answer on every input", "statement": "encode and decode return or raise for every message and every byte string; the octet-counting loops stop at the least count that fits.", "quantifier": "every integer magnitude, every type depth, every input", "why_tests_cant": "termination of while True loops for unbounded values", "anchors": ["asn1PERser/codec/per/encoder.py:get_range_octet_len", "asn1PERser/codec/per/encoder.py:get_twos_complement_octet_len", "asn1PERser/codec/per/decoder.py:decode"]}
{"id": "C33", "title": "The decoder's bit pointer is exact", "statement": "After any sequence of reads and alignments the pointer equals the total number of bits consumed including alignment gaps, and alignment moves it to the next multiple of eight and nowhere else.", "quantifier": "every sequence of reads of any sizes", "why_tests_cant": "all histories of reads", "anchors": ["asn1PERser/codec/per/decoder.py:Offset", "asn1PERser/codec/per/decoder.py:PerBytes.next"]}
{"id": "C34", "title": "Constraint end points bound every accepted value", "statement": "Every value that a non-extensible constraint (range, size, single value, union, intersection) accepts lies between the lowerEndpoint and upperEndpoint that drive the encoding, so the encoder never has to encode a number outside its field.", "quantifier": "every constraint expression, every value", "why_tests_cant": "unbounded nesting of unions and intersections", "anchors": ["asn1PERser/classes/types/constraint.py:ConstraintOr", "asn1PERser/classes/types/constraint.py:ConstraintAnd", "asn1PERser/classes/types/constraint.py:SingleValue"]}
{"id": "C35", "title": "Combined constraints are encoded with the effective range", "statement": "For a type with several constraints the encoder's end points are the least and greatest value the combined constraint accepts (X.691 effective constraint).", "quantifier": "every intersection and union of ranges", "why_tests_cant": "all combinations of bounds", "anchors": ["asn1PERser/classes/types/constraint.py:ConstraintAnd"]}
{"id": "C36", "title": "ENUMERATED items get distinct consecutive indices from the schema", "statement": "The generated class numbers the root items 0,1,2,... in order and continues with the extension items, so distinct items have distinct indices.", "quantifier": "every list of root and extension items", "why_tests_cant": "unbounded item lists", "anchors": ["asn1PERser/classes/types/builtin/EnumeratedType.py:fill_template"]}
{"id": "C37", "title": "Schema ordering loses and duplicates nothing", "statement": "The list of assignments written to the generated module is a permutation of the assignments parsed.", "quantifier": "every list of assignments with distinct names", "why_tests_cant": "all permutations and dependency graphs", "anchors": ["asn1PERser/classes/module.py:sort_assigment_list", "asn1PERser/classes/module.py:sort_components", "asn1PERser/classes/module.py:additional_sort"]}
{"id": "C38", "title": "Generated classes are defined before they are used", "statement": "In the generated module every structured type is emitted after the structured types its components (transitively through inline types) refer to, whenever the references are acyclic.", "quantifier": "every acyclic set of structured types in any source order", "why_tests_cant": "all dependency graphs and source orders", "anchors": ["asn1PERser/classes/module.py:sort_components", "asn1PERser/classes/module.py:_get_subcomponents"]}
{"id": "C39", "title": "Comment removal touches only comments", "statement": "Preprocessing keeps the number of lines, leaves no comment start behind, is idempotent, keeps the text before a comment unchanged, and keeps the text after a comment that is closed on the same line.", "quantifier": "every schema text", "why_tests_cant": "all texts", "anchors": ["asn1PERser/classes/module.py:remove_comments", "asn1PERser/classes/module.py:_remove_line_comments"]}
{"id": "C40", "title": "Component lists concatenate root, additions and groups in order", "statement": "The component list of a generated SEQUENCE or CHOICE is the root components, then the additions, then the groups' components, each exactly once and in order.", "quantifier": "every list of root components, additions and groups", "why_tests_cant": "all list shapes", "anchors": ["asn1PERser/classes/types/type.py:AdditiveNamedTypes"]}
{"id": "C41", "title": "Extension structure follows the schema", "statement": "Root components, single additions and addition groups of a generated SEQUENCE or CHOICE are those the schema places there, in the order of the schema, so that presence bits and components are sent in the order X.691 prescribes.", "quantifier": "every body: root, additions and groups in any order, with or without a second root list", "why_tests_cant": "all interleavings of additions and groups", "anchors": ["asn1PERser/classes/types/builtin/SequenceType.py:fill_template", "asn1PERser/classes/types/builtin/ChoiceType.py:fill_template"]}
{"id": "C42", "title": "Numbers given to ENUMERATED items are honoured", "statement": "An item written name(number) gets that number and keeps its name; items without numbers keep their names and get the numbers X.680 assigns.", "quantifier": "every list of items with and without numbers", "why_tests_cant": "unbounded item lists", "anchors": ["asn1PERser/classes/types/builtin/EnumeratedType.py:EnumerationItems", "asn1PERser/classes/types/builtin/EnumeratedType.py:fill_template"]}
{"id": "C43", "title": "Values are defined before the constraints that name them", "statement": "In the generated module a value assignment comes before every type whose constraint names it as an end point.", "quantifier": "every list of assignments in any source order", "why_tests_cant": "all orders of values and types", "anchors": ["asn1PERser/classes/module.py:sort_assigment_list"]}
{"id": "C44", "title": "Name mangling keeps names distinct", "statement": "Distinct ASN.1 names become distinct Python names, and these contain no hyphen.", "quantifier": "every two names", "why_tests_cant": "all strings", "anchors": ["asn1PERser/classes/templates/__init__.py:template_class_name", "asn1PERser/classes/templates/__init__.py:template_field_type"]}
{"id": "C45", "title": "Encodings are those of X.691", "statement": "Whatever encode returns for an object is the aligned PER encoding that Recommendation X.691 prescribes for the value the object holds, and that encoding is unique.", "quantifier": "every type the library has, nested to any depth, and every object of it", "why_tests_cant": "encoder and decoder may agree on a wrong format; only a description of the format itself, for all values and offsets, excludes that", "anchors": ["asn1PERser/codec/per/encoder.py:encode", "asn1PERser/codec/per/encoder.py:encode_sequence", "asn1PERser/codec/per/encoder.py:encode_choice"]}
{"id": "C46", "title": "Conforming messages of other senders are understood", "statement": "Octets that are the X.691 encoding of a message, whoever produced them, are decoded to an object that says the same, and two different messages never have the same octets.", "quantifier": "every type, every message", "why_tests_cant": "all messages of all types, without running a second implementation", "anchors": ["asn1PERser/codec/per/decoder.py:decode"]}
{"id": "C47", "title": "A dictionary shows the message", "statement": "The dictionary to_dict returns has, in declaration order, one item per component that has a value, under the component's name and showing that value (numbers as numbers, octets as two hexadecimal digits each, high digit first, BIT STRINGs as the number their bits form, enumerations by name); absent components contribute nothing but the DEFAULTs they would have.", "quantifier": "every type, nested to any depth, and every object of it", "why_tests_cant": "symmetric mistakes in names, digits or presence only show on the values that exercise them; types nest without bound", "anchors": ["asn1PERser/classes/data/builtin/SequenceType.py:to_dict", "asn1PERser/classes/data/builtin/SequenceOfType.py:to_dict", "asn1PERser/classes/data/builtin/ChoiceType.py:to_dict", "asn1PERser/classes/data/builtin/OctetStringType.py:to_dict"]}
{"id": "C48", "title": "A constraint admits the values it is written to admit", "statement": "The constraint object the generator builds from the text of a constraint admits exactly the values that the constraint denotes: ranges, single values, unions and intersections of these, SIZE, the extension marker, values behind the marker.", "quantifier": "every constraint the grammar accepts, any number of parts, any end points", "why_tests_cant": "constraints are built from any number of nested parts; the grammar's result is a nest of lists that is taken apart by position", "anchors": ["asn1PERser/classes/parse_actions.py:parse_Constraint", "asn1PERser/classes/types/constraint.py"]}
{"id": "C49", "title": "The generated module means what the schema means", "statement": "For every ASN.1 module in the supported notation the generator writes a Python module that can be imported, and in which every type name is bound to a class with exactly the constraints, components, presence, DEFAULT values and extension additions the schema gives it, and every value name to an object with the assigned value; the order of the assignments in the schema does not matter.", "quantifier": "every schema: any number of type and value assignments in any order, types nested to any depth", "why_tests_cant": "the tests compare the text of 14 generated modules; whether a text has the right meaning depends on the order of classes, on name capture and on constants, over all schemas", "anchors": ["asn1PERser/classes/module.py:PythonModule", "asn1PERser/classes/types/type.py", "asn1PERser/classes/templates"]}
{"id": "C50", "title": "A schema text is read as the schema it spells", "statement": "A text that spells a module in the supported notation is read as exactly the objects of its assignments, in their order, whatever blanks, tabs, line ends and comments are put between the items; no text spells two different lists of objects; and the module generated from what was read binds every name to its meaning.", "quantifier": "every schema with any number of assignments and any nesting, every spelling of it and every layout of that spelling", "why_tests_cant": "the grammar is a set of mutually recursive longest-match alternatives; that no alternative captures a prefix of another construct can only be seen by considering all types, all layouts and all continuations at once", "anchors": ["asn1PERser/asn_definitions/module_def.py", "asn1PERser/asn_definitions/type_def.py", "asn1PERser/asn_definitions/lexical_items.py", "asn1PERser/classes/parse_actions.py", "asn1PERser/__init__.py:parse_asn1_schema"]}
{"id": "C51", "title": "The schema parser answers on every text", "statement": "For every text, whether it is ASN.1 or not, reading it ends: with objects, with a parse error or with another exception; the grammar is not left-recursive and no repetition can match nothing.", "quantifier": "every text", "why_tests_cant": "non-termination of a recursive grammar shows only on texts nobody thought of", "anchors": ["asn1PERser/asn_definitions/type_def.py", "asn1PERser/asn_definitions/value_def.py", "asn1PERser/asn_definitions/constraint_def.py", "asn1PERser/classes/parse_actions.py:parse_Constraint"]}
{"id": "C52", "title": "Two parties that read the same schema understand each other", "statement": "Two modules, generated from two texts of the same assignments, in whatever order, layout and with whatever comments, bind every type name to classes of the same meaning; the octets one of them encodes are those X.691 gives for the value, and the other decodes them to an object that says the same.", "quantifier": "every pair of texts of one set of assignments, every type of the schema and every value of it that conforms", "why_tests_cant": "two independent layouts and orders of one schema, all types and all values at once; the claim crosses the grammar, the sorter, the generator and the codec", "anchors": ["asn1PERser/__init__.py:parse_asn1_schema", "asn1PERser/codec/per/encoder.py:encode", "asn1PERser/codec/per/decoder.py:decode", "asn1PERser/classes/module.py"]}
{"id": "C53", "title": "Nothing is invented", "statement": "Whatever text is given to the parser: if it answers with objects, then the name of the module, every name, keyword and referenced type of which these objects consist stand in the text, outside its comments, as separate words and in the same order, between BEGIN and END.", "quantifier": "every text, schema or not, and every answer of the parser", "why_tests_cant": "tests feed texts that somebody wrote as schemas; the claim is about every string of characters, and about names that a parse action could take from the wrong token, duplicate or reorder", "anchors": ["asn1PERser/asn_definitions/module_def.py", "asn1PERser/asn_definitions/type_def.py", "asn1PERser/classes/parse_actions.py", "asn1PERser/__init__.py:parse_asn1_schema"]}
{"id": "C54", "title": "Only ASN.1 is accepted", "statement": "A text that is not a module of X.680 is refused: the parser raises instead of answering with objects.", "quantifier": "every text that is not an ASN.1 module", "why_tests_cant": "the set of texts that are not ASN.1 is infinite and the suite feeds none of them", "anchors": ["asn1PERser/__init__.py:parse_asn1_schema", "asn1PERser/asn_definitions/constraint_def.py", "asn1PERser/asn_definitions/lexical_items.py", "asn1PERser/classes/parse_actions.py:parse_Constraint"]}
{"id": "C55", "title": "A relay sends the octets it received", "statement": "A program that decodes a message and encodes the object it got, without touching it, sends exactly the octets that it received; in particular whatever was received and decoded can be encoded.", "quantifier": "every type, every message of it that a sender can produce, whatever octets follow it", "why_tests_cant": "the suite compares octets with values in either direction, never decode followed by encode on one type for all values; the object that decode builds has other slots filled than the object the sender made", "anchors": ["asn1PERser/codec/per/encoder.py:encode", "asn1PERser/codec/per/decoder.py:decode", "asn1PERser/codec/per/decoder.py:decode_sequence", "asn1PERser/codec/per/encoder.py:encode_sequence"]}
{"id": "C56", "title": "Versions that differ in alternatives and items understand each other", "statement": "When extensible ENUMERATED types get more items and CHOICE types more alternatives in a later version of a schema, behind the ones they had and anywhere inside the message: objects that use nothing new have the same octets in both versions; the later receiver reads everything the earlier one reads, with the same result; and the earlier receiver reads any octets as the later one does, if the result uses nothing new, and raises otherwise, so that it never takes one alternative or item for another.", "quantifier": "every pair of such versions of a type, nested to any depth, every object, and every octet string, whoever made it", "why_tests_cant": "it compares two schemas on all octet strings, with the differences at any depth; the suite has one version of each schema", "anchors": ["asn1PERser/codec/per/encoder.py:encode_choice", "asn1PERser/codec/per/encoder.py:encode_enumerated", "asn1PERser/codec/per/decoder.py:decode_choice", "asn1PERser/codec/per/decoder.py:decode_enumerated", "asn1PERser/codec/per/decoder.py:decode_open_type_field"]}
{"id": "C57", "title": "A module does not depend on the schemas parsed before", "statement": "The Python module generated from a schema is the same whether the schema is the first one parsed in the process or any others were parsed before it; in particular it can be imported whenever it can be imported alone, and a schema that lacks a type is refused either way.", "quantifier": "every schema and every history of earlier schemas", "why_tests_cant": "the dictionaries in module.py live as long as the process, so what matters is every pair of a history and a schema; the tests parse one schema after another but compare none with what it would have been alone", "anchors": ["asn1PERser/classes/module.py:10-13", "asn1PERser/classes/module.py:ASNModule", "asn1PERser/classes/parse_actions.py:parse_TypeAssignment", "asn1PERser/classes/types/constructed/SequenceType.py"]}
{"id": "C58", "title": "A decoded object is not much larger than its octets", "statement": "For every type there is a factor, computable from the type, such that the strings and lists of a decoded object hold no more than that many bits and elements for every bit received: a peer cannot make the receiver build a large object by sending a few octets.", "quantifier": "every type and every input, valid or not", "why_tests_cant": "concerns the worst input for every type; the tests only decode messages of the size they encode", "anchors": ["asn1PERser/codec/per/decoder.py:decode_sequence_of", "asn1PERser/codec/per/decoder.py:PerBytes.next", "asn1PERser/codec/per/decoder.py:decode_open_type_field", "asn1PERser/codec/per/decoder.py:decode_bitstring", "asn1PERser/codec/per/decoder.py:decode_octetstring"]}
{"id": "C59", "title": "Failures are reported by the documented exceptions", "statement": "encode fails only with one of the exceptions declared in encoder.py or pyasn1's PyAsn1Error, decode only with PyAsn1Error: a program that catches these never stops on another exception, whatever object it was given and whatever octets arrived.", "quantifier": "every type a module can hold, every object assignments can build (set or not, complete or not), every string of octets", "why_tests_cant": "tests fix the exception of a few wrong inputs; the claim is about every way to fail, including Python's own TypeError, ValueError, IndexError and AttributeError raised deep in the codec", "anchors": ["asn1PERser/codec/per/encoder.py:encode", "asn1PERser/codec/per/decoder.py:decode", "asn1PERser/codec/per/encoder.py:SizeConstrainViolated", "asn1PERser/codec/per/encoder.py:encode_length_determinant", "asn1PERser/codec/per/decoder.py:decode_length_determinant", "asn1PERser/codec/per/decoder.py:decode_choice", "asn1PERser/codec/per/decoder.py:decode_enumerated"]}
{"id": "C60", "title": "Encoding is linear work", "statement": "encode calls the encoder (fill_field_list) of every part of a message a bounded number of times and asks every object whether it has a value at most once per enclosing object, so the work of a call to encode grows linearly with the message and does not depend on which components were read before; and encoding a selected CHOICE alternative gives the same result whether it is a root or an extension alternative.", "quantifier": "every type with distinct component names, every object of it in any state reads and calls can leave, any nesting depth", "why_tests_cant": "the cost and the repeated calls are not visible in the octets; tests nest one or two levels, the growth with the depth and the state left by earlier calls are not in any of them", "anchors": ["asn1PERser/codec/per/encoder.py:encode_choice", "asn1PERser/codec/per/encoder.py:encode_open_type_field", "asn1PERser/codec/per/encoder.py:encode_sequence", "asn1PERser/classes/data/builtin/SequenceType.py:isValue"]}
{"id": "C61", "title": "Reading a schema is linear work", "statement": "The number of times parse_asn1_schema calls a parser element (ParserElement._parse) is at most proportional to the length of the schema, however its types are nested.", "quantifier": "every schema text; for the lower bound every nesting depth of inline SEQUENCE types", "why_tests_cant": "tests look at the result of parsing, and the test schemas nest types at most two levels; the growth of the time with the depth is not visible in any finite set of them", "anchors": ["asn1PERser/__init__.py:parse_asn1_schema", "asn1PERser/asn_definitions/type_def.py", "asn1PERser/asn_definitions/module_def.py"]}
{"id": "C62", "title": "decode leaves the object given as asn1Spec alone", "statement": "decode uses asn1Spec as a description of the type: the result does not depend on what the object holds, and the object encodes and reads the same afterwards.", "quantifier": "every octet string, every type, every state of the object given as asn1Spec", "why_tests_cant": "tests give decode a new object every time; an object that holds a message, or was used before, is a state they do not set up", "anchors": ["asn1PERser/codec/per/decoder.py:decode", "asn1PERser/codec/per/decoder.py:decode_sequence", "asn1PERser/codec/per/decoder.py:decode_choice"]}
{"id": "C63", "title": "Component names are not sent", "statement": "Two types that differ only in the names of their components (distinct within each SEQUENCE and CHOICE) have the same encodings: the same octets for the same values, the same values for the same octets, and the same refusals.", "quantifier": "all types, all renamings at all levels, all values, all octet strings", "why_tests_cant": "the encoder and decoder look components up by name in several places (bitmap, additions, groups, alternatives); a name that happens to influence the octets shows only for particular names", "anchors": ["asn1PERser/codec/per/encoder.py:encode_sequence", "asn1PERser/codec/per/encoder.py:encode_choice", "asn1PERser/codec/per/decoder.py:decode_sequence", "asn1PERser/codec/per/decoder.py:decode_choice"]}
{"id": "C64", "title": "The generated file: one file, inside the folder, importable", "statement": "With an output folder, parse_asn1_schema writes exactly what it would return without one, into one file directly in that folder, named after the module of the text; no text makes it write anywhere else, a call that fails changes no file, the file of another module is never lost, and the module can be imported by its name.", "quantifier": "all texts, all folders, all states of the disk, all earlier calls", "why_tests_cant": "the file name comes from the text of the schema; that no text whatsoever leads out of the folder or destroys a file on failure is a statement about all texts", "anchors": ["asn1PERser/__init__.py:parse_asn1_schema", "asn1PERser/classes/module.py:create_python_template", "asn1PERser/classes/parse_actions.py:parse_ModuleDefinition"]}
{"id": "C65", "title": "ENUMERATED items keep their names over the wire", "statement": "An object of a generated ENUMERATED class can be set to every item by the name the schema gives it, and to no other word; the receiver's object shows that name; a receiver of a version with more items behind the \"...\" shows the same name, and one of an earlier version shows the same name or refuses, never a wrong name.", "quantifier": "all schemas and pairs of versions of a schema, all ENUMERATED types in them (also through references), all items and words", "why_tests_cant": "names pass through the reader, the template, the import, the number on the wire and back; the tests look at one generated class and the numbers of three items, the claim is about every list of items and every pair of versions", "anchors": ["asn1PERser/classes/data/builtin/EnumeratedType.py:to_dict", "asn1PERser/classes/types/builtin/EnumeratedType.py:EnumeratedType", "asn1PERser/codec/per/encoder.py:encode_enumerated", "asn1PERser/codec/per/decoder.py:decode_enumerated"]}
{"id": "C66", "title": "Two spellings of a schema are one protocol", "statement": "Two parties whose schemas spell the same types differently - a type written in place or through a reference, other names for types, components, items and constants, a number written or named - get classes that encode every object to the same octets and decode all octets to the same object.", "quantifier": "all pairs of schemas whose types are equal but for names and for references written out, all types in them, all objects, all octet strings", "why_tests_cant": "the classes come out of different paths of the generator (nested classes, module-level classes, aliases, constants); the tests compare generated text with one golden file per schema, and no test generates two modules and lets them talk to each other", "anchors": ["asn1PERser/classes/types/builtin/DefinedType.py:DefinedType", "asn1PERser/classes/module.py:create_python_template", "asn1PERser/codec/per/encoder.py:encode", "asn1PERser/codec/per/decoder.py:decode"]}
{"id": "C67", "title": "The longest encoding is known from the schema", "statement": "From a schema alone one can compute a number of octets that no encoding of a value of it exceeds, or learn that there is none; for INTEGER types it is missing exactly when encodings of values of the type get arbitrarily long.", "quantifier": "all types with sane constraints and all values of them that the constructors and setters accept, in any nesting", "why_tests_cant": "a bound on the length speaks about all values at once; the tests look at chosen values, and the limits come from the interplay of alignment, length determinants, open types and the missing fragmentation", "anchors": ["asn1PERser/codec/per/encoder.py:encode", "asn1PERser/codec/per/encoder.py:encode_open_type_field", "asn1PERser/codec/per/encoder.py:encode_length_determinant", "asn1PERser/codec/per/encoder.py:encode_constrained_whole_number"]}
{"id": "C68", "title": "A schema that passes a check loses no message", "statement": "There is a check of a schema alone such that every complete and valid message of a type that passes it is encoded, and decoded to an object that reads the same, and every component that was set reads as present; messages outside the size limits are the only exception, and a second check of the schema alone says that there are none. On INTEGERs, strings and lists of BOOLEAN the check rejects exactly the types that lose a message.", "quantifier": "all types that pass the check, in any nesting, all complete valid messages of them", "why_tests_cant": "the library loses messages for many unrelated reasons (empty strings, extensible sizes, leading zero digits, defaults, presence judged by content); only a statement about all messages of a type says that none of them strikes", "anchors": ["asn1PERser/codec/per/encoder.py:encode", "asn1PERser/codec/per/decoder.py:decode", "asn1PERser/codec/per/encoder.py:encode_sequence", "asn1PERser/codec/per/encoder.py:encode_bitstring", "asn1PERser/codec/per/encoder.py:encode_octetstring"]}
{"id": "C69", "title": "A schema that passes a stricter check is encoded exactly as X.691 says", "statement": "There is a check of a schema alone such that every complete and valid message of a type that passes it (within the size limits) is encoded, the octets are the octets X.691 prescribes for its value and no others are, and they decode to an object that reads the same. A further check of the schema alone says that no message exceeds the limits. Each rule of the check is needed: a type that breaks it and a message whose octets are not those of X.691.", "quantifier": "all types that pass the check, in any nesting, all complete valid messages of them", "why_tests_cant": "the deviations from X.691 depend on the constraint, the value and the position; comparing octets of samples with another implementation says nothing about the other messages of the type", "anchors": ["asn1PERser/codec/per/encoder.py:encode", "asn1PERser/codec/per/encoder.py:encode_sequence", "asn1PERser/codec/per/encoder.py:encode_integer", "asn1PERser/codec/per/encoder.py:encode_sequence_of", "asn1PERser/classes/types/constraint.py"]}
{"id": "C70", "title": "Whatever another implementation may send is understood", "statement": "For a type that passes the checks, every value of the type (in the sense of ASN.1, in any version of the type) is that of an object, X.691 has exactly one encoding for it, which is what the library sends, and any octets X.691 has for it decode to an object that reads as that value; no two values have the same octets. A DEFAULT in an addition group breaks this: a message of an older sender is misread. The same holds for the classes made from the text of a schema.", "quantifier": "all types that pass the checks, all values of them, all octets X.691 allows for them", "why_tests_cant": "the values a peer sends are not made by the library, so that no round trip through the library reaches them; there are unboundedly many", "anchors": ["asn1PERser/codec/per/decoder.py:decode", "asn1PERser/codec/per/decoder.py:decode_sequence", "asn1PERser/codec/per/encoder.py:encode", "asn1PERser/classes/parse_actions.py", "asn1PERser/asn_definitions/module_def.py"]}
{"id": "C71", "title": "With OCTET STRINGs of a variable size, the messages that are lost are told exactly; so for the README's protocol", "statement": "For a schema that may have OCTET STRINGs of SIZE (l..h), 1 <= l < h, and otherwise passes the checks: every complete and valid message is encoded, to the octets X.691 prescribes; it is read back if and only if no OCTET STRING of a variable size in it starts with a zero hexadecimal digit, the single octet 00 aside; and of the values another implementation may send exactly those are read. The module made from the schema text in the README is such a schema: its messages are lost exactly when a string of the payload of a data message starts with a zero digit, and there is one that then arrives as another valid message without an error.", "quantifier": "all types that pass the checks, in any nesting, all complete valid messages of them, all octets X.691 has for their values; all messages of the README's protocol", "why_tests_cant": "the project's tests and the README use DEAD, BEEF and the like, which all start with a digit other than zero; only a proof over all payloads says that these are the only ones lost", "anchors": ["README.md:28", "asn1PERser/codec/per/decoder.py:decode_octetstring", "asn1PERser/codec/per/decoder.py:decode", "asn1PERser/codec/per/encoder.py:encode_octetstring", "asn1PERser/codec/per/encoder.py:encode"]}
{"id": "C72", "title": "What a message with OCTET STRINGs of a variable size is read as when zero digits are lost", "statement": "A message whose OCTET STRINGs of a variable size start with zero hexadecimal digits is decoded to the message in which each such string has its leading zero digits removed and, if then the number of digits is odd, a zero digit added at the end; a string of zeros becomes the single octet 00; everything else arrives as it was sent, whatever octets follow the message. The string never grows and never becomes empty, and a second relay changes nothing more. Where all sizes start at 1 no message is refused; where the shortened string breaks its size constraint, decoding the string raises PyAsn1Error. A data message of the README's protocol always arrives, with its payload so changed.", "quantifier": "all types, all messages whose strings, shortened, keep to their sizes; all complete valid messages of types with sizes from 1; all strings; all data messages of the README's protocol", "why_tests_cant": "there is no test with a leading zero digit, and one test shows one wrong string, not the rule by which all strings are changed", "anchors": ["asn1PERser/codec/per/decoder.py:decode_octetstring", "asn1PERser/codec/per/decoder.py:decode", "README.md:28"]}
{"id": "C73", "title": "Messages through relays", "statement": "A relay decodes a message with the library and encodes the object it got. For schemas that pass the checks of C70, the octets X.691 prescribes for any value of the type, whoever sends them, leave every relay unchanged. For schemas that also have OCTET STRINGs of variable sizes from 1, every such message passes, is sent on as X.691 prescribes for the value with its lost digits moved (C72), and from the second relay on the octets stay the same; so a receiver behind any number of relays reads the same value as one that is reached directly. This holds for the protocol of the README.", "quantifier": "all types that pass the checks, all values of the type, all numbers of relays", "why_tests_cant": "no test encodes a decoded object; chains have any length and messages any content", "anchors": ["asn1PERser/codec/per/decoder.py:decode", "asn1PERser/codec/per/encoder.py:encode", "README.md:28"]}
{"id": "C74", "title": "The text of a generated module can be read back", "statement": "The text that the templates lay a module out as determines its statements: reading the text as Python reads it, by lines and indentation, gives back every class with its name, base, nested classes, constraint, enumeration numbers, components, additions and groups in order, every alias and every value. So modules with different statements have different texts, importing the text is running the statements, and a class that the generator skips because its text has been written before is the same class.", "quantifier": "all lists of statements whose names are words (letters, digits, _ and -) and whose values are one line, any nesting", "why_tests_cant": "the test suite compares fourteen modules; names, numbers, nesting and the mix of additions and groups are unbounded", "anchors": ["asn1PERser/classes/templates/files/SequenceType.txt", "asn1PERser/classes/templates/files/ChoiceType.txt", "asn1PERser/classes/templates/files/EnumeratedType.txt", "asn1PERser/classes/templates/files/SequenceOfType.txt", "asn1PERser/classes/templates/creator.py", "asn1PERser/classes/module.py:31"]}
{"id": "C75", "title": "From the text of a schema to an imported Python text", "statement": "The library takes a text and writes a text. Reading the schema and generating gives a Python text; when Python imports that text, every type name of the schema is bound to a class that means what X.680 says the type means, and every value name to an object with that value. No name, default or number of the schema can break the layout of the Python text: whenever the generated statements run, the text that is written is read by Python as exactly these statements.", "quantifier": "all schemas with distinct names, every layout and commenting of their text (second part); with the fragment of C49 and C50 for the meaning", "why_tests_cant": "the test suite compares the Python text for fourteen schemas and imports none of it from text with other layouts; schemas and texts are unbounded", "anchors": ["asn1PERser/__init__.py", "asn1PERser/classes/module.py:31", "asn1PERser/classes/parse_actions.py:24", "asn1PERser/classes/templates/creator.py"]}
{"id": "C76", "title": "parse_asn1_schema from beginning to end", "statement": "Given the text of a schema and a folder, parse_asn1_schema writes one file, named after the module, leaves the other files alone, and Python can import the file: every type name is bound to a class that means what X.680 says, every value name to an object with that value, whatever was on the disk and whatever schemas the process read before (if they left nothing that C57 forbids). Two parties that import the files they get from texts of their own of the same schema understand each other's messages. For the README's protocol the file is SimpleProtocol.py as in the test suite.", "quantifier": "all texts of the schemas of C49 and C50, all folders and disks, all states left by earlier calls that C57 allows, all messages of the classes of C70", "why_tests_cant": "the test suite compares returned texts for fourteen schemas; it writes no file, imports no generated text and runs no two parties; texts, disks, states and messages are unbounded", "anchors": ["asn1PERser/__init__.py:12", "asn1PERser/classes/module.py:24", "asn1PERser/classes/module.py:31", "asn1PERser/classes/parse_actions.py:14", "asn1PERser/codec/per/encoder.py", "asn1PERser/codec/per/decoder.py"]}
