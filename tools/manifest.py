#!/usr/bin/env python3
"""Write MANIFEST.json: the theorems named C<nn>_... in rocq/theories, with the
status and note of each property given below."""
import collections, glob, json, os, re

HERE = os.path.dirname(os.path.dirname(os.path.abspath(__file__)))

NOTES = {
 "C01": ("partial", "full statement is false of the code: single-value extensible root and integers of 256+ octets; proved for everything else inside the implemented lengths, and C01_exact says exactly which values survive"),
 "C02": ("partial", "false beyond 65536 root items; proved up to that, and C02_exact says exactly which values survive"),
 "C03": ("partial", "empty string and extended strings of odd length (inside a larger type) are lost; proved elsewhere, and C03_exact says exactly which strings survive as a message"),
 "C04": ("partial", "leading zero digit lost with variable size; empty string lost without constraint; proved elsewhere, and C04_exact says exactly which strings survive as a message"),
 "C05": ("partial", "single-size extensible root comes back empty; proved elsewhere, and C05_exact says exactly which numbers of elements survive"),
 "C06": ("partial", "inherits the exclusions of the component types; proved by induction on the type for every supported object"),
 "C07": ("partial", "inherits the exclusions of the component types and of components without visible content; proved by induction on the type for every supported object"),
 "C08": ("partial", "false in full because of C01-C07; proved for every supported message, at every starting offset"),
 "C09": ("proved", "encode output is the produced bit string, padded with fewer than 8 zero bits to whole octets"),
 "C10": ("proved", ""),
 "C11": ("partial", "false in full; proved for supported messages, together with prefix freedom"),
 "C12": ("partial", "false of the code: a cut message can be accepted; proved that empty input raises, that only the last read can overrun and that a cut message raises or leaves the pointer past the end"),
 "C13": ("partial", "false for the SIZE of SEQUENCE OF (upper end, and lower end without upper end); everything else proved, and groups are complete; an OCTET STRING of a variable size never comes with a leading zero digit"),
 "C14": ("proved", "all four layouts of a constrained whole number, also reached through extensible roots and ENUMERATED"),
 "C15": ("partial", "contents octets exact; the length octet is not X.691 from 128 octets on (refuted); C15_exact: X.691 is followed exactly up to 127 octets"),
 "C16": ("partial", "proved up to 16383 octets; the length of longer ones is malformed (refuted); C16_exact: X.691 is followed exactly up to 16383 octets"),
 "C17": ("partial", "proved up to 16383; 16384 gives a 17-bit length (refuted); C17_exact: 16384 is the only length that is neither sent properly nor refused"),
 "C18": ("partial", "false for SIZE(0..0,...) and for empty BIT STRINGs outside the root; proved elsewhere; C18_exact says exactly for which values the bit is right"),
 "C19": ("proved", ""),
 "C20": ("partial", "false for BIT STRING defaults compared as numbers and for DEFAULT additions; C20_told_apart_iff and C20_exact say which values are taken for the default, and that exactly those equal to it come back"),
 "C21": ("partial", "only the immediately preceding addition is checked, so the full statement is false; C21_exact gives the rules that decide whether the encoder accepts"),
 "C22": ("partial", "false for additions with DEFAULT, and for an untouched all-optional SEQUENCE after a required addition; C22_exact gives the exact condition, C22_default_addition covers every DEFAULT addition of a simple value"),
 "C23": ("partial", "false when the first addition is absent and another sent, and for what follows the SEQUENCE; proved otherwise; C23_first_invented: in the first case the receiver always has an addition that was not sent, unless it raises"),
 "C24": ("partial", "false as soon as an addition is sent; proved when none is; C24_first_lost: whenever additions are sent, the first one sent never arrives"),
 "C25": ("partial", "false for SIZE(0..0); proved elsewhere; C25_zero_unchecked: SIZE(0) lets every list pass, so C25_exact"),
 "C26": ("proved", "the hole may be at any depth reached by the encoder"),
 "C27": ("proved", "whatever decoder is used for the content"),
 "C28": ("partial", "false when an addition group is sent without one of its mandatory components; proved for every other object, and for every object of a quiet type"),
 "C29": ("partial", "false for SEQUENCEs of optional presence whose components may all be absent or defaulted, and for a CHOICE asked for an alternative that is not selected; proved for every sequence of the other reads, errors included"),
 "C30": ("partial", "false for the values C01-C07 lose and for a CHOICE of a SEQUENCE without visible content; proved, errors included, for supported messages whose unsent components are untouched"),
 "C31": ("partial", "false for BIT STRINGs of varying length, for left-out SEQUENCEs with defaults and for empty lists; proved for messages without those"),
 "C32": ("proved", "also bounds the number of elements a SEQUENCE OF can announce"),
 "C33": ("proved", "for every sequence of reads and alignments"),
 "C34": ("partial", "false with an extensible part inside a non-extensible union; C34_dichotomy and C34_exact: every constraint is bounded by its end points unless its markers let every number pass, and C34_all_survive_iff: exactly then numbers are lost on the wire"),
 "C35": ("partial", "false for intersections (their hull is used); proved for unions of ranges and single values; C35_exact: the end points of an intersection are effective exactly if all parts have the same"),
 "C36": ("proved", "also: the numbers are those the codec proofs assume"),
 "C37": ("proved", "and sorting succeeds unless a top-level type is DATE or VisibleString"),
 "C38": ("partial", "false for chains of more than 101 types (100 passes), for references through aliases and for types named like library classes; proved for every other acyclic set of references, aliases of one level and simple types"),
 "C39": ("partial", "false for text behind a comment closed on its line, for /* */ comments and for double hyphens in strings; everything else proved"),
 "C40": ("proved", "also from the token list on: every component exactly once"),
 "C41": ("partial", "false with a second root list and with a group before a single addition; proved otherwise"),
 "C42": ("partial", "false as soon as a number is written; proved for items without numbers; C42_exact: an item keeps its name exactly if no number is written, and its number is always its place; see C65 for what importing such a module does"),
 "C43": ("partial", "false for values of defined types; proved for values of builtin types"),
 "C44": ("proved", "class names; component names are kept as they are"),
 "C45": ("partial", "false for empty strings of variable size, integers of 128 octets, DEFAULT additions, intersections, size bounds of 64K; proved for everything outside (conf), and for simple types and lists conf is exactly where the octets are those of X.691 (C45_simple_exact, C45_list_exact)"),
 "C46": ("partial", "for messages that C08 and C45 cover"),
 "C47": ("partial", "false for a CHOICE whose selected SEQUENCE has no value and for components left out because they are incomplete; proved for every other object of types with DEFAULT on simple components"),
 "C48": ("partial", "false for unions with gaps or not in rising order, intersections, EXCEPT, open end points, values behind the marker, and the marker or union inside SIZE; proved for single ranges, single values and rising unions without gaps"),
 "C50": ("partial", "false for other blanks inside OCTET STRING, constraints on references, second constraints, closed comments, types of other modules, DEFAULT {}, tagged types, NULL, SET OF, IMPORTS, DEFAULTs that are named numbers, versions, exceptions, named bits with constants, SIZE outside parentheses, EXPLICIT and IMPLICIT tags; proved for every spelling (Texts.v) of every schema in the notation of Meaning.v, any layout, tabs and comments"),
 "C51": ("proved", "for every text; the bound on the depth of calls in the model is shown not to matter"),
 "C52": ("partial", "for the texts of C50, the schemas of C49 and the messages of C45"),
 "C53": ("proved", "for every text; numbers, strings and end points of constraints are not among the words"),
 "C54": ("partial", "false: text behind END, ranges without '..', SIZE of INTEGER, ranges of BOOLEAN, reserved words and trailing hyphens in names, components of one name, empty ranges, constants of another type; proved that the words of a module's frame must be there"),
 "C55": ("partial", "false for octets with leading zero digits (05 01 leaves as 50 10) and for addition groups sent without their mandatory components; proved for every other supported message, and for every conforming message of any sender"),
 "C56": ("proved", "for all octet strings and objects; SEQUENCE components stay the same in both versions (C22-C24 are about those)"),
 "C57": ("partial", "holds for every schema whose typereferences and DEFAULT words, as far as earlier schemas know them, are defined in it (for any earlier state), and for every schema of the fragment of C49 unless an earlier one has a type named like an inner class or a constant named like a DEFAULT word; false otherwise: a constant of one schema turns up in the module of another, a type named EnumeratedType changes inline types of later schemas, and a schema that lacks a type gets that of another"),
 "C58": ("partial", "holds for every type whose list elements each take a bit: at most a factor (1 + depth of lists) per bit when decoding ends inside the input and no extension marker is there, the depth of lists alone without strings, and a constant more when input is missing; false otherwise: lists of elements without bits multiply with every level (k^d from one octet), two octets give 65535 elements, and missing bits of strings and open types are made up (16 to 65535 bits from one octet, 1000 elements from four)"),
 "C59": ("partial", "the exact lists: encode raises the declared ones, PyAsn1Error, TypeError (also by raise NotImplemented) and AttributeError, on strict types only the declared ones, PyAsn1Error and raise NotImplemented; decode raises PyAsn1Error, ValueError, TypeError, IndexError and raise NotImplemented; every one of them is raised by some type; false as claimed. It also shows that the model of the codec never stops at a point it does not describe (C59_model_covers)"),
 "C60": ("partial", "with a meter on fill_field_list and isValue, and encoding an extension alternative twice as the code does: the same result as Encoder.v on the objects of C28, fewer than 2^(d+1) calls of fill_field_list for each part under d extension alternatives, one isValue asks each object once if nothing mandatory is missing, otherwise at most 2^levels times; false as claimed: 2^(d+1)-1 calls for d alternatives in each other, reading an absent component makes every later encode ask 2^(d+2)-1 times, and an alternative that can be encoded as a root alternative is refused as an extension alternative"),
 "C61": ("partial", "the calls of _parse for any text are of at most 7200 kinds per character (with or without actions, the 3600 expressions of the grammar, the places of the text), so a parser that remembers its answers would be linear; false as claimed: the library does not enable that, alternatives are tried one by one and the best is read again, and every SEQUENCE around a type multiplies the calls by at least 384: 4 * 384^d calls for a correct schema of 41 + 15 d characters; no polynomial bounds the number of calls"),
 "C62": ("partial", "the first half holds for every object, exceptions included; the second is false when the octets select another alternative of a CHOICE (the object loses its value) and when they contain an OPTIONAL SEQUENCE whose components may all be absent (the object has it afterwards); proved for quiet types when the message selects the alternatives the object has selected, in particular when there are no CHOICEs"),
 "C63": ("proved", "for types with distinct names in each SEQUENCE and CHOICE (what pyasn1 demands); the errors of the encoder are the same but for the component name two of them carry"),
 "C64": ("partial", "one file directly in the folder, the same text, nothing on failure: proved for every text; false that files of other modules are kept (two modules of one name) and that the module can be imported (hyphens in the name); C64_importable_partial says exactly which names can"),
 "C65": ("partial", "proved for the types of fine and sortable schemas with at most 65536 items, by composing the meaning of generated modules (C49), the codec (C02) and versions (C56); false with numbers in the schema: such a module cannot be imported (C65_numbers_refuted, C65_number_spoils_module)"),
 "C66": ("partial", "proved for pairs of fine and sortable schemas, from the texts on (C66_texts_partial) and for classes (C66_classes_partial), and that other type names give the very same types (C66_type_names_partial); false in general: a constraint on the element of a SEQUENCE OF is kept when it is named and dropped when it is written in place (C66_spellings_refuted)"),
 "C67": ("proved", "C67_longest for all sane types and values; C67_integer_exact says when INTEGERs have no limit, C67_zero_size_unlimited that lists constrained to SIZE(0) have none"),
 "C68": ("proved", "C68_safe for all types that pass `safe` and modest messages, C68_limited for all messages of types that pass `limited` too; C68_nothing_hidden: what is set reads as present; C68_integer_exact, C68_bits_exact, C68_octets_exact, C68_list_exact: the check rejects only types that lose a message; C68_rules_needed: for each rule on constructed types a message lost without it"),
 "C69": ("proved", "C69_standard for all types that pass `safe` and `standard` and all messages within the limits, C69_limited for all messages of types that pass `limited` too; C69_rules_needed: for each rule of `standard` a message that deviates without it"),
 "C70": ("partial", "C70_every_value, C70_any_sender, C70_no_confusion for all types that pass `trusted` and all their values; C70_messages_valid: the values of messages are values of the type; C70_bare_needed: a DEFAULT in a group misread; C70_texts_partial, C70_two_texts_partial: the same for classes made from texts, missing the texts outside C50"),
 "C71": ("proved", "C71_exact (survives if and only if the digits show), C71_sent (X.691's octets for all messages, lost or not), C71_any_sender for all types that pass the checks; C71_readme, C71_readme_exact for the module made from the text in the README; C71_readme_silent: payload 01020304 arrives as 10203040; C71_settled_needed: the rule about DEFAULTs is needed"),
 "C72": ("proved", "C72_arrives (all supported objects, the digits aside), C72_messages and C72_every_message (all complete valid messages of types that pass a check), C72_unchanged, C72_digits, C72_shorter, C72_once (the string itself), C72_refused (one string), C72_received, C72_received_all, C72_any_sender (the value read is the value sent, its strings changed, also for X.691's octets from any sender), C72_readme, C72_readme_any_sender"),
 "C73": ("proved", "C73_transparent (types that pass `trusted`), C73_relay and C73_chain (types that pass `upward`), C73_readme; what is decoded is again a complete valid message (message_again), and digits are moved once (moved_twice)"),
 "C74": ("proved", "C74_read (a reader of lines and indentation, Printed.v, gets the statements back), C74_same_text, C74_skipped (equal class texts are equal classes), C74_import, C74_generated (what the generator writes from tidy objects, if it runs); C74_case: the fourteen modules of the test suite are read as the statements of their schemas"),
 "C75": ("partial", "C75_text_to_text_partial (schemas of C49/C50), C75_written_text (any schema with distinct names whose module runs), C75_readme (the Python file of the README's protocol as it is in the test suite); missing are the schemas outside C49 and texts outside C50"),
 "C76": ("partial", "C76_file_partial, C76_two_parties_partial, C76_readme (the README's text, the file, its import and the messages); missing are the schemas outside C49, texts outside C50 and states outside C57"),
 "C49": ("partial", "false for 22 kinds of schemas, one refutation each (constraints on elements, names of the library, hyphens in constants, chains of aliases, DEFAULTs through references, ...); proved, for any number of assignments in any order, for the schemas in fine_schema and sortable, which 11 of the 14 schemas of the test suite meet"),
}

def main():
    found = collections.OrderedDict()
    for path in sorted(glob.glob(os.path.join(HERE, "rocq", "theories", "*.v"))):
        for m in re.finditer(r"^(?:Theorem|Corollary)\s+(C\d\d)_(\w+)", open(path).read(), re.M):
            found.setdefault(m.group(1), []).append(m.group(1) + "_" + m.group(2))
    claims = []
    for p in sorted(set(found) | set(NOTES)):
        status, note = NOTES.get(p, ("partial", ""))
        claims.append({"property": p, "status": status, "theorems": found.get(p, []), "note": note})
        if p not in NOTES:
            print("no note for", p)
        if status == "proved" and any(re.search(r"_(partial|refuted)$", t) for t in found.get(p, [])):
            print("proved but has partial/refuted:", p)
        if status == "partial" and not any(re.search(r"_(partial|refuted)$", t) for t in found.get(p, [])):
            print("partial without partial/refuted:", p)
    with open(os.path.join(HERE, "MANIFEST.json"), "w") as f:
        json.dump({"claims": claims}, f, indent=1)
        f.write("\n")

main()
