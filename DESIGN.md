# Formal model of asn1PERser: design

Everything is in Rocq/Coq 8.16.1 under `rocq/theories` (standard library only).
The Python in `/repo` was read as text; it is never run.

## 1. What is modelled

| Code in /repo/asn1PERser | Model file |
|---|---|
| Python helpers used by the codec: `bin`, `int(.,2)`, `zfill`, `format`, hex conversion | `PyBase.v` |
| `classes/types/constraint.py`, `classes/data/builtin/*.py`, the pyasn1 object behaviour the codec relies on | `Schema.v` |
| `codec/per/encoder.py` (all functions) | `Encoder.v` |
| `codec/per/encoder.py` again, with the number of calls of `fill_field_list` and `isValue`, extension alternatives encoded twice | `Counted.v` |
| `codec/per/decoder.py` (all functions) | `Decoder.v` |
| `classes/data/builtin/*.py: to_dict`, instantiation of components by reads | `Dict.v` |
| `classes/module.py` (ordering of assignments, comment removal), `classes/types/builtin/EnumeratedType.py` (numbering), `SequenceType.py` and `ChoiceType.py` (classification of components), `classes/types/type.py: AdditiveNamedTypes`, `classes/templates` (names, `componentType`) | `Generator.v` |
| `classes/types/type.py`, `classes/types/builtin/*.py: fill_template`, `classes/templates` (all templates but the text types'), `classes/module.py 31-37`: from parsed objects to the text of the module | `Emit.v` |
| importing that module: class bodies, name lookup, the library classes and constraint constructors | `Exec.v` |
| `classes/parse_actions.py`: what the parse actions build for an assignment, a type, a component (`parsed_as`, `built`) | `Meaning.v` |
| `classes/parse_actions.py: parse_Constraint` on the nested token lists of the grammar | `Subtypes.v` |
| `asn_definitions/*.py` (every rule), all of `classes/parse_actions.py`, the pyparsing elements they use (And, Or, ZeroOrMore, OneOrMore, Optional, Group, Suppress, Forward, Word, Regex, nestedExpr, parse actions, white space, `expandtabs`), `asn1PERser/__init__.py 12-15` | `Grammar.v` |
| `decoder.py` 68-74, 311-583 again, with the object given as asn1Spec before and after a call that returns | `Lending.v` |
| `module.py 24-29: create_python_template` with a path, `parse_actions.py 14-16` | `Files.v` |
| the same parser elements, the calls of `_parse` they make (no packrat cache: the library never enables it) | `Parses.v` |

`Meaning.v` also describes ASN.1 itself, as X.680 does and without the library: schemas (`schema`), and the type and value an
assignment means (`means`, `lit_is`); `GoldenSchemas.v` writes the 14 schemas of the test suite in it and checks that the
parsed objects agree with `GoldenTests.v`. `Modules.v` proves that one class text means its type, `FineCheck.v` is a verified
checker of the conditions of C49.

`Texts.v` describes texts of schemas without the library: items (`token`), the item lists that spell a schema (`spells`), how
items are laid out (`laid`), comments (`strip`). `Fast.v` is an equivalent parser without repeated work, for running examples;
`GrammarTests.v` (written by `tools/goldens.py`) reads the 14 schema texts of the test suite with it.

`TestUtil.v`, `TestVectors.v` and `ModelTests.v` replay test vectors of `/repo/asn1PERser/test`
against the model; `GoldenVectors.v` (written by `tools/goldens.py`) and `GoldenTests.v` compare the modules the model of the
generator writes with the 14 modules of the test suite, byte for byte. They are tests of the model's fidelity, not proofs of
properties.

Conventions:

* a bit string (`'0101'` in the code) is a `list bool`, most significant bit first;
* an octet is a `Z` in 0..255, a byte string is `list Z`; integers are `Z`;
* an exception is a value: every function returns `res A := Ok a | Err e`;
  `raise NotImplemented` raises `TypeError` in Python 3 and is `Err RaiseNotImplemented`;
* `while True` loops become fuelled recursion; C32 proves that the fuel is never exhausted;
* a type (generated class) is a term of the inductive `ty`, an object is a term of `val`;
  `VUnset` is pyasn1's `noValue`, a SEQUENCE object keeps the state
  "no component list yet" / list of slots, because the code tests it.

Every definition of a model file carries a comment with file and lines.

## 2. What is not modelled, and simplifications

* pyparsing is not in the sandbox. `Grammar.v` describes its elements from the published sources of 2.4.7: Or tries every alternative
  without actions and then takes the longest, an IndexError in an action is a ParseException, other exceptions leave the parser.
  Packrat caching is off by default and not modelled. Texts are ASCII. Quoted texts inside a parenthesised constraint (`nestedExpr` makes
  them one word) and actions applied to tokens they are never given answer `NotModelled`, which no theorem counts as success.
  Calls are bounded by a number; C51 shows that the bound does not matter.
* `Exec.v` describes Python as far as generated modules use it: where a module does something else (arithmetic on a name with
  a hyphen, a class where a number is expected, a class named like a function of the header), the model answers `NotModelled`, which counts
  as failure in every theorem. The list of attribute names a nested class must not take (`attributes`) is not complete.
* `Printed.v` describes how Python reads the text of a generated module: statements by lines, blocks by indentation, and only the forms the
  templates write. Other Python text is not read (`None`). That Python's own parser agrees on these forms is part of the trusted reading.
* pyasn1 is not in the sandbox. What the codec uses of it is written as definitions in `Schema.v`
  (component lookup, instantiation of slots, `isValue`, checks at construction; pyasn1 >= 0.4.7 as
  `setup.py` asks). This is part of the trusted reading, not an axiom.
* Size end points are assumed >= 0, as the grammar gives. `SingleValue` is modelled on numbers only.
  Named bits of BIT STRING and names of INTEGER values are not modelled (they do not reach the encoding).
  Component names are assumed distinct within a type where a theorem says so.
* ENUMERATED objects are modelled by their number; names appear only in the generator model.
* `encode_choice` encodes a selected extension alternative twice, for the field list and for the open type.
  `Encoder.v` does it once; `Counted.v` does it twice, on the object the first call left behind. `C60_result_partial` shows that the
  results are the same for the objects of C28, `C60_alternative_refuted` that they differ for others.
* The exceptions `BinSign`, `IllTyped`, `NotModelled` and `LoopFuel` mark points the model does not describe.
  `C59_model_covers` shows that encode and decode do not reach them on sane types and buildable objects.
* SEQUENCE { } (no component at all) has no component list and `isValue` false, as in pyasn1.
* Python's recursion limit, memory, logging. File output (`path`) is modelled in `Files.v` with a disk that either lets a path be opened or not.
* The templates of the text types (UTF8String, VisibleString, DATE, ...) and REAL, NULL; the grammar and the sorting know them.

## 3. Trusted base

* Coq's kernel (`coqc` 8.16.1; `coqchk` re-checks). `vm_compute` is used for concrete cases.
* No axiom is declared anywhere. `ASSUMPTIONS.txt` holds the answer of `Print Assumptions` for every theorem named in
  `MANIFEST.json` (made by `tools/assumptions.py`): all are "Closed under the global context".
  `coqchk` lists seven axioms of the standard library's `ssrunder` (`Under_rel`); they are loaded with the
  `Zify` files and no theorem depends on them.
* Fidelity of the model to the Python text: by inspection, helped by the replayed test vectors.

## 4. How the properties are proved

* *Encoder side.* Fields are pairs (align, bits). `render pos fs` is the bit string written when
  the message so far has `pos` bits; the code's accumulation is proved equal to it (`Stream.v`).
* *Decoder side.* `reads d pos w a`: whatever precedes (pos bits) and follows,
  running `d` on a stream with `w` at `pos` returns `a` and stops at `pos + |w|`. It composes over bind.
* Round trip of each type is "`reads (decode t) pos (render pos (encode t v)) v`" for
  every `pos`; nested types follow by induction on the type (`RoundTrip.v`, `Reading.v`).
* `Spec.v` states what is promised (`supported` objects) with arithmetic only, without calling the codec.
* Where the full statement is false of the code, a theorem with suffix `_refuted` gives the witness, and the
  provable part is stated with its side condition and the suffix `_partial`.
* Each theorem has a concrete non-trivial case beside it (`Example Cnn_case...`).

## 5. Properties

"partial" means: the full statement of `properties.jsonl` is false of the code (the `_refuted` theorems prove that) and the
`_partial` theorems prove what does hold. Exact names are in `MANIFEST.json`.

| id | modelled as | proof | file |
|---|---|---|---|
| C01 | `encode`/`decode` of `TInt` | case analysis on end points, layout lemmas of `Prims.v`; refuted for a single-value extensible root (decoder returns 0) and for 256 octets or more; `C01_exact` is an equivalence: which values survive, all others do not | PropsRoundTrip.v, Exact.v |
| C02 | `TEnum` | constrained whole number of the index; refuted beyond 65536 root items; `C02_exact` is an equivalence | PropsRoundTrip.v, Exact.v |
| C03 | `TBits` | length determinant + bits; refuted for empty strings and extended strings whose length is no multiple of 8; `C03_exact` is an equivalence for a BIT STRING as message (there the odd lengths survive: what follows is the padding) | PropsRoundTrip.v, Exact.v |
| C04 | `TOcts` | hex conversion proved to lose only leading zeros; refuted for variable size with a leading zero digit and for the empty unconstrained string; `C04_exact` is an equivalence (it shows that 00 alone survives where every other single octet below 16 is lost) | PropsRoundTrip.v, Exact.v |
| C05 | `TSeqOf` | count + induction on the list; refuted for `SIZE(n..n, ...)`; `C05_exact` is an equivalence over the number of elements, for elements that survive | PropsRoundTrip.v, Exact.v |
| C06 | `TChoice` | index + alternative, open type for additions; refuted through component types | PropsRoundTrip.v |
| C07 | `TSeq` | preamble, root, bitmap, open types; induction on slots; refuted through component types and components without content | PropsRoundTrip.v |
| C08 | any `ty` | induction on the type over C01-C07, for every starting offset; refuted as C01 | PropsRoundTrip.v |
| C09 | `encode` | length arithmetic; uniqueness of the padded form | Layout.v |
| C10 | `decode` | every reader reads at most a prefix; never moves backwards | Robust.v |
| C11 | `encode` | from C08, with prefix freedom; refuted | PropsRoundTrip.v |
| C12 | `decode` on cut input | overrun only in the last read, pointer past the end; refuted: cut messages accepted | Robust.v |
| C13 | `decode` result | invariant over all readers (also: an OCTET STRING of a variable size never starts with a zero digit); refuted for SIZE of SEQUENCE OF | Valid.v |
| C14 | constrained whole numbers | the four layouts stated with arithmetic, existence and uniqueness | Layout.v |
| C15 | unconstrained INTEGER | least two's complement length; refuted length octet from 128 octets; exact condition `C15_exact` | Layout.v, Sharp.v |
| C16 | semi-constrained INTEGER | least octet count; refuted from 16384 octets; exact condition `C16_exact` | Layout.v, Sharp.v |
| C17 | length determinants | arithmetic layout; refuted at 16384; exact condition `C17_exact` | Layout.v, Sharp.v |
| C18 | extension bit | first bit of the field list; refuted for SIZE(0..0,...) and empty BIT STRING; exact condition `C18_exact` | Sequences.v, Sharp.v |
| C19 | SEQUENCE preamble | one bit per OPTIONAL/DEFAULT component, in order, iff sent | Sequences.v |
| C20 | DEFAULT handling | encoder and decoder sides; refuted for BIT STRING (compared as numbers) and additions; exactly which values are taken for the default, and that they come back iff equal to it | Defaults.v, Gaps.v |
| C21 | extension bitmap checks | what the neighbour check enforces; refuted in full; exactly when the encoder accepts (given that each content has an encoding) | Defaults.v, Gaps.v |
| C22 | extensible SEQUENCE without additions | equality with the version 1 type's encoding; refuted for DEFAULT additions; exactly when the two agree | Defaults.v, Gaps.v |
| C23 | old decoder, new sender | unknown additions skipped; refuted when the first addition is absent, and for what follows; whenever that happens something arrives that was not sent (`C23_first_invented`) | Versions.v, Shift.v |
| C24 | new decoder, old sender | no addition sent; refuted otherwise; the first addition sent never arrives (`C24_first_lost`) | Versions.v, Shift.v |
| C25 | SEQUENCE OF size check | encoder raises; refuted for SIZE(0..0); exact condition `C25_exact` | Defaults.v, Sharp.v |
| C26 | unset mandatory component | induction over paths the encoder visits | Defaults.v |
| C27 | open types | pointer after an open type depends on its length only | Robust.v |
| C28 | `encode` twice, with the object state the first leaves | relation between states; refuted for incomplete groups | Objects.v |
| C29 | reads between encodes | every sequence of reads; refuted for all-optional SEQUENCEs and for a CHOICE asked for an alternative that is not selected | Objects.v |
| C30 | `to_dict` of sent and received object | from C08's reading; refuted with C01's value and an empty CHOICE content | Dicts.v |
| C31 | `to_dict` injective | induction; refuted for BIT STRING lengths, absent parts, empty lists | Dicts.v |
| C32 | fuel | measure bounds; answers on every input | Valid.v |
| C33 | decoder pointer | every sequence of reads and alignments | Robust.v |
| C34 | constraint end points | induction on constraints; refuted with an extensible part inside a union; dichotomy: bounded by the end points or open to every number | Constraints.v, Combine.v |
| C35 | combined constraints | hull of unions; refuted for intersections; exactly which intersections have effective end points | Constraints.v, Combine.v |
| C36 | `enum_fill` | fold invariant | Generation.v |
| C37 | `sort_assignments` | pass invariant (references = names of output, no repetition), partition of the list | Ordering.v |
| C38 | `sort_assignments` | a pass repairs all references out of types whose own users are in order: induction on the number of passes; refuted by a chain of 102 types, aliases, class names | Ordering.v |
| C39 | `remove_comments` | relation between text and lines; refuted for closed comments, block comments, strings | Generation.v |
| C40 | `component_type`, `fill_lists` | fold and permutation | Generation.v |
| C41 | `fill_lists` | tokens of every body shape; refuted for second root lists and groups before additions | Generation.v |
| C42 | `enum_fill` with numbers | refuted (number dropped); names without numbers proved; exact condition `C42_exact` | Generation.v, Sharp.v |
| C43 | `sort_assignments` and constraint end points | order of the five classes of assignments; refuted for constants of defined types | Generation.v |
| C44 | `underscore` | induction on strings | Generation.v |
| C45 | `encode`, against the relation `PER` written from the recommendation (`X691.v`, no function of the codec) | uniqueness by inversion; conformance by induction on the type for every offset; refuted for empty strings of variable size, SIZE(0,...), intersections, 128-octet integers, DEFAULT additions, bounds of 64K; for simple types and lists the conditions are shown exact (`C45_simple_exact`, `C45_list_exact`): the octets are those of X.691 at every offset if and only if `conf` | Conform.v, Tight.v |
| C46 | `decode` on any octets in relation `PER` | uniqueness (C45) and C08 | Conform.v |
| C47 | `to_dict` against a relation `says` between messages and dictionaries | induction on the type; refuted for valueless selections and incomplete components | Tells.v |
| C48 | `parse_constraint` on the tokens of a constraint against the set of values X.680 gives it (`in_set`) | case analysis, induction on unions; refuted for every other form | Subtypes.v |
| C49 | `emit` and `run` on the objects parsed from a schema, against the relation `means` | ordering (C38) gives a list in which each class finds the earlier ones; induction along it, induction on the type inside a class (`Modules.v`); refuted, one schema each, where a condition of `fine_schema` is dropped | Generated.v, GeneratedFaults.v |
| C50 | `read_schema` against `text_of` (item lists that spell a schema, layouts, comments) | one lemma per rule: what it matches and that no other alternative matches as much; induction over the mutual spelling relation; `Written.v` shows that every schema of the notation has a text and composes with C49; 17 refutations | ReadTexts.v, Written.v, Settled.v, GrammarFaults.v |
| C51 | `read_schema` with any bound | monotone in the bound; lengths decrease, left calls go down a rank | Settled.v |
| C52 | `read_schema`, `emit`, `run`, `encode`, `decode` composed | `means` does not depend on the order of assignments; C50, C49, C45, C46 | Agreement.v |
| C53 | `read_schema` on any text; `names` (the words of an object), `found` (words standing in a text in order) | induction over the calls of the parser: the words of the tokens stand in what was consumed; one lemma per action: its result has no words but those of its tokens; checks on the grammar itself (`sane`, `lead`, `new`) by computation | Transcript.v, Accepted.v |
| C54 | `read_schema` on texts that are not ASN.1 | frame of a module from C53; one refutation per kind of text | Accepted.v |
| C55 | `decode` then `encode` | the decoded object is `canon t v`; by induction over the type the encoder makes the same fields of `canon t v` as of `v`, where groups that are sent are complete (`whole`) | Relay.v |
| C56 | `encode`, `decode` on two types related by `grown` | induction over the type: equal fields for `known` objects; the earlier decoder `follows` the later one step by step (a relation closed under sequencing, open types, loops and assignments) | Growth.v |
| C57 | `emit_after` from any state against `emit`; `read_schema` for the refutations | simulation: states that agree on the names the schema uses stay so through `fill` (induction over the depth), with any larger depth bound; the start states agree because later entries hide earlier ones | Leftovers.v |
| C58 | `decode_pos` against the size `weight` of the object | every decoding step is given what it must use and what it may make (`spends`), composed by induction over the type; open types by the octets they announce | Inflation.v |
| C59 | `encode`, `decode` and their exceptions; `made`: the objects assignments can build; `sane`: the types | two Hoare-style logics of failures (`may`, `dmay`) by induction over the type; a witness for every exception | Faults.v |
| C60 | encoder with a meter (`m_encode`), extension alternatives encoded twice; `ask`: isValue with a count | refinement to Encoder.v and cost bounds by induction over the type; families of nested types for the lower bounds | Counted.v, Effort.v |
| C61 | the calls of `_parse`, in order (`parses`), along the run of Grammar.v; those inside nestedExpr and of the parser the constraint action starts are left out (the lower bounds do not need them, the number of kinds is without them) | every call is of an expression of the grammar at an end of the text, by induction over the run; costs of expressions on lists of items composed like the readings of C50, induction over the depth | Parses.v, Repeats.v |
| C62 | create_field_list with the object it is called on carried along (`dec_on`) | the result by a simulation with Decoder.v; the object afterwards in closed form (`touch`), which only instantiates components, then C29; refuted for CHOICEs and all-optional SEQUENCEs | Lending.v, Borrow.v |
| C63 | Encoder.v, Decoder.v; types up to names (`twin`) | simulation of the two encoders and decoders, by induction on the type; names become places (`index_of`) | Names.v |
| C64 | `call`: `create_python_template`, `os.path.join`, a disk as a function from paths to texts; the name from the tokens of the grammar | the first token is the first word of the text without comments, tabs undone | Files.v |
| C65 | `make` (a name looked up in namedValues) and `item_of` (`to_dict`) on the class the generated module binds; `emit`, `run`, codec | `module_means` gives the class and its namedValues, the meaning numbers them, C02 and C56 carry the number | Items.v |
| C66 | `spells` relates types of two schemas (equal but for names, references unfolded on either side, end points and defaults that stand for the same value); `imported`, `encode`, `decode` | induction on `spells` from a meaning to a meaning equal but for component names; then C49 (one meaning) and C63 (names are not sent) | Spellings.v |
| C67 | `longest_message`, a function of the type alone (bits with worst-case padding, open types capped by the missing fragmentation); `encode` | induction on the type, bounding the bits of each part including padding; growth of INTEGER encodings for the exact case | Extent.v |
| C68 | `safe`, `limited` (boolean functions of the type), `message` (complete, valid objects); `encode`, `decode`, `reading` | induction on the type from the check to the conditions of the round trip (C08) and, for `limited`, the longest encodings of C67; the exactness from C01, C03, C04, C05 | Safe.v |
| C69 | `standard` (boolean function of the type), `PER` (X.691, X691.v), `encode`, `decode`, `reading` | induction on the type from the check to the conditions of C45; the deviations of C45 as witnesses for the rules | Standard.v |
| C70 | `valid` (the ASN.1 values of a type), `trusted` (the checks), `PER`, `decode`; `a_module` (grammar, parse actions, generator, the import of its output) for the texts | induction on the type: each value is that of a message (`unread`), then C69; the texts by C50 and C66 | Peers.v, Parties.v |
| C71 | `mild`, `settled` (boolean functions of the type), `shows` (a value whose variable OCTET STRINGs do not start with a zero digit), `encode`, `decode`, `PER`; for the README `a_module` | induction on the type: what decode gives shows its digits (C13), what shows them is within C08; `supported` and the checks of C68-C70 with the rule for OCTET STRINGs as a parameter; the README's class by C50 and C49 | Mild.v, Documented.v |
| C72 | `shifted` (the digits of a string without leading zeros), `canon_by arrives` (the message with its variable OCTET STRINGs shifted), `encode`, `decode` | the round trip of RoundTrip.v with the string that arrives as a parameter; `hex(v)` of a string is its digits without leading zeros; `safe_by` with a rule for sizes from 1; `moved arrives` changes the strings of an abstract value | Shifted.v, Received.v, Documented.v |
| C73 | `relay` (decode, then encode what was decoded), `relays n`, `PER`, the checks `trusted` and `upward` | the decoded object is again a complete valid message (induction on the type), so its octets are those of X.691 (C45) for the value read, which are unique; moving digits twice is moving them once | Hops.v, Documented.v |
| C74 | `module_text` (the templates of Emit.v); a reader `read_module` that is not made from the printer (Printed.v) | lines of a class with their depth (`rel`), the text is these lines (induction on nested classes, `indent` and `cut2`), the reader takes these lines apart again | Printed.v, Printing.v |
| C75 | the reading of C50, `emit`, `module_text`, and the reader of C74 | induction on the spelling of a schema: its names are words and its values one line (`tidy`, Imported.v); the generator keeps that (`emit_shape`), a module that runs has word names (`class_run`), so C74 applies (TextOut.v) | TextOut.v, Imported.v |
| C76 | `call` (C64) with `emit_after` (C57), the reader of C74 as import, the codec | C75 for the text, C57 for the state, `heads_unique` for the file name; messages from C70 | Delivered.v |
