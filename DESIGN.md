# Design: a Rocq model of yaml-peg-rs

The subject is KmolYuan/yaml-peg-rs at the commit in /repo.  `rocq/theories`
holds a model of its code, written function by function from the Rust text
(every definition cites its lines), and theorems about it.  `properties.jsonl`
lists the properties in English, `MANIFEST.json` maps them to theorems,
`seeded/LOG.jsonl` records the wrong programs the theorems were tried against.

## Layout

| model (rocq/theories) | of |
|---|---|
| Base.v | bytes/chars, UTF-8, the `str`/`slice` functions of std the crate calls, BTreeMap |
| Num.v | `to_i64`, `to_f64` (src/yaml.rs:42-54), correctly rounded binary64 reading |
| Yaml.v | `Yaml`, `Node`, `==`, `Hash`, the linked hash map, accessors (src/yaml.rs, src/node.rs) |
| Parser.v | `PError`, `indicated_msg`, low level of `Parser` (src/parser/error.rs, src/indicator.rs, src/parser/base/mod.rs) |
| Grammar.v | sub-parsers and directives (src/parser/base/grammar.rs, directive.rs) |
| Loader.v | `Loader`, `parse`, `parse_cyclic` (src/parser/mod.rs) |
| Dumper.v | `Dumper`, `dump` (src/dumper.rs) |
| Serde.v | serializer, deserializer, helper types (src/serde/*.rs) over a universe of types |
| Sharing.v | nodes with the addresses of their data, and the equality of Rc/Arc (src/repr.rs) |
| Debug.v | Debug of Yaml and Node, Display of the errors |
| Build.v | `node!`, `From` and `FromIterator` for Yaml and Node (src/lib.rs, src/yaml.rs, src/node.rs) |
| Foreign.v | `Deserialize for Node` from any format (`NodeVisitor`, src/serde/de.rs) and `Serialize for Node` (src/serde/ser_node.rs) |
| Single.v | f32: `deserialize_f32`, `serialize_f32`, `as f32` (src/serde/de.rs, ser.rs) |
| Conform.v | (evidence, not proof) every assertion of src/tests/mod.rs and of the documentation tests, evaluated on the model with the repository's own files, among them complete_doc.yaml |
| Untagged.v | the helper types InlineList, Optional, Stringify through serde's untagged buffer (src/serde/inline_list.rs, optional.rs, stringify.rs) |

| proofs | contents |
|---|---|
| Scan.v, Scan2.v | exact action of the low-level scanners on the remaining input |
| NodeFacts.v, PropNode.v, PropMisc.v | node equality, hashing, maps, accessors: C08, C13, C28-C32, C37, C40 |
| PropScan.v, PropScan2.v, PropBack.v, PropText.v | C02-C06, C11, C17, C23 |
| PropNum.v, PropFloat.v, PropFloat2.v, PropFloat3.v | C07, C09 |
| Inv.v, InvBase.v, InvLoader.v, InvParse.v | one parametrised invariant of all sub-parsers, by mutual induction on the calls |
| PropCursor.v, PropParse.v, PropAnchor.v, Utf8.v, PropUtf8.v | C01, C18-C22, C24, C26, C27 |
| PropQuoted.v, Leaf.v, DocRun.v, PropScalar.v, PropLiteral.v | single scalars: C10, C12, C14 |
| FlowRun.v, PropJson.v, PropJson2.v | JSON: C33, C41 |
| Frame.v, PropDirective.v, PropTag.v | directives and tags: C15, C16 |
| PropSerde.v, PropSerde2.v, PropSerde3.v | C36, C38, C39, C46, C47 |
| Block.v, BlockRun*.v, PropBlock.v | block collections: C43 |
| PropDump.v, PropDump2.v, PropString.v | dumping: C34, C35, C42, C44, C45 |
| Gram*.v, PropGram.v | exact reading of the texts of a grammar: C48 |
| Term.v, TermQuote.v, TermBase.v, TermLoader.v, PropTerm.v | termination: C25 |
| Fuel.v, FuelLoops.v, PropFuel.v | fuel adequacy: C49 |
| Twin.v, PropModes.v | two runs on one document related step by step: C50, C51 |
| PropOrder | C52, C53: Hoare-style walk over the loader bounding the positions of every value by the cursor before and after it, and the list of markers passed |
| PropHelper | C54: the buffer as a relation `image`; what is written reads back from its image, and what is read from an image is what is read from the node |
| PropShare, PropDebug | C55 (the pointer shortcut against the value comparison, induction over nodes), C56 (the texts form a prefix code) |
| PropDump3, PropDump4 | C57 (the text written for a node is a derivation of the grammar of C48 for a node with the same data, tags and anchors; induction over nodes), C58 (the writer looks only at what C57 preserves) |
| PropWin | C34 and C42 for both line ends, from C57 |
| FoldSpec, Fold, PropFold | C59: specification of folding; induction over the lines, one invariant for the text read so far in the loop of quoted scalars; then through the grammar of C48 |
| PlainRun, PropPlain | C60: induction over the lines, the loop of plain scalars started at any line with any text read so far; what follows the last line is described by how the loop stops there; then through the grammar of C48 |
| Build, PropBuild | C61: the map cases from C30; nested literals by induction on their tree; the round trip is C34 for both line breaks |
| PropNumber | C31, integers read as numbers: the rounding specification of PropFloat3 applied to the integer, its uniqueness, and exactness below 2^53 |
| Margin, Shift, PropShift | C62: a simulation between the run on a document and the run on its rest (positions moved, indentation tables equal level by level), proved for every sub-parser by induction on fuel; level 0 of the table stays 0 (Margin); the first line of a document does not look at the table; fuel from C49 |
| Foreign, PropForeign | C64: induction over the tree of data; maps by C30 with the lawfulness of distinct keys |
| Single, PropSingle | C63: the rounding lemmas of PropFloat2/3 for the constants of binary32; half-way points of binary32 are binary64 numbers, so a decimal and its binary64 rounding lie on the same side of each of them |

The parser is a state monad `M A = st -> res A * st` with `res` = Ok / Err /
panic / no answer; the state survives an error, as `&mut self` does.  Loops and
the mutually recursive sub-parsers run on fuel; running out is the separate
outcome `RDiv`.  C49 proves that the fuel is no restriction: with any larger
amount the answer is the same, so `RDiv` is reported exactly where the Rust code
does not return.

Each theorem is stated over small specifications next to it (predicates on
lists of bytes, inductive classes of texts or values, printers written for the
purpose), with an `Example` that shows a non-trivial instance of its
hypotheses.  Where the code does not do what its documentation or YAML suggests
the deviation is a theorem with suffix `_refuted`, and the positive theorem
says for which class the property does hold.

## Per property

* C01 invariant `eaten <= pos <= len`, kept by every public sub-parser and so by every sequence of calls; mutual induction on fuel for the Loader.
* C02 induction on the remaining input; specification: longest prefix satisfying the predicate. Refutation for `Range(_,0)`.
* C03 exact equations per sub-parser; `context` for an arbitrary function. The anchor/alias sub-parsers are refuted.
* C04 specification of blanks, breaks and gaps on lists; induction with fuel adequacy.
* C05 case analysis with the specification of `sym_seq`.
* C06 specification: the prefix is `sum` spaces.
* C07, C09 language of the literals on lists; value of an integer by its digits, of a float by IEEE 754 round-to-nearest-even stated without reference to the algorithm.
* C08, C37 reading after printing an integer, for all of i64; unreadable ones.
* C10 what the loader makes of a one-scalar document, for every scalar text.
* C11 induction over the string with the pending-backslash flag.
* C12 scanner specification; divergence of an open quote for every fuel.
* C13, C14 specification over lists of lines.
* C15, C16 headers as lists of directives, table laws, frame for content.
* C17 scanner specification.
* C18-C22, C24 instances of the parametrised invariant (Inv.v).
* C23 induction over the lines of the document.
* C25 program logic with a measure (bytes left) for depth and rounds; class `tame`; refutations for every fuel.
* C26 no-panic instance of the invariant, whose modes carry the handles known to have a prefix (declared handles: PropTag.v); refutations by computation.
* C27 decode/encode lemmas; invariant that cut points are character boundaries. Any bytes (PropLossy.v): `lossy` is the specification (maximal damaged parts), shown deterministic and equal to the decoder.
* C28-C30 structural induction over trees and insertion histories.
* C31, C32, C40 case analysis.
* C33, C41 parser-follows-printer induction over JSON values with arbitrary layout.
* C34, C35, C42, C43 the same over block texts; `dump` is shown to write such texts.
* C36, C38, C39, C46, C47 structural induction over the type universe.
* C44 simulation of the two dumpers; C45 equations for the marks `dump` writes.
* C48 a grammar of texts with positions (Gram.v) and a simulation of the loader along it: anchors, tags, aliases, explicit keys, flow and block collections, block scalars, empty nodes, comments, CRLF, directives, several documents, a file that ends without line break.
* C49 two runs with different fuel are related step by step; a call at the same checkpoint nests at most 8 deep before a byte is eaten.
* C50, C51 relational: all sub-parsers of base/ are blind to mode, anchor tables and hasher; the recursive sub-parsers of two runs are related by induction on fuel.
* C52, C53 are proved for `parse_cyclic` on every document, and carried to `parse` by C50 on documents without `*`; `before`, `in_order`, `separated` in PropOrder.v are the specification.
* C54 models what `#[serde(untagged)]` generates: `deserialize_any` into serde's `Content`, then each variant from the buffer (Untagged.v, written from serde 1's source, which is not in /repo). f32 is represented by the number it is rounded from.
* C57, C58: the class `docs_fit` and the comparison `settle` (positions forgotten, core tags dropped) are the specification; the proof goes through C48, so what is written is shown to be in the grammar and C48_cyclic_exact reads it.
* C61: Build.v models `From`, `FromIterator` and `node!`; `data` in PropBuild.v says what a nested literal stands for.
* C62: `move` in Shift.v adds a number to every position of a node; `same_place` and `same_answer` in PropShift.v are the specification of resuming.

## Trusted base

* Coq 8.16.1 kernel.  `Print Assumptions` of every theorem in the manifest is recorded below.  No axiom is used.  (Loading ssreflect through the standard library brings the constants `Coq.ssr.ssrunder.*` into the context; no theorem depends on them.)
* The model is written by hand from the Rust text; every definition cites its source lines.
* External code modelled from its documentation: `ritelinked::LinkedHashMap` (insertion-ordered; insert of a present key keeps the old key, replaces the value and moves the entry to the back), `serde` derive and std impls, Rust std (`from_utf8_lossy`, `trim*`, `lines`, `parse::<i64/f64>`, `Debug for str`).
* Arithmetic overflow is modelled as in a debug build (panic). `usize`/`u64` are unbounded naturals.

## Not modelled

* the decimal text that Rust's `Display` gives an f32 or f64 (a parameter), the text of serde error messages.
* Stack depth (Rust recursion overflows the stack on deep nesting; the model has unbounded depth).
* `repr` (Rc/Arc): reference counts. Sharing and the pointer-equality shortcut of `Rc == Rc` are modelled in Sharing.v only (C55 shows that the rest of the model may ignore them).
* `LinkedHashMap`: the hash table is modelled by "same hash and equal"; hashbrown compares keys whose 7-bit tags agree in the groups it probes, so two keys that are equal but hash differently (numbers written in two ways) may or may not be found depending on the size of the table. Theorems about such keys hold for the model's reading; keys that are equal and hash alike are not affected.

## `Print Assumptions`, for each theorem of MANIFEST.json

"Closed under the global context" for all of these (236 theorems):

* C01: C01_cursor_in_document, C01_checkpoint_never_back, C01_slices_in_range
* C02: C02_take_while_greedy, C02_range_zero_refuted
* C03: C03_mismatch_returns_to_checkpoint, C03_number_mismatch_returns_to_checkpoint, C03_nl_and_names, C03_anchor_gives_back_refuted, C03_context_restores
* C04: C04_ws_exact, C04_nl_exact, C04_gap_exact
* C05: C05_doc_end_lookahead
* C06: C06_ind_exact, C06_ind_define_records
* C07: C07_int_language, C07_int_value, C07_int_refuted, C07_int_document
* C08: C08_int_round_trip, C08_int_text
* C09: C09_float_language, C09_sci_language, C09_float_value, C09_always_readable, C09_float_refuted, C09_float_nearest, C09_exact_text
* C10: C10_plain_document, C10_double_quoted_document, C10_single_quoted_document
* C11: C11_escape_decodes, C11_every_text_has_pieces, C11_escape_inverts_json, C11_escape_identity
* C12: C12_double_verbatim, C12_double_escaped, C12_single_verbatim, C12_unterminated_never_returns, C12_trailing_backslash_refuted
* C13: C13_chomping, C13_indicator
* C14: C14_literal, C14_folded, C14_leading_empty_refuted, C14_no_final_break_refuted, C14_top_level_refuted
* C15: C15_other_version_rejected, C15_second_version_rejected, C15_documents_leave_directives_alone, C15_directives_keep_version, C15_marker_needed_refuted
* C16: C16_tagged_documents, C16_unknown_handle_panics_refuted, C16_primary_handle_refuted
* C17: C17_names
* C18: C18_no_alias_left, C18_parse
* C19: C19_alias
* C20: C20_recorded_once, C20_never_overwritten, C20_other_documents_untouched, C20_parse_between_documents
* C21: C21_one_table_per_document, C21_parse_cyclic, C21_tables_in_name_order
* C22: C22_positions_in_document
* C23: C23_indicated_msg, C23_file_message, C23_every_position_placed, C23_panics_exactly_beyond
* C24: C24_errors_well_formed, C24_raising_never_panics
* C25: C25_steps_are_linear, C25_parse_terminates, C25_parse_cyclic_terminates, C25_stale_column_never_returns, C25_open_quote_refuted, C25_marker_line_refuted, C25_property_tab_refuted
* C26: C26_no_panic, C26_panic_refuted, C26_declared_handles_never_panic
* C27: C27_lossy_exact, C27_decode_encode, C27_text_is_a_piece
* C28: C28_eq_decides_same, C28_eq_equivalence, C28_eq_ignores_position_and_tag, C28_total_eq_refuted
* C29: C29_hash_same_spelling, C29_hash_law_on_plain_ints, C29_hash_law_refuted
* C30: C30_collect_last_wins, C30_distinct_keys_keep_order, C30_plain_keys_lawful, C30_unique_keys_refuted
* C31: C31_accessors, C31_lookups, C31_tags, C31_anchor_lookup, C31_integer_as_number
* C32: C32_alternative_only_on_mismatch, C32_fatal_error_not_masked
* C33: C33_json_document, C33_compact, C33_equal_to_value, C33_number_value, C33_other_json_refuted
* C34: C34_dump_then_parse, C34_dump_then_parse_equal, C34_other_data_refuted, C34_any_line_breaks
* C35: C35_dump_total_and_split, C35_document_count, C35_bracket_refuted, C35_line_break_refuted, C35_empty_map_refuted
* C36: C36_round_trip, C36_limits_refuted
* C37: C37_fitting_int, C37_narrowing_refuted
* C38: C38_nodes_pass_through, C38_alias_is_an_error, C38_no_alias_no_error, C38_merged_keys_refuted
* C39: C39_error_position, C39_wrong_kind, C39_blame, C39_from_str
* C40: C40_inline_list, C40_optional
* C41: C41_json_documents
* C42: C42_to_string_from_str, C42_other_values_refuted, C42_any_line_breaks
* C43: C43_block_documents, C43_equal_to_written
* C44: C44_windows_line_ends, C44_line_feeds_follow_cr, C44_copied_line_feed_refuted
* C45: C45_anchor_and_tag_marks, C45_own_anchors
* C46: C46_what_is_accepted, C46_from_str, C46_one_value
* C47: C47_what_is_written, C47_struct_fields
* C48: C48_parse_exact, C48_cyclic_exact, C48_outside_refuted
* C49: C49_enough, C49_answer, C49_never, C49_loops
* C50: C50_modes_agree, C50_modes_without_aliases
* C51: C51_hasher_collisions, C51_hasher_without_digits, C51_hasher_shows_refuted
* C52: C52_positions_in_order, C52_positions_in_order_direct, C52_alias_refuted
* C53: C53_documents_separated, C53_documents_separated_direct
* C54: C54_inline_list_round_trip, C54_optional_round_trip, C54_inline_list_contents, C54_optional_contents, C54_errors, C54_stringify, C54_stringify_round_trip, C54_differences_refuted
* C55: C55_equality, C55_readable, C55_panics, C55_get, C55_collect, C55_same_function_refuted
* C56: C56_debug_tells_apart, C56_debug_equal, C56_debug_printable, C56_ordinary_text, C56_error_text, C56_parse_error_text, C56_serde_error_text
* C57: C57_dump_then_parse_cyclic, C57_dump_then_parse, C57_marks_refuted
* C58: C58_reformat_is_stable
* C59: C59_double, C59_single, C59_double_reads, C59_single_reads, C59_as_value, C59_other_lines_refuted, C59_double_witness, C59_single_witness
* C60: C60_document, C60_to_the_end, C60_as_value, C60_in_flow, C60_reads, C60_other_lines_refuted, C60_witness, C60_flow_witness
* C61: C61_values, C61_new, C61_lists, C61_maps, C61_alias, C61_map_panics_refuted, C61_nested, C61_dump_then_parse
* C62: C62_documents_stand_alone, C62_parse_bytes, C62_resume, C62_resume_values, C62_starting_point, C62_marker_line_refuted, C62_error_after_consume_refuted
* C63: C63_integer, C63_float, C63_nothing_else, C63_round_trip, C63_float_refuted, C63_float_nearest, C63_shortest_text, C63_stringify
* C64: C64_read, C64_round_trip, C64_repeated_keys, C64_write, C64_refused, C64_big_integer_refuted
