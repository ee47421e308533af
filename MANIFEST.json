{
 "claims": [
  {
   "property": "C01",
   "status": "proved",
   "theorems": [
    "C01_cursor_in_document",
    "C01_checkpoint_never_back",
    "C01_slices_in_range"
   ],
   "note": "every state reachable by any sequence of public sub-parser calls (Parser::consume, pos and back, which set the cursor by hand, are not sub-parsers and are not modelled as calls)"
  },
  {
   "property": "C02",
   "status": "proved",
   "theorems": [
    "C02_take_while_greedy",
    "C02_range_zero_refuted"
   ],
   "note": "take_while for every state, predicate and repeat option; Range(a,0) refuted"
  },
  {
   "property": "C03",
   "status": "proved",
   "theorems": [
    "C03_mismatch_returns_to_checkpoint",
    "C03_number_mismatch_returns_to_checkpoint",
    "C03_nl_and_names",
    "C03_anchor_gives_back_refuted",
    "C03_context_restores"
   ],
   "note": "anchor/anchor_use part refuted"
  },
  {
   "property": "C04",
   "status": "proved",
   "theorems": [
    "C04_ws_exact",
    "C04_nl_exact",
    "C04_gap_exact"
   ],
   "note": "exact characterisation of ws, nl and gap at a checkpoint"
  },
  {
   "property": "C05",
   "status": "proved",
   "theorems": [
    "C05_doc_end_lookahead"
   ],
   "note": ""
  },
  {
   "property": "C06",
   "status": "proved",
   "theorems": [
    "C06_ind_exact",
    "C06_ind_define_records"
   ],
   "note": "ind exact; ind_define records the measured width"
  },
  {
   "property": "C07",
   "status": "proved",
   "theorems": [
    "C07_int_language",
    "C07_int_value",
    "C07_int_refuted",
    "C07_int_document"
   ],
   "note": "accepted language and value; the literal at the end of input, 0xa and 0xg are in C07_int_refuted"
  },
  {
   "property": "C08",
   "status": "proved",
   "theorems": [
    "C08_int_round_trip",
    "C08_int_text"
   ],
   "note": ""
  },
  {
   "property": "C09",
   "status": "proved",
   "theorems": [
    "C09_float_language",
    "C09_sci_language",
    "C09_float_value",
    "C09_always_readable",
    "C09_float_refuted",
    "C09_float_nearest",
    "C09_exact_text"
   ],
   "note": "language, value and readability C09_float_nearest: the value is the IEEE 754 round-to-nearest-even of the decimal value, specified independently of the code (rounds), and the specification is functional. C09_exact_text: every value has a decimal text that reads back. Inside documents: C33_json_document with C33_number_value, and C48's grammar."
  },
  {
   "property": "C10",
   "status": "proved",
   "theorems": [
    "C10_plain_document",
    "C10_double_quoted_document",
    "C10_single_quoted_document"
   ],
   "note": "whole documents of one scalar; inside flow collections and block maps the same follows from C33 and C34"
  },
  {
   "property": "C11",
   "status": "proved",
   "theorems": [
    "C11_escape_decodes",
    "C11_every_text_has_pieces",
    "C11_escape_inverts_json",
    "C11_escape_identity"
   ],
   "note": ""
  },
  {
   "property": "C12",
   "status": "proved",
   "theorems": [
    "C12_double_verbatim",
    "C12_double_escaped",
    "C12_single_verbatim",
    "C12_unterminated_never_returns",
    "C12_trailing_backslash_refuted"
   ],
   "note": "double quotes (verbatim, and JSON-style escapes), single quotes; an unterminated quote is still running after any number of iterations; a trailing backslash is refuted"
  },
  {
   "property": "C13",
   "status": "proved",
   "theorems": [
    "C13_chomping",
    "C13_indicator"
   ],
   "note": ""
  },
  {
   "property": "C14",
   "status": "proved",
   "theorems": [
    "C14_literal",
    "C14_folded",
    "C14_leading_empty_refuted",
    "C14_no_final_break_refuted",
    "C14_top_level_refuted"
   ],
   "note": "string_literal and string_folded, all three chomping indicators; refutations for a leading empty line, a missing final break and the top level; LF, CR LF and CR line breaks"
  },
  {
   "property": "C15",
   "status": "proved",
   "theorems": [
    "C15_other_version_rejected",
    "C15_second_version_rejected",
    "C15_documents_leave_directives_alone",
    "C15_directives_keep_version",
    "C15_marker_needed_refuted"
   ],
   "note": "accepted headers of any length (C16_tagged_documents), rejected versions and repetitions at any place, frame for all document content; C15_marker_needed_refuted records that a directive without --- is re-read as content"
  },
  {
   "property": "C16",
   "status": "proved",
   "theorems": [
    "C16_tagged_documents",
    "C16_unknown_handle_panics_refuted",
    "C16_primary_handle_refuted"
   ],
   "note": "any header, any number of tagged documents; unknown handles panic for all headers; the primary handle differs from YAML (C16_primary_handle_refuted)"
  },
  {
   "property": "C17",
   "status": "proved",
   "theorems": [
    "C17_names"
   ],
   "note": ""
  },
  {
   "property": "C18",
   "status": "proved",
   "theorems": [
    "C18_no_alias_left",
    "C18_parse"
   ],
   "note": ""
  },
  {
   "property": "C19",
   "status": "proved",
   "theorems": [
    "C19_alias"
   ],
   "note": "recorded = in the table of the current document; that an anchored node is recorded as itself is C20_recorded_once"
  },
  {
   "property": "C20",
   "status": "proved",
   "theorems": [
    "C20_recorded_once",
    "C20_never_overwritten",
    "C20_other_documents_untouched",
    "C20_parse_between_documents"
   ],
   "note": "recorded once, never overwritten, tables of finished documents untouched"
  },
  {
   "property": "C21",
   "status": "proved",
   "theorems": [
    "C21_one_table_per_document",
    "C21_parse_cyclic",
    "C21_tables_in_name_order"
   ],
   "note": ""
  },
  {
   "property": "C22",
   "status": "proved",
   "theorems": [
    "C22_positions_in_document"
   ],
   "note": ""
  },
  {
   "property": "C23",
   "status": "proved",
   "theorems": [
    "C23_indicated_msg",
    "C23_file_message",
    "C23_every_position_placed",
    "C23_panics_exactly_beyond"
   ],
   "note": ""
  },
  {
   "property": "C24",
   "status": "proved",
   "theorems": [
    "C24_errors_well_formed",
    "C24_raising_never_panics"
   ],
   "note": ""
  },
  {
   "property": "C25",
   "status": "proved",
   "theorems": [
    "C25_steps_are_linear",
    "C25_parse_terminates",
    "C25_parse_cyclic_terminates",
    "C25_stale_column_never_returns",
    "C25_open_quote_refuted",
    "C25_marker_line_refuted",
    "C25_property_tab_refuted"
   ],
   "note": "proved for the class named tame (fuel 8*len+8 suffices for the whole call tree); the class admits quoted scalars, complex keys, anchors and tags, and the special characters anywhere else; outside the class four refutations and the general theorem on column-0 plain scalars"
  },
  {
   "property": "C26",
   "status": "proved",
   "theorems": [
    "C26_no_panic",
    "C26_panic_refuted",
    "C26_declared_handles_never_panic"
   ],
   "note": "panic freedom when the handles !name! written in the document are declared in the header (or none is written) and the integer literals in the document have values; general panic freedom refuted"
  },
  {
   "property": "C27",
   "status": "proved",
   "theorems": [
    "C27_lossy_exact",
    "C27_decode_encode",
    "C27_text_is_a_piece"
   ],
   "note": "decode/encode identity, and every text a sub-parser or parse cuts out of a well-formed document is a run of its characters"
  },
  {
   "property": "C28",
   "status": "proved",
   "theorems": [
    "C28_eq_decides_same",
    "C28_eq_equivalence",
    "C28_eq_ignores_position_and_tag",
    "C28_total_eq_refuted"
   ],
   "note": "the law fails (panics) on unreadable integers: C28_total_eq_refuted"
  },
  {
   "property": "C29",
   "status": "proved",
   "theorems": [
    "C29_hash_same_spelling",
    "C29_hash_law_on_plain_ints",
    "C29_hash_law_refuted"
   ],
   "note": "general Hash law refuted: C29_hash_law_refuted"
  },
  {
   "property": "C30",
   "status": "proved",
   "theorems": [
    "C30_collect_last_wins",
    "C30_distinct_keys_keep_order",
    "C30_plain_keys_lawful",
    "C30_unique_keys_refuted"
   ],
   "note": "for keys whose equality and hash agree; refuted otherwise"
  },
  {
   "property": "C31",
   "status": "proved",
   "theorems": [
    "C31_accessors",
    "C31_lookups",
    "C31_tags",
    "C31_anchor_lookup",
    "C31_integer_as_number"
   ],
   "note": ""
  },
  {
   "property": "C32",
   "status": "proved",
   "theorems": [
    "C32_alternative_only_on_mismatch",
    "C32_fatal_error_not_masked"
   ],
   "note": ""
  },
  {
   "property": "C33",
   "status": "proved",
   "theorems": [
    "C33_json_document",
    "C33_compact",
    "C33_equal_to_value",
    "C33_number_value",
    "C33_other_json_refuted"
   ],
   "note": "all JSON values and white-space layouts the parser accepts; integers of any size by their text, in the i64 range also by ==; numbers with a fraction or an exponent keep their text (without a final .0) and their value is the nearest binary64 number (C33_number_value); C33_other_json_refuted shows what JSON allows and the parser misreads"
  },
  {
   "property": "C34",
   "status": "proved",
   "theorems": [
    "C34_dump_then_parse",
    "C34_dump_then_parse_equal",
    "C34_other_data_refuted",
    "C34_any_line_breaks"
   ],
   "note": "C34_any_line_breaks covers both line ends; the earlier theorems are for win=false. Class `keeps`: no tag of its own, scalars that stand bare or are put in quotes, non-empty collections, scalar keys that differ. C34_other_data_refuted lists what does not survive; multi-line strings are not in the class."
  },
  {
   "property": "C35",
   "status": "proved",
   "theorems": [
    "C35_dump_total_and_split",
    "C35_document_count",
    "C35_bracket_refuted",
    "C35_line_break_refuted",
    "C35_empty_map_refuted"
   ],
   "note": "the text is the documents' texts joined as next_text says; count of documents re-read; three refutations (bracket, line break: runs for ever; empty root map: panics)"
  },
  {
   "property": "C36",
   "status": "proved",
   "theorems": [
    "C36_round_trip",
    "C36_limits_refuted"
   ],
   "note": "Round trip for the whole universe of types (Serde.ty) and every value satisfying the inductive `has`, every hasher, and every float formatter that reads back (one is constructed and proved to: show_exact). C36_limits_refuted lists what is outside the class."
  },
  {
   "property": "C37",
   "status": "proved",
   "theorems": [
    "C37_fitting_int",
    "C37_narrowing_refuted"
   ],
   "note": "refutation plus the positive part"
  },
  {
   "property": "C38",
   "status": "proved",
   "theorems": [
    "C38_nodes_pass_through",
    "C38_alias_is_an_error",
    "C38_no_alias_no_error",
    "C38_merged_keys_refuted"
   ],
   "note": "plain_data = readable numbers, no alias, pairwise different keys at every level. C38_merged_keys_refuted shows why keys must differ by value."
  },
  {
   "property": "C39",
   "status": "proved",
   "theorems": [
    "C39_error_position",
    "C39_wrong_kind",
    "C39_blame",
    "C39_from_str"
   ],
   "note": "C39_error_position: every error position is zero or that of a node inside the input; C39_wrong_kind and C39_blame: the first node of the wrong kind is the one reported."
  },
  {
   "property": "C40",
   "status": "proved",
   "theorems": [
    "C40_inline_list",
    "C40_optional"
   ],
   "note": ""
  },
  {
   "property": "C41",
   "status": "proved",
   "theorems": [
    "C41_json_documents"
   ],
   "note": "for all JSON documents (repeated keys included), up to node positions"
  },
  {
   "property": "C42",
   "status": "proved",
   "theorems": [
    "C42_to_string_from_str",
    "C42_other_values_refuted",
    "C42_any_line_breaks"
   ],
   "note": "C42_any_line_breaks covers both line ends; the earlier theorems are for win=false. Values in `has` (C36) that also satisfy `prints`: no empty collections, scalar map keys, strings and names that stand as one-line text, floats printed with a fraction or exponent. C42_other_values_refuted lists what fails outside."
  },
  {
   "property": "C43",
   "status": "proved",
   "theorems": [
    "C43_block_documents",
    "C43_equal_to_written"
   ],
   "note": "LF line breaks; indentation and nesting of any depth; keys and on-line values are one-line scalars; C43_equal_to_written restates it with the library's own =="
  },
  {
   "property": "C44",
   "status": "proved",
   "theorems": [
    "C44_windows_line_ends",
    "C44_line_feeds_follow_cr",
    "C44_copied_line_feed_refuted"
   ],
   "note": "one refutation: a one-line string that contains LF and is written without quotes keeps a bare LF"
  },
  {
   "property": "C45",
   "status": "proved",
   "theorems": [
    "C45_anchor_and_tag_marks",
    "C45_own_anchors"
   ],
   "note": "marks of the document node itself; marks inside a document follow from the block-level theorems as far as those go"
  },
  {
   "property": "C46",
   "status": "proved",
   "theorems": [
    "C46_what_is_accepted",
    "C46_from_str",
    "C46_one_value"
   ],
   "note": "iff; for TNode the rule refers to C38. serde's own part (derive, impls of std types) is modelled from its documentation"
  },
  {
   "property": "C47",
   "status": "proved",
   "theorems": [
    "C47_what_is_written",
    "C47_struct_fields"
   ],
   "note": ""
  },
  {
   "property": "C48",
   "status": "proved",
   "theorems": [
    "C48_parse_exact",
    "C48_cyclic_exact",
    "C48_outside_refuted"
   ],
   "note": "The grammar (Gram.v, PropGram.v first section) is a separate specification. Blanks may stand behind words, spaces behind numbers, at the end of a line or before a colon. Outside it: blanks at the end of a line behind a quoted scalar or a flow collection (refused, C48_outside_refuted), an empty value in front of a line in the column of its key, and for documents after the first content on the line of ---. C48_outside_refuted gives texts next to its limits that are misread. Quoted and plain scalars may run over several lines (C59, C60)."
  },
  {
   "property": "C49",
   "status": "proved",
   "theorems": [
    "C49_enough",
    "C49_answer",
    "C49_never",
    "C49_loops"
   ],
   "note": "also makes the fuel of the model harmless: RDiv is reported exactly where the Rust code does not return (C49_never, C49_loops)"
  },
  {
   "property": "C50",
   "status": "proved",
   "theorems": [
    "C50_modes_agree",
    "C50_modes_without_aliases"
   ],
   "note": "two runs related step by step (Twin.v); resolves is the specification of replacing aliases"
  },
  {
   "property": "C51",
   "status": "proved",
   "theorems": [
    "C51_hasher_collisions",
    "C51_hasher_without_digits",
    "C51_hasher_shows_refuted"
   ],
   "note": "C51_hasher_shows_refuted: no independence of the hasher in general"
  },
  {
   "property": "C52",
   "status": "proved",
   "theorems": [
    "C52_positions_in_order",
    "C52_positions_in_order_direct",
    "C52_alias_refuted"
   ],
   "note": "C52_alias_refuted: in parse mode a copied alias keeps the positions of its anchor, so the statement for parse needs a document without *"
  },
  {
   "property": "C53",
   "status": "proved",
   "theorems": [
    "C53_documents_separated",
    "C53_documents_separated_direct"
   ],
   "note": ""
  },
  {
   "property": "C54",
   "status": "proved",
   "theorems": [
    "C54_inline_list_round_trip",
    "C54_optional_round_trip",
    "C54_inline_list_contents",
    "C54_optional_contents",
    "C54_errors",
    "C54_stringify",
    "C54_stringify_round_trip",
    "C54_differences_refuted"
   ],
   "note": "serde's Content buffer is modelled from serde 1's source; f32 is represented by the number it is rounded from."
  },
  {
   "property": "C55",
   "status": "proved",
   "theorems": [
    "C55_equality",
    "C55_readable",
    "C55_panics",
    "C55_get",
    "C55_collect",
    "C55_same_function_refuted"
   ],
   "note": "Rc's pointer shortcut is modelled from the standard library (ptr_eq or equal data)."
  },
  {
   "property": "C56",
   "status": "proved",
   "theorems": [
    "C56_debug_tells_apart",
    "C56_debug_equal",
    "C56_debug_printable",
    "C56_ordinary_text",
    "C56_error_text",
    "C56_parse_error_text",
    "C56_serde_error_text"
   ],
   "note": "The plain {:?} form; debug_tuple, debug_list and debug_map of the standard library are modelled by the texts they give."
  },
  {
   "property": "C57",
   "status": "proved",
   "theorems": [
    "C57_dump_then_parse_cyclic",
    "C57_dump_then_parse",
    "C57_marks_refuted"
   ],
   "note": "Class docs_fit (PropDump3.v, first section). Text of several lines: as items and values, ending in one line break, with both kinds of line break. C57_marks_refuted shows what happens to marks in other places and to a node that stands twice. Scalars as in C34 (scalar_ok)."
  },
  {
   "property": "C58",
   "status": "proved",
   "theorems": [
    "C58_reformat_is_stable"
   ],
   "note": "Stated for docs_fit documents with readable numbers in nodes and tables."
  },
  {
   "property": "C59",
   "status": "proved",
   "theorems": [
    "C59_double",
    "C59_single",
    "C59_double_reads",
    "C59_single_reads",
    "C59_as_value",
    "C59_other_lines_refuted",
    "C59_double_witness",
    "C59_single_witness"
   ],
   "note": "Specification in FoldSpec.v. Lines next to the limits of the class that are misread: C59_other_lines_refuted."
  },
  {
   "property": "C60",
   "status": "proved",
   "theorems": [
    "C60_document",
    "C60_to_the_end",
    "C60_as_value",
    "C60_in_flow",
    "C60_reads",
    "C60_other_lines_refuted",
    "C60_witness",
    "C60_flow_witness"
   ],
   "note": "Specification plain_lines in Gram.v. Lines next to the limits of the class that are misread: C60_other_lines_refuted. That a key may stand on several lines too (YAML forbids it) is part of C48's grammar as well."
  },
  {
   "property": "C61",
   "status": "proved",
   "theorems": [
    "C61_values",
    "C61_new",
    "C61_lists",
    "C61_maps",
    "C61_alias",
    "C61_map_panics_refuted",
    "C61_nested",
    "C61_dump_then_parse"
   ],
   "note": "Model in Build.v. The elements of brackets and braces of node! are expressions (nested literals need their own node!). The text of a float is a parameter that must read back."
  },
  {
   "property": "C62",
   "status": "proved",
   "theorems": [
    "C62_documents_stand_alone",
    "C62_parse_bytes",
    "C62_resume",
    "C62_resume_values",
    "C62_starting_point",
    "C62_marker_line_refuted",
    "C62_error_after_consume_refuted"
   ],
   "note": "Two-run simulation in Shift.v (a run on a document and one on its rest), margin invariant in Margin.v. Files that begin with a directive are not covered by the first theorem. Where the resumed run panics (an error to be reported) nothing is claimed; string_quoted is called with a non-empty escape."
  },
  {
   "property": "C63",
   "status": "proved",
   "theorems": [
    "C63_integer",
    "C63_float",
    "C63_nothing_else",
    "C63_round_trip",
    "C63_float_refuted",
    "C63_float_nearest",
    "C63_shortest_text",
    "C63_stringify"
   ],
   "note": "Model in Single.v. The text of an f32 is a parameter, since Rust's shortest-text algorithm is not part of the repository; C63_float_refuted gives a text that Rust's Display produces (7038531e-32 with all zeros)."
  },
  {
   "property": "C64",
   "status": "proved",
   "theorems": [
    "C64_read",
    "C64_round_trip",
    "C64_repeated_keys",
    "C64_write",
    "C64_refused",
    "C64_big_integer_refuted"
   ],
   "note": "Model in Foreign.v. Formats differ in which visitor method they call; the tree has one constructor for each method of NodeVisitor and one for all others. C64_read asks for different keys in every map; C64_repeated_keys is about one map whose keys may repeat (the model, as the code, collects the entries twice)."
  }
 ]
}