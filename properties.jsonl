{"id": "C01", "title": "Cursor stays inside the document", "statement": "Whatever document is given, after every public sub-parser of Parser or Loader that returns (Ok or Err) the checkpoint is at or before the current position and the position is at or before the end of the document; the checkpoint never moves backwards and the document is never changed. Hence the byte slices taken by food() and text() never go out of range.", "quantifier": "all documents (any bytes), all reachable parser states, every sub-parser and every nesting depth", "why_tests_cant": "the cursor is moved by dozens of sub-parsers in every order; an out-of-range slice can hide behind any combination of bytes", "anchors": ["src/parser/base/mod.rs: food, text, forward, backward, back", "src/parser/base/grammar.rs", "src/parser/mod.rs"]}
{"id": "C02", "title": "take_while is the greedy regex quantifier", "statement": "take_while(f, opt) consumes exactly the longest prefix of bytes satisfying f, capped at 1 for One and at b for Range(a, b); it succeeds exactly when at least the minimum (1 for One, a for Range(a,b) and More(a)) was consumed, and on failure the cursor returns to the checkpoint. (The documented equivalence with regex {a,b} is false for b = 0: Range(0,0) takes everything.)", "quantifier": "all byte predicates, all bounds a and b, all documents and cursor positions", "why_tests_cant": "infinitely many predicates, bounds and documents", "anchors": ["src/parser/base/mod.rs: take_while, TakeOpt, is_in, not_in, sym, sym_set"]}
{"id": "C03", "title": "A failed match gives the input back", "statement": "After a Mismatch of sym, sym_set, sym_seq, take_while, ws, inv, identifier, bound, int, float or sci_float the cursor is at the checkpoint and nothing else has changed; after a Mismatch of nl nothing has changed at all; context(f) always restores the caller's checkpoint whatever f returns. (Refuted for anchor and anchor_use: when only the name is missing the cursor stays after the indicator.)", "quantifier": "all documents, states and symbol sequences; every f for context", "why_tests_cant": "backtracking correctness must hold for every partial match at every position", "anchors": ["src/parser/base/mod.rs: backward, context, sym_seq, take_while", "src/parser/base/grammar.rs: nl, identifier, anchor"]}
{"id": "C04", "title": "Line breaks, blanks and comments are skipped exactly", "statement": "nl matches exactly one of CRLF, LFCR, LF, CR (longest first); ws skips exactly the blanks that are not line breaks; gap(c) succeeds exactly when (after an optional comment if c) a line break follows, returns the number of line breaks skipped, and leaves the cursor right after the last of them, so the indentation of the next line is untouched and nothing but blanks, comments and line breaks is skipped.", "quantifier": "all documents, positions, both values of the comment flag", "why_tests_cant": "any interleaving of blanks, comments and four kinds of line break of any length", "anchors": ["src/parser/base/grammar.rs: nl, ws, gap, comment, inv"]}
{"id": "C05", "title": "Document end is a pure lookahead", "statement": "doc_end() is true exactly at the end of input, at --- or at ..., and it never moves the cursor or changes any other state.", "quantifier": "all documents and positions", "why_tests_cant": "a lookahead that moves the cursor corrupts the parse only for particular following bytes", "anchors": ["src/parser/mod.rs: doc_end"]}
{"id": "C06", "title": "Indentation is matched exactly and never panics", "statement": "ind(level) succeeds exactly when the document has the number of spaces recorded for levels 0..level (2 for levels not recorded yet) and consumes exactly them; ind_define(level), reached through seq or map, records the measured indentation of a level; neither ever indexes outside the indentation table.", "quantifier": "all documents, all levels, all indentation tables the loader can reach", "why_tests_cant": "levels and widths are unbounded and the table is mutated from many places", "anchors": ["src/parser/base/mod.rs: ind", "src/parser/base/grammar.rs: ind_define", "src/parser/mod.rs: seq, map"]}
{"id": "C07", "title": "Integer literals: accepted language and value", "statement": "int() accepts exactly [-] digit+ (or 0o / 0x forms) followed by blanks and a boundary byte, and returns exactly the literal text; every decimal literal in the i64 range gets its exact value from as_int. (Refuted parts: a literal at the very end of the input is not accepted; 0xa..., with a or A as a digit, is not accepted; 0x... followed by g..p letters is accepted although it has no value.)", "quantifier": "all documents and positions; all integers in the i64 range", "why_tests_cant": "the number grammar meets every possible following byte, and the values are 2^64 many", "anchors": ["src/parser/base/grammar.rs: num_prefix, int, octal, hexadecimal, bound", "src/yaml.rs: to_i64", "src/node.rs: as_int"]}
{"id": "C08", "title": "Integers convert to YAML and back", "statement": "Node::from(n) for every Rust integer in the i64 range yields an integer node whose as_int is n, whose literal is the decimal text, and two such nodes are equal exactly when the integers are; serializing and deserializing it at its own type gives it back.", "quantifier": "all integers in the i64 range", "why_tests_cant": "2^64 values, boundary values included", "anchors": ["src/yaml.rs: From, to_i64", "src/node.rs: as_int"]}
{"id": "C09", "title": "Float literals keep their text", "statement": "float() and sci_float() accept exactly [-] digit+ . digit* (resp. [-] digit+ e [+-] digit+) followed by a boundary byte or by blanks ending in a space; the returned text is the literal without a final .0, its value is the binary64 number nearest to the decimal value of the literal, and it always exists, so as_float never fails and comparison never panics on a parsed float. (Refuted: a tab or the end of input after the literal is not accepted, 1.5e3 is not a float, and after a space anything may follow.)", "quantifier": "all documents and positions", "why_tests_cant": "all digit strings of any length", "anchors": ["src/parser/base/grammar.rs: float, sci_float", "src/yaml.rs: to_f64"]}
{"id": "C10", "title": "Plain scalar keywords", "statement": "An unquoted scalar becomes null, a boolean or a special float exactly for the listed spellings (~ null Null NULL, true True TRUE, ..., .nan .inf -.inf) and a string with exactly its text otherwise; a quoted scalar is always a string.", "quantifier": "all plain and quoted scalar texts", "why_tests_cant": "every other string must stay a string", "anchors": ["src/parser/mod.rs: scalar_term"]}
{"id": "C11", "title": "Escape decoding", "statement": "Parser::escape replaces exactly \\\\ \\n \\r \\t \\b \\f by the character they stand for, drops the backslash before any other character, leaves backslash-free text unchanged, and inverts the JSON-style encoding of every string. A text ending in an unpaired backslash loses it.", "quantifier": "all strings", "why_tests_cant": "any sequence of backslashes and characters", "anchors": ["src/parser/base/grammar.rs: escape"]}
{"id": "C12", "title": "Quoted strings are read verbatim", "statement": "string_quoted on an opening quote, a body without line breaks, backslashes and that quote, and a closing quote returns exactly the body and stops right after the closing quote. On an opening quote with no closing quote after it the sub-parser never returns (refutes termination).", "quantifier": "all bodies, all documents around them", "why_tests_cant": "unbounded bodies; non-termination cannot be observed by a test that finishes", "anchors": ["src/parser/base/grammar.rs: string_quoted"]}
{"id": "C13", "title": "Block scalar chomping", "statement": "After | or >, '-' strips all trailing white space, '+' keeps the text as read and no indicator clips it to exactly one final line break; the three agree up to trailing white space.", "quantifier": "all documents and indentation levels", "why_tests_cant": "texts with any number of trailing breaks", "anchors": ["src/parser/base/grammar.rs: chomp, string_literal, string_folded"]}
{"id": "C14", "title": "Block scalars keep their lines", "statement": "Inside a collection whose content is indented by d > 0 columns, string_literal on | (with '-', '+' or no indicator, then blanks) followed by lines that each carry d columns of indentation, separated by any number of empty lines, returns exactly the lines joined by their line breaks; string_folded on > returns them with a single break turned into one space and one break of several dropped; the final breaks are none (-), one (no indicator) or all of them (+); parsing stops in front of the first less indented line. An empty line before the first one, a missing final line break and a block scalar at the top level are refuted.", "quantifier": "all indentations, chomping indicators, the three kinds of line break (LF, CR LF, CR) and non-empty lists of lines of any content (any Unicode text without line breaks), with any number of empty lines between and after them", "why_tests_cant": "unbounded number of lines and any content", "anchors": ["src/parser/base/grammar.rs: string_wrapped, string_literal, string_folded", "src/parser/base/grammar.rs: ind, gap"]}
{"id": "C15", "title": "Version directive", "statement": "%YAML is accepted only with 1.1 or 1.2 and at most once per parser; a second one, or a text that does not begin with 1.1 or 1.2, is an error; no other directive or document content changes that.", "quantifier": "all documents and parser states", "why_tests_cant": "directives can be repeated and interleaved arbitrarily", "anchors": ["src/parser/base/directive.rs: directive, directive_yaml"]}
{"id": "C16", "title": "Tag handles", "statement": "%TAG handle prefix registers the prefix for the handle and leaves other handles alone; !!x resolves to the prefix of !! (tag:yaml.org,2002: by default) followed by x, !h!x to the prefix of !h! followed by x, !<t> to t, in every document of the text; !x is x whatever %TAG ! says and a bare ! is the prefix of !, and a bare ! with an empty prefix keeps the blank in the value (these two refute what YAML says). A handle that was never registered makes the parser panic (refutes panic freedom).", "quantifier": "all documents, handles, prefixes and tag names", "why_tests_cant": "all names, and the table persists across documents", "anchors": ["src/parser/base/grammar.rs: tag", "src/parser/base/directive.rs: directive_tag"]}
{"id": "C17", "title": "Anchor and alias names", "statement": "&name and *name read exactly the longest identifier ([A-Za-z0-9][A-Za-z0-9-]*) after the indicator and nothing else.", "quantifier": "all documents and positions", "why_tests_cant": "all identifiers and following bytes", "anchors": ["src/parser/base/grammar.rs: anchor, anchor_use, identifier"]}
{"id": "C18", "title": "Direct parsing leaves no alias", "statement": "In direct mode (parse) no node of the result, at any depth, is an alias: every alias is replaced by the value recorded for its anchor.", "quantifier": "all documents, all depths", "why_tests_cant": "every nesting and alias placement", "anchors": ["src/parser/mod.rs: parse, scalar_term, scalar_node"]}
{"id": "C19", "title": "Alias substitution is faithful", "statement": "An alias met in direct mode yields exactly the value of the anchor as recorded in the current document; if the anchor is not recorded in the current document, the parse fails with 'anchor referenced before definition'. In cyclic mode it yields Alias(name) and never fails for that reason.", "quantifier": "all documents, states, anchor tables and names", "why_tests_cant": "all anchor tables and names", "anchors": ["src/parser/mod.rs: scalar_term"]}
{"id": "C20", "title": "Anchors are unique per document and never overwritten", "statement": "During a parse the value recorded for an anchor of the current document is never replaced: a second definition of the same name makes the parse fail; a document never sees or changes the anchors of another document.", "quantifier": "all documents and interleavings of definitions", "why_tests_cant": "every ordering of definitions and documents", "anchors": ["src/parser/mod.rs: scalar_node, doc"]}
{"id": "C21", "title": "One anchor table per document", "statement": "parse_cyclic returns exactly as many anchor tables as documents, and at least one document. Each table lists the names of its anchors in alphabetical order, each once.", "quantifier": "all inputs on which parse_cyclic succeeds", "why_tests_cant": "any number of documents", "anchors": ["src/parser/mod.rs: parse, doc, parse_cyclic"]}
{"id": "C22", "title": "Positions point into the document", "statement": "Every node produced by parse, at any depth, and every node in the returned anchor tables has a position at most the length of the document in bytes, so indicated_msg never panics on a position taken from a parsed node.", "quantifier": "all documents, all nodes of the result", "why_tests_cant": "every node at every depth", "anchors": ["src/parser/mod.rs: scalar_node", "src/indicator.rs: indicated_msg"]}
{"id": "C23", "title": "indicated_msg reports the right line and column", "statement": "For every position at most the document length, indicated_msg returns line = 1 + number of LF before the position, column = 1 + distance from the last LF, the text of that line and a caret under the column; indicated_msg_file puts the file name and a colon in front of the same message; beyond the document it panics.", "quantifier": "all documents and positions", "why_tests_cant": "all positions on all line structures", "anchors": ["src/indicator.rs: indicated_msg, indicated_msg_file"]}
{"id": "C24", "title": "Error reporting never fails", "statement": "Every Terminate error raised while parsing carries a message computed from a position inside the document: raising an error never panics, and every error of a parse is either a mismatch or one of the documented error names.", "quantifier": "all documents", "why_tests_cant": "errors arise at every position", "anchors": ["src/parser/base/mod.rs: err", "src/parser/error.rs", "src/parser/mod.rs"]}
{"id": "C25", "title": "Parsing terminates", "statement": "parse and parse_cyclic come to an end on every document (of any text) in which, at every place where a node may begin (the beginning of the text, behind white space and behind one of [{,:-*>+), a quote is closed by one that is not escaped, an '&' is followed by a name or none and a '!' begins a tag, the last two with a space, a line break or one of :{}[], behind the name, and in which every '---' except one at the very beginning is followed by spaces, an optional comment and a line break; loops and nested calls are bounded by 8 times the number of bytes plus 8. In general termination is false: an unterminated quote, a document on the line of its '---' marker after a mapping whose value is not indented, and a tab after a tag or an anchor make parse run for ever; a plain scalar at an indentation level of column 0 that is followed by a line break is never read to the end.", "quantifier": "all documents of the class; for the refutations, concrete documents under every number of steps, and all parser states at a column-0 level", "why_tests_cant": "non-termination is not observable by tests", "anchors": ["src/parser/mod.rs: parse, seq_flow, map_flow, seq, map", "src/parser/base/grammar.rs: string_quoted, string_plain, gap, string_wrapped"]}
{"id": "C26", "title": "Parsing does not panic", "statement": "parse and parse_cyclic never panic on a document in which every tag handle !name! that occurs (anywhere) is declared by a %TAG line of the header, in particular when none occurs, and every integer literal that occurs has a value; tags !, !x, !!x, !<t> never panic. In general panic freedom is false: an undefined tag handle, or two equal out-of-range integer keys, panic.", "quantifier": "all headers, all documents whose handles and integer literals meet the condition", "why_tests_cant": "all inputs", "anchors": ["src/parser/mod.rs", "src/parser/base/grammar.rs: tag", "src/yaml.rs: PartialEq"]}
{"id": "C27", "title": "UTF-8 text survives", "statement": "Decoding the bytes of a Rust string gives the string back; for every document that is a Rust string, cutting it at ASCII bytes as the parser does never splits a character, so the text of a scalar is exactly the corresponding piece of the document and no replacement character is introduced. In bytes that are no text, each damaged part, as long as it can be, becomes one U+FFFD and every intact character stays.", "quantifier": "all Unicode strings; all sequences of bytes", "why_tests_cant": "1.1 million characters at every alignment", "anchors": ["src/parser/base/mod.rs: text", "src/parser/mod.rs: parse"]}
{"id": "C28", "title": "Node equality is an equivalence that ignores position and tag", "statement": "On nodes whose numbers are readable, == never panics and is reflexive (NaN included), symmetric and transitive, and does not depend on positions or tags.", "quantifier": "all nodes of any depth", "why_tests_cant": "all trees", "anchors": ["src/yaml.rs: PartialEq", "src/node.rs: PartialEq"]}
{"id": "C29", "title": "Equal nodes have equal hashes (refuted) except for numeric spelling", "statement": "Equal nodes whose numbers are spelled the same feed the hasher the same stream. In general the law required by hash maps is false: the integers 16 and 0x10 are equal but hash differently.", "quantifier": "all nodes and hashers", "why_tests_cant": "all pairs of equal trees", "anchors": ["src/yaml.rs: Hash, PartialEq"]}
{"id": "C30", "title": "Map semantics: last value wins, keys stay unique", "statement": "Building a map from pairs gives a map in which no key occurs twice, looking a key up gives the value of its last occurrence, and the pairs with distinct keys keep their order.", "quantifier": "all lists of pairs with readable string-spelled keys, all hashers (collisions included)", "why_tests_cant": "all insertion histories and all hash functions", "anchors": ["src/yaml.rs: Map, FromIterator", "src/node.rs: get"]}
{"id": "C31", "title": "Accessors agree with the data and report the position", "statement": "Each as_* accessor returns the payload for its variant (as_str also reads null as the empty string, as_value renders every scalar; as_number of an integer is the binary64 number nearest to it, exactly it up to 2^53) and otherwise the node's own position; get, get_ind, get_default and indexing agree with the contents of maps and sequences. tag returns the explicit tag or the core-schema tag of the kind (none for an alias), set_yaml keeps position and tag, and as_anchor resolves exactly aliases.", "quantifier": "all nodes, keys and indices", "why_tests_cant": "all nodes", "anchors": ["src/node.rs: as_int, as_float, as_number, as_bool, as_str, as_seq, as_map, as_value, as_anchor, get, get_default, get_ind, Index"]}
{"id": "C32", "title": "Error alternatives are tried only on mismatch", "statement": "PError::or runs the alternative exactly when the error is Mismatch and returns a Terminate error unchanged, so a fatal error can never be masked by a later alternative.", "quantifier": "all parsers and alternatives, all states", "why_tests_cant": "all combinations of parsers", "anchors": ["src/parser/error.rs: or"]}
{"id": "C33", "title": "Scalars keep their kind through a flow (JSON) document", "statement": "For every JSON value built from null, booleans, integers, numbers with a fraction or an exponent (not both), strings (with the JSON escapes of quote, backslash, newline, tab, return, backspace and form feed; not ending in a backslash), arrays and objects with string keys, nested to any depth, parse of its JSON text followed by a line break returns exactly one document equal to that value (of equal keys the last one counts), with white space allowed after opening brackets and commas, before closing brackets, in arrays before commas, and after a colon. The value of a number is the binary64 number nearest to the decimal one. Numbers with both a fraction and an exponent or a tab behind them, and \\u escapes, are misread (refuted).", "quantifier": "all JSON-like values of any depth and size", "why_tests_cant": "all trees", "anchors": ["src/parser/mod.rs: seq_flow, map_flow, scalar_term"]}
{"id": "C34", "title": "dump then parse returns the same data", "statement": "For every node built from null, booleans, integers, safe plain strings, non-empty sequences and non-empty maps with scalar keys, nested to any depth, dump produces text that parse reads back as an equal node. The round trip is false in general (empty containers, strings that look like other scalars or contain ': ' or ' #').", "quantifier": "all nodes of the class, any depth and width", "why_tests_cant": "all trees", "anchors": ["src/dumper.rs: dump", "src/parser/mod.rs: parse"]}
{"id": "C35", "title": "dump is total on the class and keeps document boundaries", "statement": "dump of any list of nodes of the class above returns a text; the text of n documents contains the n dumps separated by ---; dump loops for ever on strings starting with a flow bracket and panics on an empty root map (refutations).", "quantifier": "all lists of nodes", "why_tests_cant": "all lists of trees", "anchors": ["src/dumper.rs: dump"]}
{"id": "C36", "title": "Serde round trip", "statement": "For every value of every type built from bool, integers in the i64 range, f64, ASCII char, String, bytes, unit, Option (of a non-nullable type), Vec, tuples, maps with non-float keys, structs, newtypes and enums, to_node succeeds and deserializing the node at the same type gives the value back.", "quantifier": "all types of the universe and all their values, all hashers", "why_tests_cant": "all user types", "anchors": ["src/serde/ser.rs: to_node, NodeSerializer", "src/serde/de.rs: Deserializer for Node"]}
{"id": "C37", "title": "Narrowing integer deserialization (refuted)", "statement": "Deserializing an integer node at a type that can hold it gives that integer; otherwise it silently wraps instead of failing (300 read as u8 is 44).", "quantifier": "all i64 values and all integer widths", "why_tests_cant": "all integers and widths", "anchors": ["src/serde/de.rs: deserialize_u8 .. deserialize_i128"]}
{"id": "C38", "title": "Nodes pass through serde unchanged", "statement": "Serializing or deserializing a Node to a Node succeeds on every node with readable numbers, no alias and (at every level) map keys that differ by value, and gives an equal node with positions and tags dropped; a node with an alias anywhere reachable is an error, and deserialization reports the alias's position.", "quantifier": "all nodes", "why_tests_cant": "all trees", "anchors": ["src/serde/ser_node.rs", "src/serde/de.rs: NodeVisitor, deserialize_any"]}
{"id": "C39", "title": "Serde errors carry positions", "statement": "When a node of the wrong kind is deserialized, the error position is the position of that node; it is the position of some node inside the input, or zero for errors raised by serde itself. from_str of a text that cannot be parsed is an error without a position; otherwise all documents are read into values, and the first document that does not fit decides the error.", "quantifier": "all types and nodes", "why_tests_cant": "all combinations of type and node", "anchors": ["src/serde/de.rs: unexpected", "src/serde/error.rs"]}
{"id": "C40", "title": "Helper types are consistent", "statement": "InlineList: iter, into_iter, len, is_empty and is_single agree for both representations; Optional: ok / ok_instead / ok_or / ok_or_instead agree and call the callback exactly once unless disabled.", "quantifier": "all values", "why_tests_cant": "all element types and values", "anchors": ["src/serde/inline_list.rs", "src/serde/optional.rs"]}
{"id": "C41", "title": "Hashing never changes the result for distinct keys", "statement": "The result of parse does not depend on the hasher when all map keys are pairwise different strings.", "quantifier": "all JSON-like documents with distinct keys, all pairs of hashers", "why_tests_cant": "the hasher is randomly seeded at run time", "anchors": ["src/yaml.rs: Map", "src/parser/mod.rs: parse"]}
{"id": "C42", "title": "String serialization round trip", "statement": "to_string followed by from_str returns the value for every type and value whose node lies in the dump round-trip class.", "quantifier": "all such types and values", "why_tests_cant": "all user types and values", "anchors": ["src/serde/ser.rs: to_string", "src/serde/de.rs: from_str"]}
{"id": "C43", "title": "Block documents are read as they are written", "statement": "For every stream of documents written in block style (one-line plain, quoted or numeric scalars; sequences with '- ' items nested in place or on the next line; maps with distinct one-line scalar keys whose values are on the line, indented by any positive amount on the next line, or sequences in the key's own column; empty lines and comment lines anywhere between lines; '---' between documents), to any depth and size, parse succeeds and returns exactly the written documents in order: every item and every entry at the level its indentation says, none dropped, merged or moved to another collection.", "quantifier": "all block texts of the grammar, any nesting depth, indentation widths, comments and number of documents", "why_tests_cant": "infinitely many nestings and layouts; unit tests show a few", "anchors": ["src/parser/base/grammar.rs: gap, ind, ind_define", "src/parser/mod.rs: seq, map, scalar, scalar_term, doc, parse"]}
{"id": "C44", "title": "Windows line ends", "statement": "On Windows dump writes exactly the text it writes elsewhere with every LF replaced by CR LF, whatever the nodes, tags and anchors are, as long as tags, numbers, aliases, anchor names and one-line strings contain no LF themselves.", "quantifier": "all lists of nodes, all anchor tables, all depths", "why_tests_cant": "no test runs on every document and platform; the line end is spliced in at a dozen places and cut off again by length", "anchors": ["src/dumper.rs: NL, Dumper::dump, dump"]}
{"id": "C45", "title": "Anchors and tags in dumped text", "statement": "The text of a document is '&name ' for the first anchor (in key order) whose node equals it, then '!tag ' or '!<tag> ' for a tag outside the core schema, then the text of the same data without tag and anchor. The i-th document is written with the i-th anchor table only; documents after the first follow a '---' line with leading blanks removed.", "quantifier": "all nodes, tags, anchor tables and numbers of documents", "why_tests_cant": "all tables and nodes", "anchors": ["src/dumper.rs: Dumper::dump, dump"]}
{"id": "C46", "title": "What deserializes", "statement": "Deserializing a node at a type succeeds exactly for the data the type describes, with exactly that value: scalars of the right kind, sequences element by element, tuples ignoring a surplus, structs from maps with string keys (unknown keys ignored, every field given exactly once, a missing Option is None, any other missing field an error) or from sequences, externally tagged enums by name or one-entry map. from_str does this for each document in order.", "quantifier": "all types (bool, integers, f64, char, String, bytes, unit, Option, sequences, tuples, maps, structs, newtypes, enums, Node), all nodes", "why_tests_cant": "all types and all data", "anchors": ["src/serde/de.rs: Deserializer for Node, SeqVisitor, MapVisitor, EnumVisitor, VariantVisitor, from_str"]}
{"id": "C47", "title": "What is serialized", "statement": "to_node writes each value in the documented form: integers and floats as their text, a struct as a map of its field names in declaration order, a unit variant as its name and any other variant as a map with one entry, None and unit as null, bytes as a sequence of numbers.", "quantifier": "all types and values of C36's class", "why_tests_cant": "all types and values", "anchors": ["src/serde/ser.rs: NodeSerializer, SeqSerializer, MapSerializer, to_node"]}
{"id": "C48", "title": "Documents are read exactly as written", "statement": "A text built from block sequences and maps (implicit and explicit keys, sequences in the column of their key), flow sequences and maps, plain, quoted, literal and folded scalars, numbers, empty items and values, anchors, aliases and tags in any combination, with comments and empty lines between, LF or CRLF line breaks, with or without one at the end of the file, a header of directives and any number of documents separated by --- and ..., parses to exactly the nodes it spells: every value, every tag and every byte position. With parse_cyclic the aliases stay and the anchor table of each document holds exactly the names defined in it.", "quantifier": "all texts of the grammar in Gram.v: any nesting, widths of indentation, number of entries and documents", "why_tests_cant": "unbounded nesting and size; the loader keeps state (indentation table, checkpoints, anchors) across all of it", "anchors": ["src/parser/mod.rs: Loader::parse, doc, scalar, seq, map, scalar_flow, seq_flow, map_flow", "src/parser/base/grammar.rs: ind, ind_define, gap, identifier, string_plain, string_quoted, string_literal, string_folded, anchor, anchor_use, tag"]}
{"id": "C49", "title": "An answer comes soon or never", "statement": "Whatever document, if parse or parse_cyclic comes to an end at all, it does so without nesting calls or going round a loop more than 8 times its length in bytes plus 8; otherwise it runs for ever. The same for the loops of the sub-parsers (gaps, quoted, plain, literal and folded scalars): they end within as many rounds as there are bytes left plus two, or never.", "quantifier": "all documents, all parser states with the cursor in the document, all bounds", "why_tests_cant": "a test that hangs cannot tell a slow answer from none, and no finite set of documents bounds the depth for all", "anchors": ["src/parser/mod.rs: Loader::parse, doc, scalar, seq, map, scalar_flow, seq_flow, map_flow", "src/parser/base/grammar.rs: gap, string_quoted, string_plain, string_wrapped"]}
{"id": "C50", "title": "parse and parse_cyclic agree", "statement": "On a document without the symbol * the two functions give exactly the same nodes, or the same error. On any document, where both succeed, the documents of parse are those of parse_cyclic with every alias replaced by the value its anchor has (anchor tables with the same names), all positions and tags equal; where one fails so does the other with the same error, except that parse also fails on an alias whose anchor is not defined before it (and a panic on unreadable numeric keys may hit only one of them).", "quantifier": "all documents, all hashers", "why_tests_cant": "relates two runs on every document; aliases may be anywhere, inside keys included", "anchors": ["src/parser/mod.rs: parse, parse_cyclic, Loader::scalar_inner (alias), scalar_node", "src/yaml.rs: Map, FromIterator"]}
{"id": "C51", "title": "The hasher of maps does not show", "statement": "The result of parsing depends on the hash function only through its collisions: two hashers with the same collisions give the same nodes, errors and anchor tables. On documents without digits any two hashers do, colliding or not. (With numbers it shows: the keys 1 and 01 are equal but hash differently.)", "quantifier": "all documents, all pairs of hash functions", "why_tests_cant": "quantifies over hash functions; a test sees one (RandomState is seeded per process)", "anchors": ["src/yaml.rs: Hash for Yaml, PartialEq for Yaml, Map", "src/parser/mod.rs: map, map_flow"]}
{"id": "C52", "title": "Positions follow the text", "statement": "With parse_cyclic, and with parse on a document without aliases, the position of a node is never after that of anything inside it; the items of a sequence follow each other, every node of one item before every node of the next; a key, with all in it, is before its value; the values of a map follow each other; and every node of a document is before every node of the next document. (The keys need not be in the order of the values: a repeated key keeps its first key node with the last value. With aliases, parse copies nodes that keep the place of the anchor.)", "quantifier": "all documents, all hashers, all nodes of the result", "why_tests_cant": "every document; positions are taken at several places of the loader, before and after white space is skipped, and the cursor may go back", "anchors": ["src/parser/mod.rs: Loader::parse, doc, scalar, scalar_node, seq, map, seq_flow, map_flow", "src/parser/base/mod.rs: indicator, forward", "src/yaml.rs: Map insertion"]}
{"id": "C53", "title": "Documents are separated by markers", "statement": "When parsing gives n documents there are n-1 places in the text where --- is written such that every node of the documents up to the i-th is at or before the i-th of them and every node of the later documents is after it. No document is invented and none spans a marker.", "quantifier": "all documents, all hashers, all nodes of the result", "why_tests_cant": "every text; the number and the places of the documents are unbounded", "anchors": ["src/parser/mod.rs: Loader::parse, doc"]}
{"id": "C54", "title": "Helper types read and write as their documentation says", "statement": "InlineList<T> written and read again (from any node with the same data, wherever it is and whatever its tags) gives the same list or the same single element, provided a single element is not itself written as a list; Optional<T> likewise gives the same boolean or value, provided the value is not written as a boolean. What InlineList reads is, item for item, what T reads from the items of the sequence, or what T reads from the node itself; what Optional reads is the boolean of the node, or what T reads from it. Stringify reads booleans, integers that fit 32 bits as integers and others as floats, floats and strings, refuses anything else, and booleans, integers and strings come back as they were and show as their text. An alias is an error at its place; any other mismatch is an error whose place is lost (0), never a panic on readable numbers.", "quantifier": "all element types built from the serde data model (integers up to 64 bits), all values, all nodes with readable numbers, all hashers", "why_tests_cant": "quantifies over all element types and values; the alternatives are tried one after the other from a buffered copy of the node and may capture each other's input", "anchors": ["src/serde/inline_list.rs: InlineList", "src/serde/optional.rs: Optional", "src/serde/stringify.rs: Stringify", "src/serde/de.rs: deserialize_any, NodeVisitor"]}
{"id": "C55", "title": "Sharing data between nodes does not show", "statement": "Nodes hold reference-counted data and clones share it; comparing two pointers to the same data answers without looking at it. Whatever is shared (same address means same data), node equality, key lookup and building a map give the answer they give on copies whenever that comparison does not panic; so on readable numbers Rc, Arc, clones and copies cannot be told apart, and elsewhere sharing only avoids panics.", "quantifier": "all pairs of nodes and all ways their parts may share data, all maps, all hashers", "why_tests_cant": "quantifies over all sharing patterns, which depend on aliases, clones and the history of the nodes", "anchors": ["src/repr.rs: RcRepr, ArcRepr, Repr", "src/node.rs: PartialEq, Clone, clone_yaml", "src/yaml.rs: PartialEq, Map"]}
{"id": "C56", "title": "What is printed tells the data apart", "statement": "The Debug text of two nodes is the same exactly when they have the same data written the same way (kinds, digits, strings, order of entries; positions and tags do not show); in particular nodes that print the same are equal. The text is a single line of printable characters, and a string of ordinary characters is shown as it is. The Display text of an error of parse determines its name and its message; that of a serde error shows its message and, in decimal, its position.", "quantifier": "all pairs of nodes with strings of Unicode characters, any table of printable characters, all pairs of documents with errors", "why_tests_cant": "injectivity over all pairs of unbounded nested values with arbitrary strings", "anchors": ["src/yaml.rs: Debug for Yaml", "src/node.rs: Debug for Node", "src/parser/error.rs: Display for PError"]}
{"id": "C57", "title": "Tags, anchors, aliases and collections as keys survive dump and parse", "statement": "For documents of scalars that stand bare or in quotes, text of several lines, non-empty sequences and maps (any of them also as keys), with tags and a table of anchors per document, dump gives a text and parse_cyclic of it gives the same documents: the same data with the same tags at every place, aliases as aliases, and for each document a table with exactly the names of its anchored nodes, each for the same node; without aliases so does parse. It holds for both kinds of line breaks. Marks may stand on the first document, items, scalar values and scalar keys that are not the first of an inline map; elsewhere (a later document, a collection as a value or key, a first key) they are lost or misread.", "quantifier": "all documents of the class, all anchor tables, both line ends, all hashers, any table of alphanumeric characters", "why_tests_cant": "a round trip over unbounded nested documents; the position of every mark, blank and indentation interacts with every kind of parent and child", "anchors": ["src/parser/base/directive.rs: dump, NodeArgs / node dump with anchors and tags", "src/parser/mod.rs: parse_cyclic, parse, scalar, scalar_inner, anchor, map, seq", "src/parser/base/grammar.rs: anchor, tag"]}
{"id": "C58", "title": "Reformatting is stable", "statement": "For the same documents, with numbers that can be read: dumping them, reading the text with parse_cyclic and dumping what was read with the anchor tables that were read gives the same text again, byte for byte.", "quantifier": "all documents of the class of C57, all anchor tables, both line ends, all hashers", "why_tests_cant": "a fixpoint over all documents; the tables come back in another order and the nodes with other positions and tags", "anchors": ["src/parser/base/directive.rs: dump", "src/parser/mod.rs: parse_cyclic", "src/yaml.rs: PartialEq for Yaml"]}
{"id": "C59", "title": "Quoted scalars on several lines fold", "statement": "A scalar between quotes may run over any number of lines. It stands for its lines (with their escapes replaced) joined: a line break with the blanks around it is one space, a break followed by n empty lines is n line feeds, and the indentation of a line does not count; for line breaks of Unix, Windows and old Mac. The reader takes exactly the text up to the closing quote.", "quantifier": "all texts of lines of JSON-escaped (double quotes) or quote-doubled (single quotes) characters where no line but the last ends in a backslash, in an n behind one, or in a blank before an empty line; all three kinds of line break; all numbers of lines and empty lines; any place in any document", "why_tests_cant": "quantifies over all texts with unboundedly many lines; the folding is a state machine over the characters, the escapes and the blanks before and after every break", "anchors": ["src/parser/base/grammar.rs: Parser::string_quoted, ws_any, gap, escape", "src/parser/mod.rs: Loader::scalar_inner"]}
{"id": "C60", "title": "Plain scalars on several lines fold", "statement": "A plain scalar may run over any number of lines, each line after the first indented two columns deeper than the place of the scalar. It is then a string, the lines joined: a line break with the indentation behind it is one space, a break followed by n empty lines is n line feeds, and further indentation behind a single break does not count. It holds for a document, a value of a key, an item and a scalar inside of brackets (six columns at the top level), and for line breaks of Unix, Windows and old Mac.", "quantifier": "all first lines that are plain words of the grammar, all numbers of further lines of any text without key, comment or runs of blanks, all numbers of empty lines, all indentations", "why_tests_cant": "quantifies over all texts with unboundedly many lines; the reader decides at every break, from what follows it, whether the scalar goes on", "anchors": ["src/parser/base/grammar.rs: Parser::string_plain, gap, ind, unind", "src/parser/mod.rs: Loader::scalar_inner, scalar, map, seq"]}
{"id": "C61", "title": "Nodes made by hand are what they show", "statement": "node!(v) and Node::from(v) make a node with position 0 and no tag of its own from which the accessor of its kind gives v back (unit, booleans, integers, floats, text, characters; integers beyond i64 keep their text but as_int refuses them), and a node passed to node! comes back unchanged. node!([a, b, ..]) and collecting an iterator of nodes give the sequence of exactly these items in order, node!([v; n]) of n copies. node!({k => v, ..}) and collecting pairs give a map in which each key has its last value and no key is twice. node!(*a) is an alias. Literals nested to any depth make exactly the data they show whatever the hasher, and what dump writes for it is read back equal. (Refuted: two equal integer keys beyond i64 panic.)", "quantifier": "all values, all lists and maps of literals of any length, all nestings, all hashers", "why_tests_cant": "quantifies over unboundedly long and deeply nested literals and over all hashers", "anchors": ["src/lib.rs: node!", "src/yaml.rs: From, FromIterator for Yaml", "src/node.rs: Node::new, From, FromIterator for Node"]}
{"id": "C62", "title": "Documents stand alone, and reading can be resumed", "statement": "In a file of several documents without directives, what is read for document i and the following ones, if a line break follows its `---`, is exactly what parsing the file from that `---` on gives: the same nodes, with positions counted from there, and (cyclic) the same anchor tables; nothing of the documents before has any influence. (Refuted without the line break: indentation of the document before is still in force on the line of the marker, and two documents that are read alone are refused together.) Likewise for the sub-parsers: consume, and then with_doc of the rest, is going on at the same place - the same position is reported, the same bytes are left, text is empty - and every sub-parser call then gives the same result and ends at the same place as without consume. (Refuted for errors: after consume the report of an error can panic.) And parsing that starts at a later position (pos(k)) is parsing what is left, with the positions counted from the start of the document.", "quantifier": "all documents and modes, all numbers of documents; all parser states and calls, all nesting depths and loop counts", "why_tests_cant": "quantifies over all prefixes that could have left something in the parser's state, and over all continuations", "anchors": ["src/parser/mod.rs: Loader::parse, doc, scalar, seq, map", "src/parser/base/mod.rs: Parser::consume, with_doc, pos, indicator, food, text, err", "src/parser/base/grammar.rs: Parser::ind, gap, string_wrapped"]}
{"id": "C63", "title": "Single-precision numbers", "statement": "Reading an f32 from an integer gives the binary32 number nearest to it, ties to even (exactly the integer up to 2^24); reading it from a float gives the binary32 number nearest to the f64 that its text is read as, and that is the one nearest to the number in the text itself unless this f64 lies half-way between two binary32 numbers; overflow is an infinity and underflow a zero of that sign. Anything that is not a number is an error at the position of the node. A float written with an exact text, or with any text whose nearest binary32 number it is and that does not hit a half-way point, is read back as it was; a Stringify holds the same number. (Refuted: a decimal is rounded twice, so 7.038531e-26, the shortest text of a binary32 number, is read as its neighbour and does not come back.)", "quantifier": "all texts and integers, all binary32 and binary64 numbers, all ways to print a float", "why_tests_cant": "quantifies over all decimals of any length; the wrong roundings are a few among 2^32 numbers", "anchors": ["src/serde/de.rs: deserialize_f32", "src/serde/ser.rs: serialize_f32", "src/yaml.rs: to_f64, to_i64, From<f32>", "src/serde/stringify.rs: Stringify"]}
{"id": "C64", "title": "Nodes travel through any format", "statement": "Deserializing a node from any other format (a tree of units, options, booleans, integers, floats, text, sequences and maps) gives the node that shows the same data, with position 0, no tags of its own and the entries of maps in their order (of a repeated key only the last), whatever the hasher; serializing that node to any format gives the data back (an absent option is a unit, a present one its content, the two kinds of integers are one). Data that YAML has no kind for is an error, inside of a sequence too. A node whose numbers can be read is serialized without panic, and the only error is the one for an alias. (Refuted: an unsigned integer beyond i64 is accepted, and serializing the node it becomes panics.)", "quantifier": "all trees of data of any depth and width with integers that fit i64 (maps with repeated keys at the top), all hashers, all ways to print floats that are read back", "why_tests_cant": "quantifies over all trees and over all formats on the other side", "anchors": ["src/serde/de.rs: NodeVisitor", "src/serde/ser_node.rs: Serialize for Node", "src/yaml.rs: From, FromIterator for Yaml"]}
