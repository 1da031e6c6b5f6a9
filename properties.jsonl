{"id": "C01", "title": "Incremental document sync equals applying each change in order", "statement": "After a textDocument/didChange whose changes all use positions that exist in the document they apply to, the stored document text is exactly the text obtained by applying the changes one after the other: each ranged change replaces the text between its two positions with its new text and leaves everything else untouched, and a range-less change replaces the whole document. No panic occurs.", "quantifier": "every document text (all Unicode scalar values, any mix of \\n, \\r\\n, lone \\r), every list of content changes of any length", "why_tests_cant": "the cursor is carried from one change to the next; correctness depends on every prefix of every change list and every text", "anchors": ["src/server/lsp/textdocument.rs: TextDocumentItem::apply_content_changes", "src/server/state.rs: change_document"]}
{"id": "C02", "title": "didChange with a position that does not exist never silently corrupts the document", "statement": "If a ranged change names a start position that is not a position of the current text (past the end of a line, or inside a surrogate pair) the server must either clamp it as LSP prescribes or refuse it; it must not delete text outside the named range.", "quantifier": "every text and every range", "why_tests_cant": "depends on all out-of-line and mid-surrogate positions of all texts", "anchors": ["src/server/lsp/textdocument.rs: apply_content_changes"]}
{"id": "C03", "title": "Position to byte offset and back is a round trip", "statement": "For every UTF-8 boundary of a text the UTF-16 line/column position computed for it converts back to the same byte offset, and for every position that converts to a byte offset converting back yields the same position (texts whose line breaks are LF or CRLF, places not between CR and LF); offsets off a character boundary or outside the text are rejected.", "quantifier": "every text and every byte offset / position", "why_tests_cant": "all texts, all offsets, all scalar value widths", "anchors": ["src/server/lsp/textdocument.rs: Position::from_byte_index, Position::byte_index"]}
{"id": "C04", "title": "Byte offset to position is monotone and injective", "statement": "A smaller byte offset never maps to a larger position and different boundaries map to different positions, so reported ranges are well formed (start <= end) and never collapse.", "quantifier": "every text and every pair of offsets", "why_tests_cant": "all pairs of offsets in all texts", "anchors": ["src/server/lsp/textdocument.rs: Position::from_byte_index, Ord for Position, Range::from_byte_offset_range"]}
{"id": "C05", "title": "Text edits are applied simultaneously against the original document", "statement": "Applying a set of pairwise non-overlapping text edits whose positions exist in the document yields the document in which every edited range is replaced by its new text and every other character is unchanged, independently of the order in which the edits were listed; a final newline is added iff the result lacks one. No panic occurs.", "quantifier": "every text, every list of non-overlapping edits in every order", "why_tests_cant": "quantifies over all texts, edit sets and permutations", "anchors": ["src/server/lsp/textdocument.rs: TextDocumentItem::apply_text_edits"]}
{"id": "C06", "title": "Several insertions at one position keep their listed order", "statement": "LSP: if multiple inserts have the same position, the order in the array defines the order in which the inserted strings appear in the resulting text.", "quantifier": "every text, every list of edits with equal start", "why_tests_cant": "all edit lists", "anchors": ["src/server/lsp/textdocument.rs: TextDocumentItem::apply_text_edits"]}
{"id": "C07", "title": "The parse tree served for a document is the parse tree of its current text", "statement": "Whatever sequence of didOpen, didChange and requests precedes it, the parse tree used to answer a request on a document is the parse tree of that document's current text.", "quantifier": "every history of opens, changes and requests over any number of documents", "why_tests_cant": "a cache-coherence property over unbounded histories", "anchors": ["src/server/state.rs: get_cached_parse_tree, add_document, change_document"]}
{"id": "C08", "title": "Documents are independent", "statement": "Opening or changing one document never changes the text or version stored for another one, and a change to a document that was never opened is reported as an error and changes nothing.", "quantifier": "every history and every pair of URIs", "why_tests_cant": "unbounded histories", "anchors": ["src/server/state.rs: add_document, change_document, get_document"]}
{"id": "C09", "title": "Message framing is a round trip for every byte content and every chunking", "statement": "A stream consisting of Content-Length framed messages is decoded to exactly those messages in order, whatever bytes the messages contain (including header-like text), and a truncated last message yields no partial message.", "quantifier": "every list of messages, every truncation point", "why_tests_cant": "all byte strings and truncation points", "anchors": ["src/stdio_reader.rs: read_next_message", "src/main.rs: send_message"]}
{"id": "C10", "title": "Lifecycle order is enforced", "statement": "initialize succeeds at most while the server is not running, shutdown succeeds exactly once and only after initialized, a second initialize or a shutdown in the wrong phase gets an error response and changes no state.", "quantifier": "every sequence of lifecycle messages", "why_tests_cant": "unbounded message histories", "anchors": ["src/server/message_handler/lifecycle.rs", "src/server/state.rs: ServerStatus"]}
{"id": "C11", "title": "Every request with an id gets exactly one response", "statement": "Each dispatched request yields exactly one response carrying its id (a result or an error); unknown methods yield a MethodNotFound error; notifications never yield a response.", "quantifier": "every message sequence", "why_tests_cant": "unbounded histories and every handler outcome", "anchors": ["src/server/message_handler/mod.rs: dispatch", "src/server/mod.rs: handle_message, handle_error"]}
{"id": "C12", "title": "Parsing is lossless", "statement": "For every input text the syntax tree's leaves, concatenated, are exactly the input text, in order, nothing lost, duplicated or invented (comments, whitespace and unrecognised characters included).", "quantifier": "every input text / token sequence, query and update entry point", "why_tests_cant": "all token sequences, valid or not", "anchors": ["crates/sparql-parser/src/parser/mod.rs: parse_text, build_tree, lex", "crates/sparql-parser/src/parser/grammar.rs"]}
{"id": "C13", "title": "The parser terminates on every input", "statement": "Parsing any token sequence finishes: it never loops forever, whatever the error recovery does.", "quantifier": "every token sequence", "why_tests_cant": "termination over all inputs cannot be tested", "anchors": ["crates/sparql-parser/src/parser/grammar.rs", "crates/sparql-parser/src/parser/mod.rs: Parser::nth, advance"]}
{"id": "C14", "title": "The parser never panics", "statement": "Parsing any text returns a tree; it never aborts the server (no failed assertion, no 'parser is stuck').", "quantifier": "every token sequence, every nesting depth", "why_tests_cant": "all token sequences", "anchors": ["crates/sparql-parser/src/parser/mod.rs: Parser::nth, advance, advance_with_error, build_tree, remove_empty_nodes"]}
{"id": "C15", "title": "No empty nodes in the tree", "statement": "Except for the root, every node of the produced tree covers at least one token.", "quantifier": "every token sequence", "why_tests_cant": "all inputs", "anchors": ["crates/sparql-parser/src/parser/mod.rs: remove_empty_nodes"]}
{"id": "C16", "title": "Accepted means grammatical (soundness)", "statement": "If parsing reports no syntax error, the non-trivia token sequence is derivable in the SPARQL grammar shipped with the parser.", "quantifier": "every token sequence", "why_tests_cant": "all token sequences, the language is infinite", "anchors": ["crates/sparql-parser/src/parser/grammar.rs", "crates/sparql-parser/sparql12.ungram"]}
{"id": "C17", "title": "Grammatical means accepted (completeness)", "statement": "If the non-trivia token sequence is derivable in the SPARQL grammar, parsing reports no syntax error and produces no error node.", "quantifier": "every grammatical token sequence", "why_tests_cant": "the language is infinite", "anchors": ["crates/sparql-parser/src/parser/grammar.rs", "crates/sparql-parser/sparql12.ungram", "crates/sparql-parser/generator/mod.rs"]}
{"id": "C18", "title": "Syntax error ranges lie inside the document", "statement": "Every reported syntax error has a byte range that lies within the text, starts and ends on token boundaries and never covers trivia only, so converting it to a position range cannot fail.", "quantifier": "every input", "why_tests_cant": "all inputs", "anchors": ["crates/sparql-parser/src/parser/mod.rs: build_tree", "src/server/message_handler/textdocument_synchronization.rs: handle_did_save_notification", "src/server/message_handler/diagnostic/syntax_error.rs"]}
{"id": "C19", "title": "Operation type is decided by the first query or update keyword", "statement": "A text is treated as an update iff the first operation keyword token in it is an update keyword; otherwise as a query; the decision is independent of comments, whitespace and prologue, and a grammatical query or update is recognised as such.", "quantifier": "every token sequence", "why_tests_cant": "all token sequences", "anchors": ["crates/sparql-parser/src/parser/mod.rs: guess_operation_type", "crates/sparql-parser/src/lib.rs: parse, guess_query_type", "src/server/message_handler/identification/mod.rs"]}
{"id": "C20", "title": "Semantic token encoding decodes to the collected tokens", "statement": "Decoding the relative LSP encoding gives back exactly the collected tokens with their absolute line, start column, length and type; the deltas never underflow.", "quantifier": "every token sequence", "why_tests_cant": "all token sequences", "anchors": ["src/server/message_handler/semantic_tokens/mod.rs: encode_semantic_tokens, collect_semantic_tokens"]}
{"id": "C21", "title": "Semantic token positions are the tokens' UTF-16 positions", "statement": "Every semantic token is reported at the UTF-16 line/column of its text with its UTF-16 length.", "quantifier": "every document", "why_tests_cant": "all documents (multi-byte characters, multi-line literals)", "anchors": ["src/server/message_handler/semantic_tokens/mod.rs: collect_semantic_tokens"]}
{"id": "C22", "title": "Streaming result reader delivers exactly the requested window of bindings", "statement": "For a well-formed SPARQL JSON result the reader delivers the header, then exactly the bindings with index in [offset, offset+limit) in order, in batches of the batch size (the last possibly smaller), and the reported count is the total number of bindings, independent of how the bytes are chunked.", "quantifier": "every list of bindings, every batch size, limit and offset, every chunking", "why_tests_cant": "all inputs and chunkings", "anchors": ["crates/lazy-sparql-result-reader/src/parser.rs: Parser::read_byte, flush", "crates/lazy-sparql-result-reader/src/lib.rs: read"]}
{"id": "C23", "title": "Streaming result reader is insensitive to structural bytes inside strings", "statement": "Braces, brackets, quotes and backslashes inside JSON strings of a binding never affect where bindings start and end.", "quantifier": "every string content", "why_tests_cant": "all byte strings", "anchors": ["crates/lazy-sparql-result-reader/src/parser.rs: ScannerState"]}
{"id": "C24", "title": "N-Triples parsing is faithful", "statement": "Parsing accepts exactly the token sequences that are a repetition of subject, predicate, object, dot (comments anywhere), and returns the triples in order with the exact token bytes; an incomplete last statement is rejected.", "quantifier": "every token sequence", "why_tests_cant": "all token sequences", "anchors": ["crates/ntriples-parser/src/lib.rs: parse"]}
{"id": "C25", "title": "Lexing tiles the input", "statement": "The token spans produced by the lexer are contiguous, non-empty and cover the input exactly, so every byte belongs to exactly one token.", "quantifier": "every text", "why_tests_cant": "all texts", "anchors": ["crates/sparql-parser/src/parser/mod.rs: lex", "crates/sparql-parser/src/syntax_kind/generated.rs"]}
{"id": "C26", "title": "Range overlap test is exact", "statement": "Two ranges are reported as overlapping iff each starts before the other ends; for non-empty ranges this is exactly having a position in common; the test is symmetric.", "quantifier": "every pair of ranges", "why_tests_cant": "all pairs", "anchors": ["src/server/lsp/textdocument.rs: Range::overlaps, TextEdit::overlaps"]}
{"id": "C27", "title": "A grammatical text has one tree, and the parser builds it", "statement": "If the significant tokens of a text are derivable in the shipped SPARQL grammar then the derivation is unique and the returned tree, with whitespace and comments removed, is that derivation (rules that derive nothing leave no node).", "quantifier": "every sentence of the grammar from either entry point, with any trivia in between", "why_tests_cant": "infinitely many sentences; ambiguity is a property of the whole grammar", "anchors": ["crates/sparql-parser/src/parser/grammar.rs: all parse_* functions", "crates/sparql-parser/sparql12.ungram", "crates/sparql-parser/src/parser/mod.rs: build_tree, remove_empty_nodes"]}
{"id": "C28", "title": "No message takes the server down", "statement": "Whatever message the client sends, well-formed or not, the server goes on serving messages afterwards.", "quantifier": "every message and every server state", "why_tests_cant": "all JSON values in all states", "anchors": ["src/server/message_handler/mod.rs: call_async, dispatch", "src/server/mod.rs: handle_message"]}
{"id": "C29", "title": "The server's own requests carry different ids", "statement": "The ids of the requests the server sends (workspace/applyEdit) in one session are pairwise different, so that a client's reply identifies its request.", "quantifier": "every message history", "why_tests_cant": "unbounded histories", "anchors": ["src/server/state.rs: bump_request_id_counter", "src/server/message_handler/diagnostic/auto_fix_prefixes.rs"]}
{"id": "C30", "title": "The default backend is the one last made default", "statement": "The default backend, once set, is always a registered one; addBackend registers the backend (as default if flagged) and leaves the others alone, or changes nothing if it fails; updateDefaultBackend switches the default used and reported.", "quantifier": "every message history and backend configuration", "why_tests_cant": "unbounded histories", "anchors": ["src/server/message_handler/backend/mod.rs", "src/server/state.rs: add_backend, set_default_backend, get_default_backend", "src/server/message_handler/lifecycle.rs: handle_initialize_request"]}
{"id": "C31", "title": "Responses conform to JSON-RPC 2.0", "statement": "Every response has either a result or an error, and an error's code is an integer.", "quantifier": "every response the server can send", "why_tests_cant": "all requests and states", "anchors": ["src/server/lsp/errors.rs: ErrorCode, LSPError", "src/server/lsp/rpc.rs: ResponseMessage"]}
{"id": "C32", "title": "A settings patch overrides exactly the keys it contains", "statement": "After changeSettings every value the patch contains (at any depth) is in force, every key it does not mention keeps its value, arrays are replaced as a whole, and a patch that leaves no valid settings is refused without changing anything.", "quantifier": "every settings value, every JSON patch, every key path", "why_tests_cant": "unbounded nesting of JSON objects", "anchors": ["src/server/message_handler/settings/mod.rs: merge_settings, merge_value, handle_change_settings_notification"]}
{"id": "C33", "title": "Each token is the longest match, and its kind is determined", "statement": "Every token is the longest text at its place that any token definition matches, no two definitions match the same text, and an error token appears only where no definition matches.", "quantifier": "every text", "why_tests_cant": "pairs of regular expressions over all texts; the number of definitions makes accidental overlaps likely", "anchors": ["crates/sparql-parser/src/parser/mod.rs: lex", "crates/sparql-parser/src/syntax_kind/generated.rs: SyntaxKind"]}
{"id": "C34", "title": "Terminals are those of SPARQL", "statement": "A text is read as one IRI, prefixed name, blank node label, variable, language tag, number, string, NIL, ANON, comment or whitespace token exactly if the SPARQL grammar's production for that terminal derives it.", "quantifier": "every text, every terminal", "why_tests_cant": "infinite languages", "anchors": ["crates/sparql-parser/src/syntax_kind/generated.rs: IRIREF, PNAME_NS, PNAME_LN, BLANK_NODE_LABEL, VAR1, VAR2, LANG_DIR, INTEGER, DECIMAL, DOUBLE, STRING_LITERAL*, NIL, ANON"]}
{"id": "C35", "title": "Keywords are recognised in any case, punctuation as itself", "statement": "A text equal to a SPARQL keyword up to the case of ASCII letters is read as that keyword; each punctuation mark is read as itself and nothing else is.", "quantifier": "every keyword, every mixture of cases; every text for punctuation", "why_tests_cant": "2^n spellings per keyword", "anchors": ["crates/sparql-parser/src/syntax_kind/generated.rs: #[token(.., ignore(case))]"]}
{"id": "C36", "title": "Whitespace separates tokens", "statement": "A token followed by a blank is read as that token whatever comes after the blank.", "quantifier": "every token (but opening brackets, INSERT, DELETE, whitespace and comments, which may continue over a blank) and every continuation", "why_tests_cant": "all tokens and all continuations", "anchors": ["crates/sparql-parser/src/syntax_kind/generated.rs: all definitions", "crates/sparql-parser/src/parser/mod.rs: lex"]}
{"id": "C37", "title": "Formatting yields edits that can be applied", "statement": "For every document without comments a formatting request ends (no panic, no endless loop) with a list of edits that lie inside the document on character boundaries, do not overlap, and can be applied; the answer depends on the request only.", "quantifier": "every text, every formatting setting (but contractTriples) and every request option", "why_tests_cant": "all documents, grammatical or not, times all settings", "anchors": ["src/server/message_handler/formatting/core.rs: format_document, Walker, transform_edits, consolidate_edits, merge_comments", "src/server/message_handler/formatting/mod.rs: format_raw"]}
{"id": "C38", "title": "Formatting changes the layout only", "statement": "Applying the edits of a formatting request yields the same tokens in the same order, changed only in letter case of keywords and in blanks inside [ ], after a sign and inside DELETE DATA etc.; reading the result gives the same tokens.", "quantifier": "every text without comments, every setting and option", "why_tests_cant": "all documents; an edit that eats a character shows only where two rules meet", "anchors": ["src/server/message_handler/formatting/core.rs: in_node_augmentation, pre_node_augmentation, post_node_augmentation, Walker::next"]}
{"id": "C39", "title": "Formatting copes with comments anywhere", "statement": "Wherever comments stand in a document, formatting it succeeds and keeps every comment.", "quantifier": "every text with comments", "why_tests_cant": "comments may stand between any two tokens of any document", "anchors": ["src/server/message_handler/formatting/core.rs: comment_marker, transform_comments, merge_comments"]}
{"id": "C40", "title": "Formatting is idempotent", "statement": "Formatting a formatted document changes nothing.", "quantifier": "every text", "why_tests_cant": "all documents", "anchors": ["src/server/message_handler/formatting/core.rs: format_document"]}
{"id": "C41", "title": "References and highlights of a variable are exactly its occurrences", "statement": "With the cursor on a variable, find-references and document-highlight return the ranges of exactly the occurrences of that variable, each once, in document order, and the same from every occurrence; with the cursor elsewhere nothing. Occurrences of one name are the same variable if their scopes (innermost sub-selects) are linked by sub-selects that export the name.", "quantifier": "every document, grammatical or not, every position, any nesting of sub-selects", "why_tests_cant": "nesting and the ways scopes connect are unbounded", "anchors": ["src/server/message_handler/common/mod.rs: find_variable_occurrences, UnionFind", "src/server/message_handler/references/mod.rs", "src/server/message_handler/document_highlight/mod.rs", "crates/sparql-parser/src/ast/mod.rs: visible_variables"]}
{"id": "C42", "title": "Rename edits exactly the occurrences of the variable", "statement": "A rename on a variable to a name of the SPARQL grammar (with or without ? or $) returns one edit per occurrence of that variable, none overlapping, each replacing exactly the occurrence by ? and the name; it is refused only if the position is outside the document or not on a variable, or the name is not one of the grammar, or the variable stands in a syntax error; it never panics.", "quantifier": "every document, position and new name", "why_tests_cant": "all documents, positions and Unicode names", "anchors": ["src/server/message_handler/rename/mod.rs", "src/server/message_handler/common/mod.rs: is_valid_variable_name, find_variable_occurrences"]}
{"id": "C43", "title": "Rename keeps the meaning and can be undone", "statement": "After renaming a variable to a name that is not in use, two occurrences denote the same variable exactly if they did before, and renaming any of the renamed occurrences back restores the document character for character.", "quantifier": "every document without lexical errors, every position on a variable, every fresh name, any nesting of sub-selects", "why_tests_cant": "whether a renamed occurrence is captured or split off depends on all scopes of the document at once", "anchors": ["src/server/message_handler/rename/mod.rs", "src/server/message_handler/common/mod.rs: find_variable_occurrences", "crates/sparql-parser/src/ast/mod.rs: visible_variables"]}
{"id": "C44", "title": "The renamed document is read as the same query", "statement": "A document after a rename is tokenized and parsed to the same syntax tree in which the renamed occurrences, and nothing else, have the new text.", "quantifier": "every document without lexical errors, every position on a variable, every name of the grammar", "why_tests_cant": "a longer or shorter name can in principle merge with its neighbours or change what the parser does, anywhere in any document", "anchors": ["src/server/message_handler/rename/mod.rs", "crates/sparql-parser/src/parser/mod.rs: parse, lex", "crates/sparql-parser/src/syntax_kind.rs: VAR1, VAR2"]}
{"id": "C45", "title": "Diagnostics are always computed and mark parts of the text", "statement": "A diagnostic request on a query is answered with a list of diagnostics, without panic, each of whose ranges starts and ends on character boundaries of the document in order; on an update it is refused. What is in the list does not depend on the iteration order of hash maps.", "quantifier": "every text, grammatical or not, every prefix map and iteration order", "why_tests_cant": "half-written documents are the normal input and all of them have to be survived", "anchors": ["src/server/message_handler/diagnostic/mod.rs: handle_diagnostic_request"]}
{"id": "C46", "title": "Undeclared prefixes are reported exactly", "statement": "The undeclared-prefix diagnostics are one for each prefixed name whose prefix no PREFIX declares, in document order, each marking the name and carrying the prefix.", "quantifier": "every query", "why_tests_cant": "names and declarations may stand anywhere in any document", "anchors": ["src/server/message_handler/diagnostic/undeclared_prefix.rs", "crates/sparql-parser/src/ast/mod.rs: PrefixedName::prefix, Prologue::prefix_declarations"]}
{"id": "C47", "title": "Unused prefixes are reported exactly", "statement": "The unused-prefix diagnostics are one for each declaration whose prefix no prefixed name of the query has, in document order, each marking the declaration.", "quantifier": "every query", "why_tests_cant": "absence of a use is a claim about the whole document", "anchors": ["src/server/message_handler/diagnostic/unused_prefix_declaration.rs", "crates/sparql-parser/src/ast/mod.rs"]}
{"id": "C48", "title": "Duplicate prefixes are reported exactly", "statement": "The duplicate-prefix diagnostics are one for each declaration of a prefix that an earlier declaration already has.", "quantifier": "every query, any number of declarations", "why_tests_cant": "any number and order of declarations", "anchors": ["src/server/message_handler/diagnostic/duplicate_prefix_declaration.rs", "crates/sparql-parser/src/ast/mod.rs: PrefixDeclaration::prefix"]}
{"id": "C49", "title": "Ungrouped variables are reported exactly", "statement": "In a query with GROUP BY the ungrouped-variable diagnostics mark each variable that is selected, or used outside an aggregate in a selected expression, and neither grouped by nor defined by an earlier expression.", "quantifier": "every query, any nesting of expressions", "why_tests_cant": "expressions nest without bound", "anchors": ["src/server/message_handler/diagnostic/ungrouped_select_variable.rs", "crates/sparql-parser/src/ast/mod.rs: Expression::unaggregated_variables, GroupClause::visible_variables"]}
{"id": "C50", "title": "Projections onto variables in scope are reported exactly", "statement": "The invalid-projection diagnostics mark each variable v of a selected (expression AS v) that is already in scope in the WHERE clause.", "quantifier": "every query, any nesting of patterns and sub-selects", "why_tests_cant": "scope is defined by recursion over all patterns", "anchors": ["src/server/message_handler/diagnostic/invalid_projection_variable.rs", "crates/sparql-parser/src/ast/mod.rs: visible_variables, SelectClause::assignments"]}
{"id": "C51", "title": "Star selections with GROUP BY are reported exactly", "statement": "The diagnostics mark the star of every SELECT * (also in sub-selects) that has a GROUP BY.", "quantifier": "every query, any nesting of sub-selects", "why_tests_cant": "sub-selects nest without bound", "anchors": ["src/server/message_handler/diagnostic/groupby_star_selection.rs", "crates/sparql-parser/src/ast/mod.rs: SelectClause::is_star_selection, SelectQuery::group_clause"]}
{"id": "C52", "title": "Triples with the same subject are reported exactly", "statement": "The same-subject diagnostics are one for each triple of a group pattern that shares the subject, as it is written, with another triple directly in the same group pattern, and each carries the byte ranges of all of them in order.", "quantifier": "every query, any nesting of group patterns, every iteration order of the hash map", "why_tests_cant": "groups of any size in patterns of any depth", "anchors": ["src/server/message_handler/diagnostic/same_subject.rs", "crates/sparql-parser/src/ast/mod.rs: GroupGraphPattern::triple_blocks, TriplesBlock::triples"]}
{"id": "C53", "title": "The syntax error diagnostic is the first error of the parser", "statement": "If the parser reports errors, exactly one syntax-error diagnostic marks the first of them on character boundaries, otherwise there is none.", "quantifier": "every text", "why_tests_cant": "error positions in all texts, also between multi-byte characters", "anchors": ["src/server/message_handler/diagnostic/syntax_error.rs"]}
{"id": "C54", "title": "IRIs that can be shortened are reported exactly", "statement": "The uncompacted-IRI diagnostics are one for each <iri> for which the backend's prefix map has a short form, carrying prefix, namespace and short form.", "quantifier": "every query and every prefix map", "why_tests_cant": "all prefix maps and documents", "anchors": ["src/server/message_handler/diagnostic/uncompacted_uri.rs", "crates/sparql-parser/src/ast/mod.rs: Iri::raw_iri"]}
{"id": "C55", "title": "Typing a line break re-indents the line and changes nothing else", "statement": "The answer to on-type formatting after a line break is at most one edit: it replaces the blanks (spaces, tabs) right behind the cursor by blanks; it is offered exactly if the line break is whitespace between tokens or inside the brackets [ ] or ( ) and never inside strings, comments or other tokens. The document after the edit has the same tokens (but for whitespace) and the same syntax tree, and the request never crashes the server, wherever the cursor is and whatever was typed.", "quantifier": "every document without lexical errors, every position, every setting and client option, every display width of characters", "why_tests_cant": "all documents, positions and settings; an edit inside a string would change the query silently", "anchors": ["src/server/message_handler/on_type_formatting/mod.rs: handle_on_type_format_request, handle_newline_trigger", "src/server/message_handler/on_type_formatting/indent.rs"]}
{"id": "C56", "title": "Typing ; or . inserts a line break and changes nothing else", "statement": "With auto line break switched on, the answer to on-type formatting after ; or . is at most one edit: it replaces the blanks right behind the cursor by a line break and blanks, only if the character is a token of its own (not part of a string, number, name or comment). The document after the edit has the same tokens (but for whitespace) and the same syntax tree. With auto line break switched off there is no edit.", "quantifier": "every document without lexical errors, every position, every setting and client option", "why_tests_cant": "all documents, positions and settings", "anchors": ["src/server/message_handler/on_type_formatting/mod.rs: handle_terminator_trigger, find_triple_for_terminator"]}
{"id": "C57", "title": "Folding ranges are exactly the groups that have a line to fold", "statement": "The answer to textDocument/foldingRange has, in document order, one range for each group pattern whose braces have at least one line between them, from the line of { to the line before that of }, and one for the prologue that opens the document, from its first to its last line. Two ranges of groups are nested or share no line. The request never crashes the server.", "quantifier": "every document, including documents with syntax errors", "why_tests_cant": "all documents", "anchors": ["src/server/message_handler/folding_range/mod.rs"]}
{"id": "C58", "title": "Whitespace and comments do not matter to the parser", "statement": "Two documents whose tokens are the same once whitespace and comments are dropped have the same syntax tree once whitespace and comments are dropped, the same number of syntax errors with the same expectations at the same tokens, and if the parser panics on one of them then on the other.", "quantifier": "every pair of documents", "why_tests_cant": "all pairs of documents; every place where whitespace or a comment can stand", "anchors": ["crates/sparql-parser/src/parser/mod.rs: parse_text, lex, build_tree, guess_operation_type"]}
{"id": "C59", "title": "The parse tree shown to the user is the parse tree of the document", "statement": "The answer to qlueLs/parseTree has an element for every node and token of the syntax tree, in order, each with the range it occupies in the document (lines, UTF-16 units) and each token with its text. The tokens of the answer, read from left to right, are those of the document; with skipTrivia the answer is the same without whitespace and comments. The request never crashes the server.", "quantifier": "every document, with and without skipTrivia, including documents with syntax errors, all line ends and multi-byte characters", "why_tests_cant": "all documents; positions are counted incrementally and a single miscounted character shifts everything behind it", "anchors": ["src/server/message_handler/parse_tree.rs"]}
{"id": "C60", "title": "Jumping formats the document and puts the cursor on the nearest place of interest", "statement": "The answer to qlueLs/jump is the formatted document with a few blanks inserted between two tokens, and a position between those blanks: the nearest place of interest (behind the SELECT clause or, going back, before the WHERE clause; the end of every group pattern; the end of the query) behind (before) the place at which the cursor is in the formatted document, or the first (last) one if there is none. Nothing but white space and the case of keywords changes. A request for a position in the document is answered.", "quantifier": "every document, every position, both directions, every setting and client option", "why_tests_cant": "all documents and positions; the position is carried through the edits of the formatter", "anchors": ["src/server/message_handler/jump/mod.rs"]}
{"id": "C61", "title": "The quick fix for an undeclared prefix declares it and changes nothing else", "statement": "For every diagnostic about an undeclared prefix p, the quick fix has no edit if the prefix map has no namespace for p; otherwise, if the namespace is made of characters of an IRI, its one edit puts 'PREFIX p: <namespace>' and a line break at the start of the document, the syntax tree of the edited document is that of the document with this declaration in front of its prologue (created if there is none), the syntax errors are the same at the same tokens, the undeclared prefixes reported are the same but for p, and the unused prefixes reported are the same.", "quantifier": "every query, every diagnostic about an undeclared prefix, every prefix map whose namespaces are IRIs", "why_tests_cant": "the fix has to be right in front of every document, including incomplete ones", "anchors": ["src/server/message_handler/code_action/quickfix.rs: declare_prefix", "src/server/message_handler/diagnostic/undeclared_prefix.rs"]}
{"id": "C62", "title": "The quick fix for an unused or repeated declaration takes out that declaration and changes nothing else", "statement": "For every diagnostic about an unused or a repeated prefix, about a complete declaration that stands behind complete declarations, the quick fix has one edit; the tokens of the edited document are those of the document without the declaration's three, its syntax tree is that of the document without the declaration in the prologue, the syntax errors are the same at the same tokens, the undeclared prefixes reported are the same, and an unused prefix is reported if it was before and is still declared.", "quantifier": "every query, every such diagnostic, every whitespace and every comment around the declaration", "why_tests_cant": "the range of the edit depends on whatever stands behind the declaration, and taking out text can join or change the tokens around it", "anchors": ["src/server/message_handler/code_action/quickfix.rs: remove_prefix_declaration", "src/server/message_handler/diagnostic/unused_prefix_declaration.rs"]}
{"id": "C63", "title": "The quick fix that shortens an IRI keeps the query and what it asks for", "statement": "For every query document without syntax errors and every IRI in it reported as one that could be shortened, the quick fix replaces exactly that IRI by the abbreviation and declares the prefix in front of the document exactly if the document does not declare it; the document with the edits has no syntax errors, is the old query with a prefixed name in the place of the IRI, declares the same namespaces in the same order (the new one first), and the name stands for the IRI it replaced.", "quantifier": "all grammatical query texts, all prefix maps, all reported IRIs whose abbreviation is a prefixed name and stands apart from its neighbours", "why_tests_cant": "the new name can run into any token before or behind it, and the tree of the new text depends on the whole grammar; tests try a few IRIs between spaces", "anchors": ["src/server/message_handler/code_action/quickfix.rs: shorten_uri", "src/server/analysis.rs: namespace_is_declared, find_all_prefix_declarations", "src/server/message_handler/diagnostic/uncompacted_uri.rs"]}
{"id": "C64", "title": "The automatic prefix fixes declare what is missing, remove what is unused and change nothing else", "statement": "After the diagnostics of a query have been computed, the edits sent for automatic prefix fixes do not overlap and, made at once, declare every prefix that is used but not declared and known to the prefix map exactly once, and take out the first declaration of every unused prefix, as far as the settings allow; the rest of the query keeps its tree and its errors. Afterwards the diagnostics report the same undeclared prefixes except the known ones, and the same unused prefixes except those that were declared once.", "quantifier": "all query documents that start with complete declarations (with syntax errors behind them or not), all settings, all prefix maps, any number of missing and unused prefixes", "why_tests_cant": "several edits of one text interact: insertions at the same place, removals next to each other, and tokens that meet after a removal; tests fix one document with one prefix", "anchors": ["src/server/message_handler/diagnostic/auto_fix_prefixes.rs: auto_fix_prefixes", "src/server/message_handler/code_action/quickfix.rs: declare_prefix, remove_prefix_declaration"]}
{"id": "C65", "title": "Turning a query into a sub-query keeps the query", "statement": "For every query document without syntax errors and every query or sub-query in it that is asked for (by the keyword SELECT or as a whole), the action's edits give a document without syntax errors in which the query's place is taken by a query that selects the same columns (all, or its variables in order, those of expressions included) from exactly one pattern, which is the old query as it was, with the indentation asked for; the rest of the document is untouched. For every document and range the action answers; only a range whose end is before its start crashes it.", "quantifier": "all grammatical query texts, all queries and sub-queries without a dataset clause whose line feeds are in white space, all cursors and selections, all tab sizes", "why_tests_cant": "the edits cut the query at every line feed and the tree of the new text depends on the whole grammar; tests try one query per shape", "anchors": ["src/server/message_handler/code_action/select.rs: code_actions", "src/server/message_handler/code_action/mod.rs: generate_code_actions", "src/sparql/text.rs: Position::from_byte_index"]}
{"id": "C66", "title": "Adding a variable to the result adds that column and nothing else", "statement": "At a variable of a query the action to add it to the result is offered exactly if the variable is not a column yet and, if the query is grouped, is one of the grouped variables. For a query document without syntax errors its edit gives a document without syntax errors whose tree is the old one with the variable as one more column of this query: in the place of the star, else before the first computed column, else as the last column. A variable in the select clause of a sub-query is added to the query around it, any other to the innermost query. For every document and range the action answers; only a range whose end is before its start crashes it.", "quantifier": "all query texts (for the result: grammatical ones whose star or first parenthesis has white space before it), all variables in them, queries and sub-queries, all cursors and selections", "why_tests_cant": "the edit is at a place computed from the tree, and the tree of the new text depends on the whole grammar and on what the lexer makes of the inserted text; tests try one query per shape", "anchors": ["src/server/message_handler/code_action/variable/add_to_result.rs: code_action", "src/server/message_handler/code_action/mod.rs: generate_code_actions", "src/server/message_handler/code_action/variable/mod.rs: code_actions"]}
{"id": "C67", "title": "Each aggregate action adds that aggregate as a column", "statement": "At a variable of a grouped query, in a document without syntax errors, seven actions are offered, each with one edit; the document behind it has no syntax errors and its tree is the old one with one more column at the end of the select clause (or in the place of the star): the aggregate the title names (count, sum, min, max, average, sample, distinct group concatenation) over exactly this variable, assigned to a variable that is named after both.", "quantifier": "all grammatical query texts, all variables written with a question mark in them, all grouped queries and sub-queries, all variable names", "why_tests_cant": "the inserted text contains the name of the variable, any string the lexer takes for one, and the tree of the new text depends on the whole grammar; tests try one name", "anchors": ["src/server/message_handler/code_action/variable/add_aggregate_to_result.rs: code_actions", "src/server/message_handler/code_action/mod.rs: generate_code_actions"]}
{"id": "C68", "title": "Adding a filter adds exactly that filter to the group of the triple", "statement": "At a variable the actions to add a filter and a language filter are offered exactly if the variable is in a triple of a graph pattern. For a query document without syntax errors the edit gives a document without syntax errors whose tree is the old one with one more FILTER in the group the triple is in, right behind the triple and its dot: the condition is the variable, or that its language is en. All other triples and patterns stay in this group in their order. For every document and range the actions answer; only a range whose end is before its start crashes them.", "quantifier": "all grammatical query texts, all variables in triples (however deep the groups are nested and however many triples a block has), all cursors and selections", "why_tests_cant": "a block of triples is nested once per triple and is cut in two at any depth; whether the result is a query depends on the whole grammar; tests try one triple", "anchors": ["src/server/message_handler/code_action/variable/filter_var.rs: code_action", "src/server/message_handler/code_action/variable/filter_var_lang.rs: code_action", "crates/sparql-parser/src/ast/mod.rs: Var::triple"]}
{"id": "C69", "title": "Adding a label adds one triple and one filter behind the triple", "statement": "At a variable in a triple whose last property has objects, the action to add a label inserts, right behind these objects and instead of the dot that follows the triple, a dot, the triple that gives the variable a label and the filter on the label's language, in a line that is indented like the triple's, and leaves every other character of the document alone. The prefix rdfs is declared in front of the document exactly if no declaration of it is there. If the document was free of syntax errors it stays so. The action never fails.", "quantifier": "all query texts, all variables in their triples, all prologues", "why_tests_cant": "the places of the insertion and of the end of the replaced text are computed from neighbours in the tree, with any blanks, comments and characters of any width between and before them; tests try one query", "anchors": ["src/server/message_handler/code_action/variable/add_label.rs: code_action", "crates/sparql-parser/src/ast/mod.rs: PropertyListPath::properties", "src/server/analysis.rs: namespace_is_declared"]}
{"id": "C70", "title": "Contracting triples with the same subject never fails and keeps the query", "statement": "A request for code actions at any place of any query is answered. The action to contract triples is offered if a group graph pattern has at least two triples whose subjects are written alike; it appends the predicates and objects of the later ones to the first of each such group and removes the later ones with the dot behind them, and the result stands for the same triples and has no syntax errors if the document had none.", "quantifier": "all query texts with any number of such groups in any nesting, any order in which the groups are found, both settings of predicate alignment, all tab sizes", "why_tests_cant": "it edits several places of the document at once, which depend on the neighbours of every triple in the tree; tests try groups of plain triples that are separated by a dot", "anchors": ["src/server/message_handler/code_action/same_subject.rs: contract_all_triple_groups, contract_triples", "src/server/message_handler/code_action/mod.rs: generate_code_actions", "src/server/message_handler/indent.rs: predicate_alignment_column"]}
