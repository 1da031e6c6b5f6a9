{
 "claims": [
  {
   "property": "C01",
   "status": "proved",
   "theorems": [
    "C01_incremental_sync"
   ],
   "note": "all texts, all change lists whose positions exist; termination/no panic included"
  },
  {
   "property": "C02",
   "status": "partial",
   "theorems": [
    "C02_missing_end_panics",
    "C02_missing_start_refuted"
   ],
   "note": "the claim is false: with a missing start position everything before the end is deleted (proved for all texts); with a missing end the server panics"
  },
  {
   "property": "C03",
   "status": "partial",
   "theorems": [
    "C03_boundary_to_position_and_back",
    "C03_offset_to_position",
    "C03_offset_rejected",
    "C03_position_to_offset_and_back",
    "C03_position_to_offset",
    "C03_with_cr_refuted",
    "C03_offset_off_boundary_refuted",
    "C03_surrogate_refuted"
   ],
   "note": "true for texts in which every '\\r' is part of a \"\\r\\n\" (places not inside one) and positions not inside a surrogate pair; refuted for lone '\\r' and for positions inside a surrogate pair"
  },
  {
   "property": "C04",
   "status": "proved",
   "theorems": [
    "C04_positions_monotone"
   ],
   "note": ""
  },
  {
   "property": "C05",
   "status": "proved",
   "theorems": [
    "C05_simultaneous_edits"
   ],
   "note": "edits in any listed order; same-place insertions are C06"
  },
  {
   "property": "C06",
   "status": "partial",
   "theorems": [
    "C06_insert_order_refuted"
   ],
   "note": "the claim is false for every text: order is reversed"
  },
  {
   "property": "C09",
   "status": "proved",
   "theorems": [
    "C09_roundtrip",
    "C09_truncated",
    "C09_prefix_delivered",
    "C09_written_frames",
    "C09_length_is_decimal",
    "C09_terminates",
    "C09_utf8_exact",
    "C09_header_name_ignored",
    "C09_second_header_refuted",
    "C09_invalid_utf8_refuted"
   ],
   "note": "all message sequences; also proved: a second header line crashes the server, a non-UTF-8 body silently ends the session"
  },
  {
   "property": "C12",
   "status": "proved",
   "theorems": [
    "C12_lossless",
    "C12_lossless_text"
   ],
   "note": "for every token list the lexer can produce; together with C14 (a tree is returned unless the parser gets stuck)"
  },
  {
   "property": "C13",
   "status": "proved",
   "theorems": [
    "C13_termination",
    "C13_linear_depth"
   ],
   "note": ""
  },
  {
   "property": "C14",
   "status": "partial",
   "theorems": [
    "C14_only_stuck",
    "C14_never_panics_refuted",
    "C17_completeness"
   ],
   "note": "false for deeply nested unclosed input (200 open braces); the only possible panic is 'parser is stuck', and grammatical input never panics"
  },
  {
   "property": "C15",
   "status": "proved",
   "theorems": [
    "C15_no_empty_nodes"
   ],
   "note": "stronger: every node but the root covers a significant token"
  },
  {
   "property": "C16",
   "status": "partial",
   "theorems": [
    "C16_accepted_is_prefix_partial",
    "C16_soundness_refuted",
    "C16_trailing_tokens_unreported"
   ],
   "note": "false as stated: incomplete input such as DESCRIBE alone is accepted; true up to completion: accepted input is always a prefix of a sentence"
  },
  {
   "property": "C17",
   "status": "proved",
   "theorems": [
    "C17_completeness"
   ],
   "note": ""
  },
  {
   "property": "C18",
   "status": "proved",
   "theorems": [
    "C18_error_ranges",
    "C18_error_ranges_text",
    "C18_errors_in_order"
   ],
   "note": ""
  },
  {
   "property": "C19",
   "status": "proved",
   "theorems": [
    "C19_operation_type",
    "C19_trivia_irrelevant",
    "C19_query_recognised",
    "C19_update_recognised"
   ],
   "note": ""
  },
  {
   "property": "C27",
   "status": "proved",
   "theorems": [
    "C27_tree_is_derivation",
    "C27_unambiguous"
   ],
   "note": ""
  },
  {
   "property": "C26",
   "status": "proved",
   "theorems": [
    "C26_overlap_exact",
    "C26_overlap_symmetric",
    "C26_overlap_bounds"
   ],
   "note": ""
  },
  {
   "property": "C07",
   "status": "partial",
   "theorems": [
    "C07_cache_invisible",
    "C07_answer_uses_current_text",
    "C07_growing_versions",
    "C07_reopened_refuted",
    "C07_reopened_lower_refuted"
   ],
   "note": "true for every history in which no two texts of a document carry the same version (in particular when versions grow); false when a document is reopened with an old version number: the stale tree is served"
  },
  {
   "property": "C08",
   "status": "partial",
   "theorems": [
    "C08_documents_replayed",
    "C08_other_documents_untouched",
    "C08_unknown_change_ignored",
    "C08_unknown_change_unreported_refuted"
   ],
   "note": "independence proved for all histories; the error for an unknown document is never reported to the client"
  },
  {
   "property": "C10",
   "status": "partial",
   "theorems": [
    "C10_initialize_after_initialized",
    "C10_initialize_before_initialized",
    "C10_shutdown",
    "C10_other_messages_not_gated",
    "C10_exit_code_refuted",
    "C10_initialize_twice_refuted",
    "C10_shutdown_twice_refuted"
   ],
   "note": "exact characterisation of when initialize and shutdown succeed, for all histories; 'exactly once' is false (initialized re-enables shutdown), exit always has code 0"
  },
  {
   "property": "C11",
   "status": "partial",
   "theorems": [
    "C11_request_answered",
    "C11_request_not_fatal",
    "C11_unknown_method",
    "C11_notification_silent",
    "C11_session",
    "C11_ignored_methods",
    "C11_request_unanswered_refuted",
    "C11_get_backend_without_params_refuted",
    "C11_response_answered_refuted"
   ],
   "note": "exactly one response for every request whose method is not one of the server's notifications, over all histories; false for notification methods sent with an id, and client error responses are answered"
  },
  {
   "property": "C28",
   "status": "partial",
   "theorems": [
    "C28_only_these_crash",
    "C28_garbage_harmless",
    "C28_hover_without_params_refuted",
    "C28_cancel_without_id_refuted",
    "C28_negative_id_refuted"
   ],
   "note": "false: the exact two kinds of fatal message are proved, for all states"
  },
  {
   "property": "C29",
   "status": "proved",
   "theorems": [
    "C29_request_ids_consecutive",
    "C29_request_ids_distinct"
   ],
   "note": "ids are 0,1,2,... modulo 2^32"
  },
  {
   "property": "C30",
   "status": "partial",
   "theorems": [
    "C30_default_registered",
    "C30_update_default",
    "C30_add_backend",
    "C30_list_default_refuted",
    "C30_add_backend_atomic_refuted"
   ],
   "note": "registration and default proved; listBackends' default flag and atomicity of a failing addBackend are false"
  },
  {
   "property": "C31",
   "status": "partial",
   "theorems": [
    "C31_error_responses_refuted",
    "C31_success_responses"
   ],
   "note": "false for every error response: code is a string and result is present"
  },
  {
   "property": "C32",
   "status": "proved",
   "theorems": [
    "C32_patch_overrides",
    "C32_others_kept",
    "C32_empty_patch",
    "C32_refused_or_applied",
    "C32_failure_changes_nothing"
   ],
   "note": "all settings and patches, by path"
  },
  {
   "property": "C22",
   "status": "partial",
   "theorems": [
    "C22_document_delivered",
    "C22_chunking_irrelevant",
    "C22_count_delivered",
    "C22_header_first",
    "C22_server_first_page",
    "C22_second_page_panics_refuted"
   ],
   "note": "all documents, batch sizes and chunkings whenever the reader's entry assertion batch <= limit - offset holds; false otherwise: the server's own call panics on every later page of up to 1000 rows. The JSON deserialiser is a universally quantified function"
  },
  {
   "property": "C23",
   "status": "proved",
   "theorems": [
    "C23_strings_opaque",
    "C23_object_is_one_binding",
    "C23_strings_between_refuted",
    "C23_strings_in_meta_refuted"
   ],
   "note": "proved for strings in binding objects; also shown: strings between head and bindings and in the meta object are not recognised"
  },
  {
   "property": "C24",
   "status": "proved",
   "theorems": [
    "C24_parse_exact",
    "C24_no_errors_iff_grammatical",
    "C24_incomplete_refused",
    "C24_bad_token_refused"
   ],
   "note": "at the level of tokens, for all token sequences; the logos tokenizer is not modelled"
  },
  {
   "property": "C20",
   "status": "proved",
   "theorems": [
    "C20_decodes",
    "C20_highlights",
    "C20_highlighted_kinds"
   ],
   "note": "every token sequence and requested range"
  },
  {
   "property": "C21",
   "status": "partial",
   "theorems": [
    "C21_ascii_documents",
    "C21_non_ascii_refuted",
    "C21_multiline_refuted",
    "C21_line_breaks"
   ],
   "note": "true exactly for ASCII; false as stated: columns and lengths are UTF-8 bytes, and after any multi-line token every later token is on a wrong line (both proved for all documents)"
  },
  {
   "property": "C25",
   "status": "proved",
   "theorems": [
    "C25_tiles",
    "C25_parser_input"
   ],
   "note": "for the 182 token definitions as translated by tools/lexer2coq.py and logos' documented longest-match behaviour; error tokens of any length"
  },
  {
   "property": "C33",
   "status": "proved",
   "theorems": [
    "C33_longest",
    "C33_one_definition",
    "C33_errors_match_nothing"
   ],
   "note": "disjointness of all pairs of definitions by a certified product of derivatives"
  },
  {
   "property": "C34",
   "status": "partial",
   "theorems": [
    "C34_exact_terminals",
    "C34_generous_terminals",
    "C34_single_quoted_sound",
    "C34_string_literals_refuted",
    "C34_generous_refuted"
   ],
   "note": "exact for IRIs, PNAME_NS, blank node labels, variables, language tags and comments; at least the grammar for numbers, PNAME_LN, NIL, ANON and whitespace; false for string literals (escapes) and for digits of other scripts"
  },
  {
   "property": "C35",
   "status": "partial",
   "theorems": [
    "C35_keywords_any_case",
    "C35_boolean_case_refuted",
    "C35_punctuation"
   ],
   "note": "every keyword but TRUE and FALSE, which are read in lower case only"
  },
  {
   "property": "C36",
   "status": "proved",
   "theorems": [
    "C36_whitespace_separates",
    "C36_insert_data_refuted"
   ],
   "note": "also shown: INSERT followed by two spaces and DATA is not INSERT DATA, unlike DELETE DATA"
  },
  {
   "property": "C37",
   "status": "proved",
   "theorems": [
    "C37_total",
    "C37_no_panic",
    "C37_edits_disjoint",
    "C37_applies",
    "C37_deterministic"
   ],
   "note": "documents without comments and without a long s (U+017F) in INSERT DATA; contractTriples off; the parser getting stuck (C14) is the only way not to answer"
  },
  {
   "property": "C38",
   "status": "partial",
   "theorems": [
    "C38_layout_only",
    "C38_same_characters",
    "C38_tokens_refuted",
    "C38_long_s_refuted"
   ],
   "note": "tokens and characters kept for all documents without comments (and no long s in INSERT DATA, where a letter is lost); 'reading the result gives the same tokens' is false: two tokens can be glued together"
  },
  {
   "property": "C39",
   "status": "partial",
   "theorems": [
    "C39_kept_partial",
    "C39_result_partial",
    "C39_comments_refuted"
   ],
   "note": "Proved: whenever formatting a document with comments succeeds, the result holds all tokens in their order, respelled only, and every comment outside syntax errors, each at the end of a line (C39_result_partial; C39_kept_partial also covers comments in front of everything the formatter changes, which come as two extra insertions). That formatting always succeeds is false: a comment in a place whose separator is unknown to the formatter panics (C39_comments_refuted). Missing: comments inside syntax errors, that no comment occurs twice, and that the order of the comments is kept."
  },
  {
   "property": "C40",
   "status": "partial",
   "theorems": [
    "C40_idempotent_refuted"
   ],
   "note": "false: counterexample"
  },
  {
   "property": "C41",
   "status": "partial",
   "theorems": [
    "C41_equivalence",
    "C41_occurrences",
    "C41_references",
    "C41_any_occurrence",
    "C41_elsewhere",
    "C41_dollar_refuted",
    "C41_exported_refuted",
    "C41_not_exported_refuted"
   ],
   "note": "proved: for every document the answer is exactly the class of the variable under the documented scoping (innermost sub-select, linked to the surrounding scope if it exports the name), each once, in order, from every occurrence. Against SPARQL's own notion: ?x and $x are not linked, and which variables SELECT * exports differs for GRAPH, SERVICE, VALUES, FILTER and MINUS"
  },
  {
   "property": "C42",
   "status": "proved",
   "theorems": [
    "C42_rename",
    "C42_effect",
    "C42_names",
    "C42_answers",
    "C42_error_renamed_refuted"
   ],
   "note": "every document, position and name; also shown: a bare word where a variable is missing is renamed too"
  },
  {
   "property": "C43",
   "status": "partial",
   "theorems": [
    "C43_same_variables",
    "C43_rename_partial",
    "C43_undo_partial",
    "C43_capture_refuted",
    "C43_filter_select_refuted"
   ],
   "note": "for every document without lexical errors, all of whose occurrences of the variable are variable tokens, every fresh name, unless a sub-select stands inside a FILTER; without freshness (the server does not check it) and with a sub-select inside a FILTER it is false"
  },
  {
   "property": "C44",
   "status": "proved",
   "theorems": [
    "C44_renamed_document"
   ],
   "note": "every document without lexical errors whose occurrences of the variable are variable tokens, every position and grammatical name; the only sub-case left out, a bare word renamed as a variable, is C42_error_renamed_refuted"
  },
  {
   "property": "C45",
   "status": "proved",
   "theorems": [
    "C45_answered",
    "C45_order_irrelevant"
   ],
   "note": "every document the parser gives a tree for (C14); an update is refused; auto_fix_prefixes (a setting, off by default) is not modelled"
  },
  {
   "property": "C46",
   "status": "partial",
   "theorems": [
    "C46_undeclared_prefixes_partial",
    "C46_other_queries_refuted"
   ],
   "note": "exact inside the body of a SELECT query; missing: ASK, CONSTRUCT and DESCRIBE queries and a VALUES clause behind the query, where nothing is reported"
  },
  {
   "property": "C47",
   "status": "proved",
   "theorems": [
    "C47_unused_prefixes"
   ],
   "note": "exact for every query"
  },
  {
   "property": "C48",
   "status": "partial",
   "theorems": [
    "C48_duplicate_prefixes_partial",
    "C48_incomplete",
    "C48_incomplete_refuted"
   ],
   "note": "exact if every declaration has a prefix; otherwise no duplicate is reported at all (proved)"
  },
  {
   "property": "C49",
   "status": "partial",
   "theorems": [
    "C49_ungrouped_variables_partial",
    "C49_missed_refuted",
    "C49_dollar_refuted"
   ],
   "note": "exact characterisation for the outermost query; missing: sub-selects, self-definitions and aggregates without GROUP BY; ?x and $x are told apart"
  },
  {
   "property": "C50",
   "status": "partial",
   "theorems": [
    "C50_projections_partial",
    "C50_projections_standard_partial",
    "C50_not_in_scope_refuted",
    "C50_missed_refuted"
   ],
   "note": "exact with the server's notion of scope, which agrees with the standard's without FILTER, MINUS and variable GRAPH or SERVICE; false in general, in both directions"
  },
  {
   "property": "C51",
   "status": "partial",
   "theorems": [
    "C51_grouped_stars_partial",
    "C51_values_refuted",
    "C51_product_refuted"
   ],
   "note": "exact characterisation; a sub-select with VALUES is missed, an unfinished product is taken for a star"
  },
  {
   "property": "C52",
   "status": "proved",
   "theorems": [
    "C52_same_subject",
    "C52_blank_nodes_refuted"
   ],
   "note": "exact by the way the subjects are written, for every iteration order of the hash map; also shown: blank nodes [] are reported although they differ"
  },
  {
   "property": "C53",
   "status": "proved",
   "theorems": [
    "C53_syntax_error",
    "C53_rest_refuted"
   ],
   "note": "the parser's first error (see C16 for what it accepts); also shown: what follows the query is skipped without error"
  },
  {
   "property": "C54",
   "status": "partial",
   "theorems": [
    "C54_uncompacted_iris_partial",
    "C54_other_queries_refuted"
   ],
   "note": "exact inside the body of a SELECT query, for every prefix map; missing: the other query forms"
  },
  {
   "property": "C55",
   "status": "proved",
   "theorems": [
    "C55_newline",
    "C55_where",
    "C55_no_crash",
    "C55_same_tree"
   ],
   "note": "for documents whose lone CRs are only in CRLF; that the tokens stay needs that there is no lexical error"
  },
  {
   "property": "C56",
   "status": "proved",
   "theorems": [
    "C56_terminator",
    "C56_same_tree",
    "C55_no_crash"
   ],
   "note": "for documents whose lone CRs are only in CRLF; that the tokens stay needs that there is no lexical error"
  },
  {
   "property": "C57",
   "status": "proved",
   "theorems": [
    "C57_folds",
    "C57_nested"
   ],
   "note": ""
  },
  {
   "property": "C58",
   "status": "proved",
   "theorems": [
    "C58_same_tree",
    "C58_same_errors",
    "C58_same_panics"
   ],
   "note": ""
  },
  {
   "property": "C59",
   "status": "proved",
   "theorems": [
    "C59_shows",
    "C59_tokens",
    "C59_skip"
   ],
   "note": ""
  },
  {
   "property": "C60",
   "status": "partial",
   "theorems": [
    "C60_jump_partial",
    "C60_same_characters",
    "C60_answered",
    "C60_place"
   ],
   "note": "Missing: documents with comments (the formatter may crash on them, C39), documents with CR, contraction of same-subject triples, and that the blanks inserted between two tokens of the formatted document leave the other tokens as they are. The second run of the parser is assumed to return (C15: it may run out of steps on huge documents)."
  },
  {
   "property": "C61",
   "status": "proved",
   "theorems": [
    "C61_declare_prefix",
    "C61_namespace_not_checked_refuted"
   ],
   "note": "The namespace of the prefix map is not checked: C61_namespace_not_checked_refuted shows the quick fix breaking a query if it is no IRI."
  },
  {
   "property": "C62",
   "status": "partial",
   "theorems": [
    "C62_remove_declaration_partial",
    "C62_comment_lost_refuted",
    "C62_other_namespace_refuted",
    "C62_inverted_range_refuted"
   ],
   "note": "Proved for a complete declaration behind complete declarations, with a blank before it (or at the start of the document). Missing: declarations with syntax errors or glued to the one before; the diagnostics about repeated prefixes that are left; that the edited document is parsed at all if the first declaration is taken out. The refutations: a comment behind the declaration is lost; the later declaration of a prefix, which is the one that counts, is the one taken out; a diagnostic of the client with an inverted range crashes the server."
  },
  {
   "property": "C63",
   "status": "partial",
   "theorems": [
    "C63_shorten_iri_partial",
    "C63_other_namespace_refuted",
    "C63_not_a_name_refuted",
    "C63_refused"
   ],
   "note": "Proved: the edits for every document; for a grammatical query in which the IRI has white space before it and white space or a delimiter behind it, and whose abbreviation is a prefixed name, the document behind the edits has no syntax errors, its tree is the old one with the name in the place of the IRI (and one declaration in front if the prefix was not declared), and the name stands for the same IRI. Missing: documents with syntax errors; IRIs glued to the token before them (refuted: can break the query), prefixes declared for another namespace (refuted: the name stands for another IRI), rests that are no local names (refuted)."
  },
  {
   "property": "C64",
   "status": "partial",
   "theorems": [
    "C64_auto_fix_partial",
    "C64_declared_twice_refuted"
   ],
   "note": "Proved: for every query document whose text starts with complete declarations, every setting and every prefix map with IRIs as namespaces: the run does not crash, its edits do not overlap, it declares each missing prefix that is known exactly once and removes the first declaration of each unused prefix, the tree of the result is the old one with exactly these declarations exchanged, the errors are the same ones further down, and the diagnostics afterwards are those before without the missing prefixes that are known and the unused prefixes that were declared once. Missing: unused declarations that are incomplete, glued to what precedes them or follow other text; documents that end with the prologue; sending the request (a capability check and a request number)."
  },
  {
   "property": "C65",
   "status": "partial",
   "theorems": [
    "C65_sub_select_partial",
    "C65_answers",
    "C65_dataset_refuted",
    "C65_string_refuted"
   ],
   "note": "Proved: for every grammatical query document, every query or sub-query in it without a dataset clause, every tab size and every range whose smallest element is the query or its keyword, the edits exist and give a document without syntax errors whose tree is the old one with the query wrapped; for every document the action answers (or crashes, exactly if the range is reversed). Missing: a query glued to the token before it, line feeds in strings (refuted: the string changes), queries with FROM (refuted: the result has a syntax error), documents with syntax errors."
  },
  {
   "property": "C66",
   "status": "partial",
   "theorems": [
    "C66_add_to_result_partial",
    "C66_offered",
    "C66_answers",
    "C66_star_refuted",
    "C66_alias_refuted",
    "C66_hidden_refuted"
   ],
   "note": "Proved: for every document, every cursor on a variable and the query around it, the action is offered iff the variable is not a column yet and is among the grouped variables if the query is grouped; for a grammatical document the edit exists, the result has no syntax errors and its tree is the old one with the variable as a column (in the place of a star, else before the first parenthesis, else last). Missing: a star or parenthesis without white space before it, a star with a name right behind it (refuted: the keyword becomes a part of the variable), characters behind the variable being part of a fused string. Refuted: a name that is assigned in the clause is added again; a VALUES clause of a sub-query hides its GROUP BY."
  },
  {
   "property": "C67",
   "status": "partial",
   "theorems": [
    "C67_aggregates_partial",
    "C67_offered",
    "C67_grouped_refuted",
    "C67_dollar_refuted"
   ],
   "note": "Proved: for a grammatical document, a cursor on a variable written with a question mark and a grouped query around it, the seven edits exist and each result has no syntax errors and the old tree with exactly the aggregate of the title over this variable as a new last column (or in the place of a star). Missing: the assumption that the select clause is not followed by >> (the grammar excludes it, not proved), white space before a star. Refuted: the grouped variables themselves are meant to be left out but are not; variables written with a dollar sign give a syntax error."
  },
  {
   "property": "C68",
   "status": "partial",
   "theorems": [
    "C68_filter_partial",
    "C68_offered",
    "C68_answers",
    "triple_in_group"
   ],
   "note": "Proved: both actions are offered for exactly the variables in a triple of a pattern; in a grammatical document every such triple is in a block of a group, and the edit gives a document without syntax errors whose tree is the old one with the block cut behind the triple and its dot and the filter on this variable (or on its language) put there, in the same group; every range is answered, only a reversed one crashes. Missing: the assumptions that the rest of the document does not start with >> (the grammar excludes it, not proved) and that no two strings are glued together before the triple."
  },
  {
   "property": "C69",
   "status": "partial",
   "theorems": [
    "C69_label_partial",
    "C69_answers",
    "C69_one_line_refuted",
    "C69_semicolon_refuted",
    "C69_dollar_refuted"
   ],
   "note": "Proved: for every query document, every variable in a triple that is written with a question mark and every answer of the action, what the client shows is the old text up to the end of objects of the triple, a dot, the label triple and the filter (spelled out), and the old text from there or, if a dot follows the triple at once or behind one blank or comment, from behind it; the copied indentation is exactly what is before the subject in its line; rdfs is declared in front if and only if it was not declared; the action never fails. Not proved: that the result has no syntax errors. It is false in general: if anything but blanks is before the subject in its line (as in the input of the project's own test) it is copied as indentation, a semicolon behind the objects stays, and a dollar sign ends up in the name of the label variable (all shown). That the objects are those of the last property is not part of the theorem."
  },
  {
   "property": "C70",
   "status": "partial",
   "theorems": [
    "C70_crash",
    "C70_answers",
    "C70_edits_partial",
    "C70_no_predicate_refuted",
    "C70_comment_refuted",
    "C70_blank_nodes_refuted"
   ],
   "note": "Proved: for every query document, every order of the groups, every width of characters and all settings, the edits of this action, which are computed on every request for code actions, fail exactly if predicates are aligned (the default) and the first triple of a group has no predicates; in all other cases there is an answer. So the first sentence of the property is false: SELECT * { [ ?b ?c ] . [ ?b ?c ] } crashes every request (shown). Where there is an answer, its edits are exactly these: for every group, what is written between a place before and a place behind each later triple gives way to nothing, and behind the first triple the property lists of the later ones are written in their order, each behind a semicolon, if all have one. Not proved: that nothing but the triple, blanks and the dot is removed, and what tree the result has. The result is not always a query (a comment before the dot, shown) and not always the same one ([] as subject, shown)."
  }
 ]
}
