#!/usr/bin/env python3
"""Writes MANIFEST.json and rocq/theories/Audit.v (Print Assumptions of every theorem in the manifest).
Run: python3 tools/manifest.py"""
import json
C=[]
def c(p,status,thms,note=""): C.append({"property":p,"status":status,"theorems":thms.split(),"note":note})
c("C01","proved","C01_incremental_sync","all texts, all change lists whose positions exist; termination/no panic included")
c("C02","partial","C02_missing_end_panics C02_missing_start_refuted","the claim is false: with a missing start position everything before the end is deleted (proved for all texts); with a missing end the server panics")
c("C03","partial","C03_boundary_to_position_and_back C03_offset_to_position C03_offset_rejected C03_position_to_offset_and_back C03_position_to_offset C03_with_cr_refuted C03_offset_off_boundary_refuted C03_surrogate_refuted","true for texts in which every '\\r' is part of a \"\\r\\n\" (places not inside one) and positions not inside a surrogate pair; refuted for lone '\\r' and for positions inside a surrogate pair")
c("C04","proved","C04_positions_monotone")
c("C05","proved","C05_simultaneous_edits","edits in any listed order; same-place insertions are C06")
c("C06","partial","C06_insert_order_refuted","the claim is false for every text: order is reversed")
c("C09","proved","C09_roundtrip C09_truncated C09_prefix_delivered C09_written_frames C09_length_is_decimal C09_terminates C09_utf8_exact C09_header_name_ignored C09_second_header_refuted C09_invalid_utf8_refuted","all message sequences; also proved: a second header line crashes the server, a non-UTF-8 body silently ends the session")
c("C12","proved","C12_lossless C12_lossless_text","for every token list the lexer can produce; together with C14 (a tree is returned unless the parser gets stuck)")
c("C13","proved","C13_termination C13_linear_depth")
c("C14","partial","C14_only_stuck C14_never_panics_refuted C17_completeness","false for deeply nested unclosed input (200 open braces); the only possible panic is 'parser is stuck', and grammatical input never panics")
c("C15","proved","C15_no_empty_nodes","stronger: every node but the root covers a significant token")
c("C16","partial","C16_accepted_is_prefix_partial C16_soundness_refuted C16_trailing_tokens_unreported","false as stated: incomplete input such as DESCRIBE alone is accepted; true up to completion: accepted input is always a prefix of a sentence")
c("C17","proved","C17_completeness")
c("C18","proved","C18_error_ranges C18_error_ranges_text C18_errors_in_order")
c("C19","proved","C19_operation_type C19_trivia_irrelevant C19_query_recognised C19_update_recognised")
c("C27","proved","C27_tree_is_derivation C27_unambiguous")
c("C26","proved","C26_overlap_exact C26_overlap_symmetric C26_overlap_bounds")
c("C07","partial","C07_cache_invisible C07_answer_uses_current_text C07_growing_versions C07_reopened_refuted C07_reopened_lower_refuted","true for every history in which no two texts of a document carry the same version (in particular when versions grow); false when a document is reopened with an old version number: the stale tree is served")
c("C08","partial","C08_documents_replayed C08_other_documents_untouched C08_unknown_change_ignored C08_unknown_change_unreported_refuted","independence proved for all histories; the error for an unknown document is never reported to the client")
c("C10","partial","C10_initialize_after_initialized C10_initialize_before_initialized C10_shutdown C10_other_messages_not_gated C10_exit_code_refuted C10_initialize_twice_refuted C10_shutdown_twice_refuted","exact characterisation of when initialize and shutdown succeed, for all histories; 'exactly once' is false (initialized re-enables shutdown), exit always has code 0")
c("C11","partial","C11_request_answered C11_request_not_fatal C11_unknown_method C11_notification_silent C11_session C11_ignored_methods C11_request_unanswered_refuted C11_get_backend_without_params_refuted C11_response_answered_refuted","exactly one response for every request whose method is not one of the server's notifications, over all histories; false for notification methods sent with an id, and client error responses are answered")
c("C28","partial","C28_only_these_crash C28_garbage_harmless C28_hover_without_params_refuted C28_cancel_without_id_refuted C28_negative_id_refuted","false: the exact two kinds of fatal message are proved, for all states")
c("C29","proved","C29_request_ids_consecutive C29_request_ids_distinct","ids are 0,1,2,... modulo 2^32")
c("C30","partial","C30_default_registered C30_update_default C30_add_backend C30_list_default_refuted C30_add_backend_atomic_refuted","registration and default proved; listBackends' default flag and atomicity of a failing addBackend are false")
c("C31","partial","C31_error_responses_refuted C31_success_responses","false for every error response: code is a string and result is present")
c("C32","proved","C32_patch_overrides C32_others_kept C32_empty_patch C32_refused_or_applied C32_failure_changes_nothing","all settings and patches, by path")
c("C22","partial","C22_document_delivered C22_chunking_irrelevant C22_count_delivered C22_header_first C22_server_first_page C22_second_page_panics_refuted","all documents, batch sizes and chunkings whenever the reader's entry assertion batch <= limit - offset holds; false otherwise: the server's own call panics on every later page of up to 1000 rows. The JSON deserialiser is a universally quantified function")
c("C23","proved","C23_strings_opaque C23_object_is_one_binding C23_strings_between_refuted C23_strings_in_meta_refuted","proved for strings in binding objects; also shown: strings between head and bindings and in the meta object are not recognised")
c("C24","proved","C24_parse_exact C24_no_errors_iff_grammatical C24_incomplete_refused C24_bad_token_refused","at the level of tokens, for all token sequences; the logos tokenizer is not modelled")
c("C20","proved","C20_decodes C20_highlights C20_highlighted_kinds","every token sequence and requested range")
c("C21","partial","C21_ascii_documents C21_non_ascii_refuted C21_multiline_refuted C21_line_breaks","true exactly for ASCII; false as stated: columns and lengths are UTF-8 bytes, and after any multi-line token every later token is on a wrong line (both proved for all documents)")
c("C25","proved","C25_tiles C25_parser_input","for the 182 token definitions as translated by tools/lexer2coq.py and logos' documented longest-match behaviour; error tokens of any length")
c("C33","proved","C33_longest C33_one_definition C33_errors_match_nothing","disjointness of all pairs of definitions by a certified product of derivatives")
c("C34","partial","C34_exact_terminals C34_generous_terminals C34_single_quoted_sound C34_string_literals_refuted C34_generous_refuted","exact for IRIs, PNAME_NS, blank node labels, variables, language tags and comments; at least the grammar for numbers, PNAME_LN, NIL, ANON and whitespace; false for string literals (escapes) and for digits of other scripts")
c("C35","partial","C35_keywords_any_case C35_boolean_case_refuted C35_punctuation","every keyword but TRUE and FALSE, which are read in lower case only")
c("C36","proved","C36_whitespace_separates C36_insert_data_refuted","also shown: INSERT followed by two spaces and DATA is not INSERT DATA, unlike DELETE DATA")
c("C37","proved","C37_total C37_no_panic C37_edits_disjoint C37_applies C37_deterministic","documents without comments and without a long s (U+017F) in INSERT DATA; contractTriples off; the parser getting stuck (C14) is the only way not to answer")
c("C38","partial","C38_layout_only C38_same_characters C38_tokens_refuted C38_long_s_refuted","tokens and characters kept for all documents without comments (and no long s in INSERT DATA, where a letter is lost); 'reading the result gives the same tokens' is false: two tokens can be glued together")
c("C39","partial","C39_kept_partial C39_result_partial C39_comments_refuted","Proved: whenever formatting a document with comments succeeds, the result holds all tokens in their order, respelled only, and every comment outside syntax errors, each at the end of a line (C39_result_partial; C39_kept_partial also covers comments in front of everything the formatter changes, which come as two extra insertions). That formatting always succeeds is false: a comment in a place whose separator is unknown to the formatter panics (C39_comments_refuted). Missing: comments inside syntax errors, that no comment occurs twice, and that the order of the comments is kept.")
c("C40","partial","C40_idempotent_refuted","false: counterexample")
c("C41","partial","C41_equivalence C41_occurrences C41_references C41_any_occurrence C41_elsewhere C41_dollar_refuted C41_exported_refuted C41_not_exported_refuted","proved: for every document the answer is exactly the class of the variable under the documented scoping (innermost sub-select, linked to the surrounding scope if it exports the name), each once, in order, from every occurrence. Against SPARQL's own notion: ?x and $x are not linked, and which variables SELECT * exports differs for GRAPH, SERVICE, VALUES, FILTER and MINUS")
c("C42","proved","C42_rename C42_effect C42_names C42_answers C42_error_renamed_refuted","every document, position and name; also shown: a bare word where a variable is missing is renamed too")
c("C43","partial","C43_same_variables C43_rename_partial C43_undo_partial C43_capture_refuted C43_filter_select_refuted","for every document without lexical errors, all of whose occurrences of the variable are variable tokens, every fresh name, unless a sub-select stands inside a FILTER; without freshness (the server does not check it) and with a sub-select inside a FILTER it is false")
c("C44","proved","C44_renamed_document","every document without lexical errors whose occurrences of the variable are variable tokens, every position and grammatical name; the only sub-case left out, a bare word renamed as a variable, is C42_error_renamed_refuted")
c("C45","proved","C45_answered C45_order_irrelevant","every document the parser gives a tree for (C14); an update is refused; auto_fix_prefixes (a setting, off by default) is not modelled")
c("C46","partial","C46_undeclared_prefixes_partial C46_other_queries_refuted","exact inside the body of a SELECT query; missing: ASK, CONSTRUCT and DESCRIBE queries and a VALUES clause behind the query, where nothing is reported")
c("C47","proved","C47_unused_prefixes","exact for every query")
c("C48","partial","C48_duplicate_prefixes_partial C48_incomplete C48_incomplete_refuted","exact if every declaration has a prefix; otherwise no duplicate is reported at all (proved)")
c("C49","partial","C49_ungrouped_variables_partial C49_missed_refuted C49_dollar_refuted","exact characterisation for the outermost query; missing: sub-selects, self-definitions and aggregates without GROUP BY; ?x and $x are told apart")
c("C50","partial","C50_projections_partial C50_projections_standard_partial C50_not_in_scope_refuted C50_missed_refuted","exact with the server's notion of scope, which agrees with the standard's without FILTER, MINUS and variable GRAPH or SERVICE; false in general, in both directions")
c("C51","partial","C51_grouped_stars_partial C51_values_refuted C51_product_refuted","exact characterisation; a sub-select with VALUES is missed, an unfinished product is taken for a star")
c("C52","proved","C52_same_subject C52_blank_nodes_refuted","exact by the way the subjects are written, for every iteration order of the hash map; also shown: blank nodes [] are reported although they differ")
c("C53","proved","C53_syntax_error C53_rest_refuted","the parser's first error (see C16 for what it accepts); also shown: what follows the query is skipped without error")
c("C54","partial","C54_uncompacted_iris_partial C54_other_queries_refuted","exact inside the body of a SELECT query, for every prefix map; missing: the other query forms")
c("C55","proved","C55_newline C55_where C55_no_crash C55_same_tree","for documents whose lone CRs are only in CRLF; that the tokens stay needs that there is no lexical error")
c("C56","proved","C56_terminator C56_same_tree C55_no_crash","for documents whose lone CRs are only in CRLF; that the tokens stay needs that there is no lexical error")
c("C57","proved","C57_folds C57_nested","")
c("C58","proved","C58_same_tree C58_same_errors C58_same_panics","")
c("C59","proved","C59_shows C59_tokens C59_skip","")
c("C60","partial","C60_jump_partial C60_same_characters C60_answered C60_place","Missing: documents with comments (the formatter may crash on them, C39), documents with CR, contraction of same-subject triples, and that the blanks inserted between two tokens of the formatted document leave the other tokens as they are. The second run of the parser is assumed to return (C15: it may run out of steps on huge documents).")
c("C61","proved","C61_declare_prefix C61_namespace_not_checked_refuted","The namespace of the prefix map is not checked: C61_namespace_not_checked_refuted shows the quick fix breaking a query if it is no IRI.")
c("C62","partial","C62_remove_declaration_partial C62_comment_lost_refuted C62_other_namespace_refuted C62_inverted_range_refuted","Proved for a complete declaration behind complete declarations, with a blank before it (or at the start of the document). Missing: declarations with syntax errors or glued to the one before; the diagnostics about repeated prefixes that are left; that the edited document is parsed at all if the first declaration is taken out. The refutations: a comment behind the declaration is lost; the later declaration of a prefix, which is the one that counts, is the one taken out; a diagnostic of the client with an inverted range crashes the server.")
c("C63","partial","C63_shorten_iri_partial C63_other_namespace_refuted C63_not_a_name_refuted C63_refused","Proved: the edits for every document; for a grammatical query in which the IRI has white space before it and white space or a delimiter behind it, and whose abbreviation is a prefixed name, the document behind the edits has no syntax errors, its tree is the old one with the name in the place of the IRI (and one declaration in front if the prefix was not declared), and the name stands for the same IRI. Missing: documents with syntax errors; IRIs glued to the token before them (refuted: can break the query), prefixes declared for another namespace (refuted: the name stands for another IRI), rests that are no local names (refuted).")
c("C64","partial","C64_auto_fix_partial C64_declared_twice_refuted","Proved: for every query document whose text starts with complete declarations, every setting and every prefix map with IRIs as namespaces: the run does not crash, its edits do not overlap, it declares each missing prefix that is known exactly once and removes the first declaration of each unused prefix, the tree of the result is the old one with exactly these declarations exchanged, the errors are the same ones further down, and the diagnostics afterwards are those before without the missing prefixes that are known and the unused prefixes that were declared once. Missing: unused declarations that are incomplete, glued to what precedes them or follow other text; documents that end with the prologue; sending the request (a capability check and a request number).")
c("C65","partial","C65_sub_select_partial C65_answers C65_dataset_refuted C65_string_refuted","Proved: for every grammatical query document, every query or sub-query in it without a dataset clause, every tab size and every range whose smallest element is the query or its keyword, the edits exist and give a document without syntax errors whose tree is the old one with the query wrapped; for every document the action answers (or crashes, exactly if the range is reversed). Missing: a query glued to the token before it, line feeds in strings (refuted: the string changes), queries with FROM (refuted: the result has a syntax error), documents with syntax errors.")
c("C66","partial","C66_add_to_result_partial C66_offered C66_answers C66_star_refuted C66_alias_refuted C66_hidden_refuted","Proved: for every document, every cursor on a variable and the query around it, the action is offered iff the variable is not a column yet and is among the grouped variables if the query is grouped; for a grammatical document the edit exists, the result has no syntax errors and its tree is the old one with the variable as a column (in the place of a star, else before the first parenthesis, else last). Missing: a star or parenthesis without white space before it, a star with a name right behind it (refuted: the keyword becomes a part of the variable), characters behind the variable being part of a fused string. Refuted: a name that is assigned in the clause is added again; a VALUES clause of a sub-query hides its GROUP BY.")
c("C67","partial","C67_aggregates_partial C67_offered C67_grouped_refuted C67_dollar_refuted","Proved: for a grammatical document, a cursor on a variable written with a question mark and a grouped query around it, the seven edits exist and each result has no syntax errors and the old tree with exactly the aggregate of the title over this variable as a new last column (or in the place of a star). Missing: the assumption that the select clause is not followed by >> (the grammar excludes it, not proved), white space before a star. Refuted: the grouped variables themselves are meant to be left out but are not; variables written with a dollar sign give a syntax error.")
c("C68","partial","C68_filter_partial C68_offered C68_answers triple_in_group","Proved: both actions are offered for exactly the variables in a triple of a pattern; in a grammatical document every such triple is in a block of a group, and the edit gives a document without syntax errors whose tree is the old one with the block cut behind the triple and its dot and the filter on this variable (or on its language) put there, in the same group; every range is answered, only a reversed one crashes. Missing: the assumptions that the rest of the document does not start with >> (the grammar excludes it, not proved) and that no two strings are glued together before the triple.")
c("C69","partial","C69_label_partial C69_answers C69_one_line_refuted C69_semicolon_refuted C69_dollar_refuted","Proved: for every query document, every variable in a triple that is written with a question mark and every answer of the action, what the client shows is the old text up to the end of objects of the triple, a dot, the label triple and the filter (spelled out), and the old text from there or, if a dot follows the triple at once or behind one blank or comment, from behind it; the copied indentation is exactly what is before the subject in its line; rdfs is declared in front if and only if it was not declared; the action never fails. Not proved: that the result has no syntax errors. It is false in general: if anything but blanks is before the subject in its line (as in the input of the project's own test) it is copied as indentation, a semicolon behind the objects stays, and a dollar sign ends up in the name of the label variable (all shown). That the objects are those of the last property is not part of the theorem.")
c("C70","partial","C70_crash C70_answers C70_edits_partial C70_no_predicate_refuted C70_comment_refuted C70_blank_nodes_refuted","Proved: for every query document, every order of the groups, every width of characters and all settings, the edits of this action, which are computed on every request for code actions, fail exactly if predicates are aligned (the default) and the first triple of a group has no predicates; in all other cases there is an answer. So the first sentence of the property is false: SELECT * { [ ?b ?c ] . [ ?b ?c ] } crashes every request (shown). Where there is an answer, its edits are exactly these: for every group, what is written between a place before and a place behind each later triple gives way to nothing, and behind the first triple the property lists of the later ones are written in their order, each behind a semicolon, if all have one. Not proved: that nothing but the triple, blanks and the dot is removed, and what tree the result has. The result is not always a query (a comment before the dot, shown) and not always the same one ([] as subject, shown).")
import os,re
root=os.path.dirname(os.path.dirname(os.path.abspath(__file__)))
open(root+"/MANIFEST.json","w").write(json.dumps({"claims":C},indent=1)+"\n")
mods=[l.strip()[9:-2] for l in open(root+"/rocq/_CoqProject") if l.startswith("theories/") and l.strip().endswith("Props.v")]
ths=[]
for x in C:
    for t in x["theorems"]:
        if t not in ths: ths.append(t)
have=set()
for m in mods:
    have|=set(re.findall(r"^(?:Theorem|Lemma|Corollary) (\w+)",open(root+"/rocq/theories/%s.v"%m).read(),re.M))
for t in ths:
    if t not in have: print("MISSING",t)
listed=set(ths)
for t in sorted(have):
    if re.match(r"C\d\d_",t) and t not in listed: print("UNLISTED",t)
open(root+"/rocq/theories/Audit.v","w").write("(** Generated by tools/manifest.py: the axioms behind every theorem in MANIFEST.json. *)\n"
 +"From Verif Require Import %s.\n"%" ".join(mods)+"".join("Print Assumptions %s.\n"%t for t in ths))
