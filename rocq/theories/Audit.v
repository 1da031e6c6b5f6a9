(** Generated by tools/manifest.py: the axioms behind every theorem in MANIFEST.json. *)
From Verif Require Import TextProps ParserProps FrameProps ServerProps SettingsProps ReaderProps NTriplesProps SemTokProps LexerProps FormatProps VarProps RenameProps DiagProps OnTypeProps FoldProps LayoutProps ParseTreeProps JumpProps QuickFixProps RemoveProps CommentProps ShortenProps SelectProps AutoProps ResultProps AggregateProps FilterProps LabelProps.
Print Assumptions C01_incremental_sync.
Print Assumptions C02_missing_end_panics.
Print Assumptions C02_missing_start_refuted.
Print Assumptions C03_boundary_to_position_and_back.
Print Assumptions C03_offset_to_position.
Print Assumptions C03_offset_rejected.
Print Assumptions C03_position_to_offset_and_back.
Print Assumptions C03_position_to_offset.
Print Assumptions C03_with_cr_refuted.
Print Assumptions C03_offset_off_boundary_refuted.
Print Assumptions C03_surrogate_refuted.
Print Assumptions C04_positions_monotone.
Print Assumptions C05_simultaneous_edits.
Print Assumptions C06_insert_order_refuted.
Print Assumptions C09_roundtrip.
Print Assumptions C09_truncated.
Print Assumptions C09_prefix_delivered.
Print Assumptions C09_written_frames.
Print Assumptions C09_length_is_decimal.
Print Assumptions C09_terminates.
Print Assumptions C09_utf8_exact.
Print Assumptions C09_header_name_ignored.
Print Assumptions C09_second_header_refuted.
Print Assumptions C09_invalid_utf8_refuted.
Print Assumptions C12_lossless.
Print Assumptions C12_lossless_text.
Print Assumptions C13_termination.
Print Assumptions C13_linear_depth.
Print Assumptions C14_only_stuck.
Print Assumptions C14_never_panics_refuted.
Print Assumptions C17_completeness.
Print Assumptions C15_no_empty_nodes.
Print Assumptions C16_accepted_is_prefix_partial.
Print Assumptions C16_soundness_refuted.
Print Assumptions C16_trailing_tokens_unreported.
Print Assumptions C18_error_ranges.
Print Assumptions C18_error_ranges_text.
Print Assumptions C18_errors_in_order.
Print Assumptions C19_operation_type.
Print Assumptions C19_trivia_irrelevant.
Print Assumptions C19_query_recognised.
Print Assumptions C19_update_recognised.
Print Assumptions C27_tree_is_derivation.
Print Assumptions C27_unambiguous.
Print Assumptions C26_overlap_exact.
Print Assumptions C26_overlap_symmetric.
Print Assumptions C26_overlap_bounds.
Print Assumptions C07_cache_invisible.
Print Assumptions C07_answer_uses_current_text.
Print Assumptions C07_growing_versions.
Print Assumptions C07_reopened_refuted.
Print Assumptions C07_reopened_lower_refuted.
Print Assumptions C08_documents_replayed.
Print Assumptions C08_other_documents_untouched.
Print Assumptions C08_unknown_change_ignored.
Print Assumptions C08_unknown_change_unreported_refuted.
Print Assumptions C10_initialize_after_initialized.
Print Assumptions C10_initialize_before_initialized.
Print Assumptions C10_shutdown.
Print Assumptions C10_other_messages_not_gated.
Print Assumptions C10_exit_code_refuted.
Print Assumptions C10_initialize_twice_refuted.
Print Assumptions C10_shutdown_twice_refuted.
Print Assumptions C11_request_answered.
Print Assumptions C11_request_not_fatal.
Print Assumptions C11_unknown_method.
Print Assumptions C11_notification_silent.
Print Assumptions C11_session.
Print Assumptions C11_ignored_methods.
Print Assumptions C11_request_unanswered_refuted.
Print Assumptions C11_get_backend_without_params_refuted.
Print Assumptions C11_response_answered_refuted.
Print Assumptions C28_only_these_crash.
Print Assumptions C28_garbage_harmless.
Print Assumptions C28_hover_without_params_refuted.
Print Assumptions C28_cancel_without_id_refuted.
Print Assumptions C28_negative_id_refuted.
Print Assumptions C29_request_ids_consecutive.
Print Assumptions C29_request_ids_distinct.
Print Assumptions C30_default_registered.
Print Assumptions C30_update_default.
Print Assumptions C30_add_backend.
Print Assumptions C30_list_default_refuted.
Print Assumptions C30_add_backend_atomic_refuted.
Print Assumptions C31_error_responses_refuted.
Print Assumptions C31_success_responses.
Print Assumptions C32_patch_overrides.
Print Assumptions C32_others_kept.
Print Assumptions C32_empty_patch.
Print Assumptions C32_refused_or_applied.
Print Assumptions C32_failure_changes_nothing.
Print Assumptions C22_document_delivered.
Print Assumptions C22_chunking_irrelevant.
Print Assumptions C22_count_delivered.
Print Assumptions C22_header_first.
Print Assumptions C22_server_first_page.
Print Assumptions C22_second_page_panics_refuted.
Print Assumptions C23_strings_opaque.
Print Assumptions C23_object_is_one_binding.
Print Assumptions C23_strings_between_refuted.
Print Assumptions C23_strings_in_meta_refuted.
Print Assumptions C24_parse_exact.
Print Assumptions C24_no_errors_iff_grammatical.
Print Assumptions C24_incomplete_refused.
Print Assumptions C24_bad_token_refused.
Print Assumptions C20_decodes.
Print Assumptions C20_highlights.
Print Assumptions C20_highlighted_kinds.
Print Assumptions C21_ascii_documents.
Print Assumptions C21_non_ascii_refuted.
Print Assumptions C21_multiline_refuted.
Print Assumptions C21_line_breaks.
Print Assumptions C25_tiles.
Print Assumptions C25_parser_input.
Print Assumptions C33_longest.
Print Assumptions C33_one_definition.
Print Assumptions C33_errors_match_nothing.
Print Assumptions C34_exact_terminals.
Print Assumptions C34_generous_terminals.
Print Assumptions C34_single_quoted_sound.
Print Assumptions C34_string_literals_refuted.
Print Assumptions C34_generous_refuted.
Print Assumptions C35_keywords_any_case.
Print Assumptions C35_boolean_case_refuted.
Print Assumptions C35_punctuation.
Print Assumptions C36_whitespace_separates.
Print Assumptions C36_insert_data_refuted.
Print Assumptions C37_total.
Print Assumptions C37_no_panic.
Print Assumptions C37_edits_disjoint.
Print Assumptions C37_applies.
Print Assumptions C37_deterministic.
Print Assumptions C38_layout_only.
Print Assumptions C38_same_characters.
Print Assumptions C38_tokens_refuted.
Print Assumptions C38_long_s_refuted.
Print Assumptions C39_kept_partial.
Print Assumptions C39_result_partial.
Print Assumptions C39_comments_refuted.
Print Assumptions C40_idempotent_refuted.
Print Assumptions C41_equivalence.
Print Assumptions C41_occurrences.
Print Assumptions C41_references.
Print Assumptions C41_any_occurrence.
Print Assumptions C41_elsewhere.
Print Assumptions C41_dollar_refuted.
Print Assumptions C41_exported_refuted.
Print Assumptions C41_not_exported_refuted.
Print Assumptions C42_rename.
Print Assumptions C42_effect.
Print Assumptions C42_names.
Print Assumptions C42_answers.
Print Assumptions C42_error_renamed_refuted.
Print Assumptions C43_same_variables.
Print Assumptions C43_rename_partial.
Print Assumptions C43_undo_partial.
Print Assumptions C43_capture_refuted.
Print Assumptions C43_filter_select_refuted.
Print Assumptions C44_renamed_document.
Print Assumptions C45_answered.
Print Assumptions C45_order_irrelevant.
Print Assumptions C46_undeclared_prefixes_partial.
Print Assumptions C46_other_queries_refuted.
Print Assumptions C47_unused_prefixes.
Print Assumptions C48_duplicate_prefixes_partial.
Print Assumptions C48_incomplete.
Print Assumptions C48_incomplete_refuted.
Print Assumptions C49_ungrouped_variables_partial.
Print Assumptions C49_missed_refuted.
Print Assumptions C49_dollar_refuted.
Print Assumptions C50_projections_partial.
Print Assumptions C50_projections_standard_partial.
Print Assumptions C50_not_in_scope_refuted.
Print Assumptions C50_missed_refuted.
Print Assumptions C51_grouped_stars_partial.
Print Assumptions C51_values_refuted.
Print Assumptions C51_product_refuted.
Print Assumptions C52_same_subject.
Print Assumptions C52_blank_nodes_refuted.
Print Assumptions C53_syntax_error.
Print Assumptions C53_rest_refuted.
Print Assumptions C54_uncompacted_iris_partial.
Print Assumptions C54_other_queries_refuted.
Print Assumptions C55_newline.
Print Assumptions C55_where.
Print Assumptions C55_no_crash.
Print Assumptions C55_same_tree.
Print Assumptions C56_terminator.
Print Assumptions C56_same_tree.
Print Assumptions C57_folds.
Print Assumptions C57_nested.
Print Assumptions C58_same_tree.
Print Assumptions C58_same_errors.
Print Assumptions C58_same_panics.
Print Assumptions C59_shows.
Print Assumptions C59_tokens.
Print Assumptions C59_skip.
Print Assumptions C60_jump_partial.
Print Assumptions C60_same_characters.
Print Assumptions C60_answered.
Print Assumptions C60_place.
Print Assumptions C61_declare_prefix.
Print Assumptions C61_namespace_not_checked_refuted.
Print Assumptions C62_remove_declaration_partial.
Print Assumptions C62_comment_lost_refuted.
Print Assumptions C62_other_namespace_refuted.
Print Assumptions C62_inverted_range_refuted.
Print Assumptions C63_shorten_iri_partial.
Print Assumptions C63_other_namespace_refuted.
Print Assumptions C63_not_a_name_refuted.
Print Assumptions C63_refused.
Print Assumptions C64_auto_fix_partial.
Print Assumptions C64_declared_twice_refuted.
Print Assumptions C65_sub_select_partial.
Print Assumptions C65_answers.
Print Assumptions C65_dataset_refuted.
Print Assumptions C65_string_refuted.
Print Assumptions C66_add_to_result_partial.
Print Assumptions C66_offered.
Print Assumptions C66_answers.
Print Assumptions C66_star_refuted.
Print Assumptions C66_alias_refuted.
Print Assumptions C66_hidden_refuted.
Print Assumptions C67_aggregates_partial.
Print Assumptions C67_offered.
Print Assumptions C67_grouped_refuted.
Print Assumptions C67_dollar_refuted.
Print Assumptions C68_filter_partial.
Print Assumptions C68_offered.
Print Assumptions C68_answers.
Print Assumptions triple_in_group.
Print Assumptions C69_label_partial.
Print Assumptions C69_answers.
Print Assumptions C69_one_line_refuted.
Print Assumptions C69_semicolon_refuted.
Print Assumptions C69_dollar_refuted.
Print Assumptions C70_crash.
Print Assumptions C70_answers.
Print Assumptions C70_edits_partial.
Print Assumptions C70_no_predicate_refuted.
Print Assumptions C70_comment_refuted.
Print Assumptions C70_blank_nodes_refuted.
