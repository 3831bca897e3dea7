{
 "claims": [
  {
   "property": "C01",
   "status": "proved",
   "theorems": [
    "C01_wait_success_is_truthful",
    "C01_wait_error_is_cancellation"
   ],
   "note": "Full statement proved for every history and interleaving."
  },
  {
   "property": "C02",
   "status": "proved",
   "theorems": [
    "C02_wait_released_iff_published",
    "C02_pending_wait_released_by_update",
    "C02_later_wait_immediate",
    "C02_no_foreign_release",
    "C02_get_is_latest"
   ],
   "note": "Full statement proved: released iff a satisfying version was published since the call."
  },
  {
   "property": "C03",
   "status": "proved",
   "theorems": [
    "C03_no_double_close"
   ],
   "note": "Full statement proved (the panic flag of the model is never set)."
  },
  {
   "property": "C04",
   "status": "partial",
   "theorems": [
    "C04_published_version_monotone_refuted",
    "C04_published_version_monotone_partial",
    "C04_change_publishes_its_version",
    "C04_close_releases_waits_refuted"
   ],
   "note": "Finding: a save notification publishes version 0 (server.go:513-520 leaves Version at its zero value), and a close publishes nothing (documents.go:79,95). Monotonicity is proved for documents without save/on-disk events."
  },
  {
   "property": "C05",
   "status": "partial",
   "theorems": [
    "C05_batch_filtered_iff_at_most_one_unresolvable",
    "C05_batch_published_partial",
    "C05_batch_compiled",
    "C05_batch_two_unresolvable_refuted"
   ],
   "note": "Finding: documents.go:89-91 deletes by stale index. Proved exact characterisation: the batch is filtered correctly iff it has at most one unresolvable event; otherwise the server panics or applies an unresolvable event."
  },
  {
   "property": "C06",
   "status": "partial",
   "theorems": [
    "C06_changes_applied_in_sequence_refuted",
    "C06_legal_changes_accepted_refuted",
    "C06_full_text_among_changes_refuted",
    "C06_single_change",
    "C06_descending_changes_partial",
    "C06_positions"
   ],
   "note": "Positions are modelled on UTF-8 texts with UTF-16 columns, as gopls' Mapper does, and characterised by C06_positions. Finding: documents.go:29-37 applies all changes against the original text. Proved for single changes and for batches ordered from the end; refuted in general (wrong text, rejected legal input, nil-dereference panic)."
  },
  {
   "property": "C07",
   "status": "proved",
   "theorems": [
    "C07_results_consistent"
   ],
   "note": "Full statement proved for every history of compilations and invalidations, whatever the compiler reports."
  },
  {
   "property": "C08",
   "status": "partial",
   "theorems": [
    "C08_lookups_current_partial",
    "C08_latest_exists",
    "C08_lookup_never_panics_refuted",
    "C08_failed_compilation_keeps_results_refuted"
   ],
   "note": "Findings: once a file that had linked becomes partially linked or unlinked, looking it up panics on the placeholder left in the result list (cache.go:207); a compilation that fails as a whole after starting on a partially linked file loses that file's result. Proved: all three lookups are exact for well-behaved histories."
  },
  {
   "property": "C09",
   "status": "partial",
   "theorems": [
    "C09_delete_removes_only_its_result",
    "C09_deleted_file_gone_from_all_lookups_refuted"
   ],
   "note": "Proved for linked results and as a frame property. Finding: postInvalidateHook leaves the partial and unlinked results of a deleted file in place, so lookups that accept those keep returning them."
  },
  {
   "property": "C10",
   "status": "partial",
   "theorems": [
    "C10_published_is_current",
    "C10_flush_publishes_everything",
    "C10_nothing_published_after_detach",
    "C10_nothing_published_without_change",
    "C10_current_since_clear",
    "C10_deleted_file_cleared_at_client_refuted"
   ],
   "note": "Proved for every interleaving while the stream is attached and the file keeps its URI. Finding (C10_deleted_file_cleared_at_client_refuted): when a file is deleted its path-to-URI mapping is removed (documents.go:62) before its diagnostics are cleared and flushed, and the callback drops reports without URI (diagnostics.go:114-117), so the client shows the deleted file's errors forever."
  },
  {
   "property": "C11",
   "status": "partial",
   "theorems": [
    "C11_existing_diagnostics_delivered_refuted",
    "C11_diagnostics_since_attach_partial"
   ],
   "note": "Finding: a flush without a listener consumes the dirty flag (diagnostics.go:228-236, 598-606), and server.go compiles and flushes all files before it attaches the stream, so errors present at start-up are not shown until the file changes. Proved for files reported on or cleared after attaching."
  },
  {
   "property": "C12",
   "status": "proved",
   "theorems": [
    "C12_cleared_file_empty",
    "C12_other_files_lose_only_related",
    "C12_unrelated_files_untouched",
    "C12_related_removed",
    "C12_all_related_removed_refuted"
   ],
   "note": "Full statement proved, plus completeness when ranges are distinct. Auxiliary finding (C12_all_related_removed_refuted): with several diagnostics at a related range only the first is removed."
  },
  {
   "property": "C13",
   "status": "proved",
   "theorems": [
    "C13_unchanged_is_truthful",
    "C13_untouched_is_unchanged",
    "C13_coarse_clock_refuted"
   ],
   "note": "Full statement proved, plus the converse for untouched files. Auxiliary finding (C13_coarse_clock_refuted): result ids are clock readings, so two changes within one tick are indistinguishable."
  },
  {
   "property": "C14",
   "status": "proved",
   "theorems": [
    "C14_elevated_iff",
    "C14_repeatable",
    "C14_follows_current_pragma_refuted"
   ],
   "note": "Elevation rule and repeatability proved (pragma text as ASCII). Auxiliary finding (C14_follows_current_pragma_refuted): the elevated severity is written back into the stored diagnostic, so a diagnostic reported once as an error stays one."
  },
  {
   "property": "C15",
   "status": "proved",
   "theorems": [
    "C15_tokens_decode"
   ],
   "note": "Full statement proved for every token list and every outcome of the (unstable) sort."
  },
  {
   "property": "C16",
   "status": "proved",
   "theorems": [
    "C16_overwrite_crash_safe"
   ],
   "note": "Full statement proved for every crash point and every pattern of I/O failures."
  },
  {
   "property": "C17",
   "status": "proved",
   "theorems": [
    "C17_overwrite_success",
    "C17_overwrite_error",
    "C17_no_stray_file_on_error_refuted"
   ],
   "note": "Full statement proved. Auxiliary finding (C17_no_stray_file_on_error_refuted): if writing the backup fails, the incomplete backup file stays behind (gofmt_helpers.go backupFile does not remove it)."
  },
  {
   "property": "C18",
   "status": "proved",
   "theorems": [
    "C18_results_ranked_best_100",
    "C18_ties_at_cutoff_by_rank_refuted"
   ],
   "note": "Full statement proved. Auxiliary finding (C18_ties_at_cutoff_by_rank_refuted): among candidates of equal score the cut-off at 100 keeps the ones stored first, not the best-ranked ones (TooLow compares scores only)."
  },
  {
   "property": "C19",
   "status": "proved",
   "theorems": [
    "C19_query_is_conjunction",
    "C19_words_exist_unique"
   ],
   "note": "Full statement proved, for every fuzzy matcher with non-negative scores, over byte strings (ASCII case folding)."
  },
  {
   "property": "C20",
   "status": "partial",
   "theorems": [
    "C20_fifo_refuted",
    "C20_order_characterised_partial",
    "C20_fifo_without_streaming_partial",
    "C20_next_waits_for_reply"
   ],
   "note": "Finding: handler.go:74-75 closes a streaming request's channel on arrival, so requests after it overtake earlier requests that are still running. Proved: the exact condition under which request i waits for request j (no streaming request in between), hence FIFO without streaming requests."
  },
  {
   "property": "C21",
   "status": "proved",
   "theorems": [
    "C21_no_request_stuck",
    "C21_bounded_work",
    "C21_no_double_close"
   ],
   "note": "Full statement proved: some step is enabled while a request is unanswered, at most two steps per request, and no channel is closed twice."
  },
  {
   "property": "C22",
   "status": "partial",
   "theorems": [
    "C22_flat_requests_never_deadlock_partial",
    "C22_exclusive",
    "C22_flat_requests",
    "C22_nested_requests_deadlock_refuted",
    "C22_generated_definition_deadlock_refuted",
    "C22_reads",
    "C22_only_reads"
   ],
   "note": "Deadlock freedom and a step bound proved for all requests whose lock use is not nested (hover, definition, references, formatting, completion, code actions, edits), in any number, under any schedule. Finding: code lens, document symbols, workspace symbols, inlay hints, document links, semantic tokens, rename and go-to-generated-definition take the read lock again while holding it, which deadlocks with one concurrent edit under Go's RWMutex. In the deployed server requests other than commands are run one at a time (C20), so the reachable instance is go-to-generated-definition (a command) against didChange; the others concern users of the Cache API."
  },
  {
   "property": "C23",
   "status": "partial",
   "theorems": [
    "C23_refresh_succeeds_iff",
    "C23_refresh_releases_iff_partial",
    "C23_commands_release_lock_refuted",
    "C23_other_commands_release_lock"
   ],
   "note": "Finding: protols/refreshModules returns without unlocking cachesMu if a workspace has no Go language driver (commands.go:166-175); every later request then blocks. Exact condition proved, and that the other commands release the lock."
  },
  {
   "property": "C24",
   "status": "proved",
   "theorems": [
    "C24_wanted_kinds",
    "C24_returned_kinds_wanted"
   ],
   "note": "Full statement proved (kinds as dot-separated paths), for arbitrary diagnostics, import suggestions and analyzer outputs. Remark: the error 'no supported code action' is unreachable because every requested kind is entered into the map (codeactions.go:180)."
  },
  {
   "property": "C25",
   "status": "partial",
   "theorems": [
    "C25_others_kept_and_removals_kept",
    "C25_each_text_once_partial",
    "C25_every_edit_kept_refuted"
   ],
   "note": "Proved: other actions kept, all removals kept, nothing invented; for one document every text to be inserted is inserted exactly once. Finding: with several documents equal texts are inserted in only one (the set of seen texts is not per document, codeactions.go:119-130)."
  },
  {
   "property": "C26",
   "status": "partial",
   "theorems": [
    "C26_computed_at_most_once",
    "C26_resolve_iff_available",
    "C26_malformed",
    "C26_never_after_removal_partial",
    "C26_no_leak_partial",
    "C26_no_leak_refuted"
   ],
   "note": "Proved for every interleaving: at most one computation; a resolve computes iff the action is available. Finding: the timer is armed before the action is stored (refactor.go:61-70), so if the deadline passes in between the entry is never removed."
  },
  {
   "property": "C27",
   "status": "partial",
   "theorems": [
    "C27_inline_numbers_distinct_iff_partial",
    "C27_inline_numbers_distinct_partial",
    "C27_inline_names_distinct_partial",
    "C27_inline_number_clash_refuted",
    "C27_inline_name_clash_refuted",
    "C27_inline_empty_panics_refuted",
    "C27_inline_keeps_cardinality_refuted"
   ],
   "note": "Exact condition for distinct numbers proved; names proved distinct when no inlined name is taken. Findings: the largest number is computed over plain fields only (refactor.go:709-720), so numbers of map fields, groups and oneof fields can be reused; the replacement name for one inlined field is not checked against the other inlined fields; a message without fields makes the action panic (765); the label of repeated fields is lost."
  },
  {
   "property": "C28",
   "status": "partial",
   "theorems": [
    "C28_renumber_distinct_iff_partial",
    "C28_renumber_plain_partial",
    "C28_renumber_distinct_refuted"
   ],
   "note": "Exact condition proved. Finding: only plain fields are renumbered (refactor.go:846-871), so a map field or oneof field numbered at most the number of plain fields collides."
  },
  {
   "property": "C29",
   "status": "partial",
   "theorems": [
    "C29_name_unused_partial",
    "C29_first_unused",
    "C29_search_exhausted_refuted",
    "C29_message_name_in_scope_refuted"
   ],
   "note": "Proved for fewer than 100 names in use. Findings: the 100th candidate is returned unchecked; new message names are compared only with messages, so an enum, service or extension of that name clashes."
  },
  {
   "property": "C30",
   "status": "partial",
   "theorems": [
    "C30_relative_name_partial",
    "C30_relative_name_refuted",
    "C30_name_captured_refuted",
    "C30_type_label"
   ],
   "note": "Proved, with minimality, whenever neither package name is a textual prefix of the other except as an enclosing package; type labels proved. Findings: for packages such as foo and foobar the comparison stops in the middle of a part (completion.go:1481-1483) and the inserted name denotes another type; an inner scope that declares the first part captures the name."
  },
  {
   "property": "C31",
   "status": "partial",
   "theorems": [
    "C31_ranking_strict_order",
    "C31_distance_meaning_partial",
    "C31_root_package_refuted"
   ],
   "note": "Strict total order proved; distance zero iff same name, negative iff inside, local package first. Finding: for a file without package, splitting the empty name yields one empty part, so packages (all inside the root) get positive distances."
  },
  {
   "property": "C32",
   "status": "partial",
   "theorems": [
    "C32_one_preselected",
    "C32_sort_text_order_partial",
    "C32_sort_text_order_refuted"
   ],
   "note": "Exactly one preselected item, order and labels kept: proved. Sort texts increase up to 100000 items. Finding: %05d overflows its width at item 100001, which sorts before the one preceding it."
  },
  {
   "property": "C33",
   "status": "proved",
   "theorems": [
    "C33_segments_partition",
    "C33_columns_written"
   ],
   "note": "Full statement proved, for any way of splitting the fields into groups (the logarithmic heuristic is an oracle)."
  },
  {
   "property": "C34",
   "status": "partial",
   "theorems": [
    "C34_imported_files_kept",
    "C34_each_once_partial",
    "C34_distinct_imports_kept",
    "C34_insertion_sorts",
    "C34_modifier_kept_refuted",
    "C34_commented_once_refuted"
   ],
   "note": "Proved for every order sort.Slice may return: imported files, commented imports and order kept; files imported once unchanged. Findings: of `import \"a\"; import public \"a\"` only the plain import survives, so public is lost (formatter.go:315-328 keeps the first of the descending modifiers); duplicates with comments are all printed; the comparison function is not a strict weak order (292-314), which for insertion sort (at most 12 imports) is proved harmless."
  },
  {
   "property": "C35",
   "status": "partial",
   "theorems": [
    "C35_literal_value_iff",
    "C35_literal_value_refuted"
   ],
   "note": "Exact condition proved. Finding: a single-quoted literal with an unescaped double quote is re-quoted without escaping it (writeStringLiteral), which breaks the file or changes its meaning."
  },
  {
   "property": "C36",
   "status": "partial",
   "theorems": [
    "C36_block_comment_inline",
    "C36_line_comment_inline_iff",
    "C36_one_comment_refuted"
   ],
   "note": "Exact condition proved for line comments; block comments proved. Finding: a line comment containing */ becomes a block comment that ends early."
  },
  {
   "property": "C37",
   "status": "partial",
   "theorems": [
    "C37_inverse_partial",
    "C37_module_workspace",
    "C37_plain_workspace",
    "C37_latest",
    "C37_change_moves",
    "C37_change_leaves",
    "C37_change_elsewhere",
    "C37_shared_path_refuted",
    "C37_semicolon_refuted"
   ],
   "note": "Proved for every history without conflicting paths, and unconditionally for all histories of file events inside a Go module or a folder without one (with the exact set of known paths); without any assumption both maps hold the latest pair recorded. Findings: files outside the module's directory can share a path with one inside, and deleting either makes the other unresolvable (resolver.go:195-199 deletes by path without comparing URIs); PathToURI cuts paths at ';', so files with ';' in their name are never found."
  },
  {
   "property": "C38",
   "status": "partial",
   "theorems": [
    "C38_possible_answers",
    "C38_enclosing_partial",
    "C38_single_folder_partial",
    "C38_by_folder",
    "C38_found",
    "C38_sibling_refuted",
    "C38_nested_refuted",
    "C38_vendor_refuted"
   ],
   "note": "Proved: the exact set of workspaces that can answer over all map orders, that a document in a folder (not under vendor...) always gets an answer, and that the answer encloses the document when folder paths are prefixes only of their contents. Findings (server.go:233-241): a folder /w/app also serves /w/app2; with nested folders the answer depends on map order; documents in /w/vendored are in no workspace."
  },
  {
   "property": "C39",
   "status": "partial",
   "theorems": [
    "C39_directive_found",
    "C39_quotes_in_comment_refuted",
    "C39_commented_out_refuted",
    "C39_indented_refuted",
    "C39_two_statements_refuted"
   ],
   "note": "Full statement proved for lines of the canonical form. Findings outside of it: a trailing comment with quotes becomes part of the package path (LastIndexByte), directives in block comments are taken, indented directives are missed, an earlier semicolon on the line defeats the cut at the alias."
  },
  {
   "property": "C40",
   "status": "partial",
   "theorems": [
    "C40_round_trip_iff_no_quote",
    "C40_quote_refuted"
   ],
   "note": "Exact condition proved: the literal denotes the value iff the value has no double quote. Finding: a double quote is printed as a lone backslash (print.go:2094), so the literal is unterminated or means something else."
  },
  {
   "property": "C41",
   "status": "partial",
   "theorems": [
    "C41_round_trip_iff_no_quote",
    "C41_quote_refuted"
   ],
   "note": "Exact condition proved for every byte string and every IsPrint that is right on ASCII: the literal denotes the value iff it has no double quote. Finding: as C40 (print.go:2140)."
  },
  {
   "property": "C42",
   "status": "partial",
   "theorems": [
    "C42_message_ranges",
    "C42_extension_ranges",
    "C42_enum_ranges_iff",
    "C42_enum_range_refuted"
   ],
   "note": "Proved for messages and extension ranges. Finding: enum ranges include their end (protoreflect.EnumRanges), but are printed as if they did not (print.go:1330), so every enum range of more than one number loses its last number; exact condition proved."
  },
  {
   "property": "C43",
   "status": "partial",
   "theorems": [
    "C43_forced",
    "C43_prefix",
    "C43_literal",
    "C43_resolves_partial",
    "C43_shadowed_refuted"
   ],
   "note": "The dropped prefix is characterised exactly; resolution is proved exactly when no inner scope defines the first component of the printed name. Finding: names are shortened without looking at what is defined (print.go:809), so a shadowed name resolves to something else."
  },
  {
   "property": "C44",
   "status": "proved",
   "theorems": [
    "C44_keys_injective",
    "C44_lookup",
    "C44_put_if_absent"
   ],
   "note": ""
  },
  {
   "property": "C45",
   "status": "partial",
   "theorems": [
    "C45_panics_exactly",
    "C45_complete",
    "C45_order",
    "C45_acyclic",
    "C45_driver_panics_exactly",
    "C45_editions_refuted"
   ],
   "note": "Full statement proved for the sort: it ends on every graph (also cyclic ones), crashes exactly if an import is missing, and otherwise lists each file once, after every import that does not lead back. Finding: the driver sorts only files that do not use editions (externalapi.go:37), so compiling a proto2/proto3 file that imports an editions file panics with a nil dereference (transform.go:21); exact condition proved."
  },
  {
   "property": "C46",
   "status": "partial",
   "theorems": [
    "C46_names",
    "C46_exact",
    "C46_complete_refuted",
    "C46_references",
    "C46_twice_refuted",
    "C46_twice"
   ],
   "note": "Names are always restored; the exact condition for imports is proved. Findings: imports of a file whose own name has no URI or already is the original name are not restored (transform.go:40, 44); the driver restores workspace-local files twice (driver.go:206-207), which can rename an import a second time."
  },
  {
   "property": "C47",
   "status": "proved",
   "theorems": [
    "C47_writes_only_beside_documents",
    "C47_success_means_all_written",
    "C47_foreign_output_reported",
    "C47_own_output_not_rejected",
    "C47_output_beside_own_source_refuted"
   ],
   "note": "Full statement proved. Auxiliary finding (C47_output_beside_own_source_refuted): two documents with the same go_package in different directories share one entry of the output map, so the first one's output lands in the second one's directory."
  },
  {
   "property": "C48",
   "status": "proved",
   "theorems": [
    "C48_camel_case_exported",
    "C48_characters",
    "C48_camel_case_fixpoints",
    "C48_camel_case_idempotent",
    "C48_snake_case",
    "C48_nested_names",
    "C48_sanitized_identifier",
    "C48_sanitized_unchanged",
    "C48_distinct_names_refuted"
   ],
   "note": "Full statement proved, with the fixed points, idempotence, the documented rule for snake-case names and the names of nested types. Finding: the mapping is not injective (foo_bar and FooBar), so two fields of one message may be looked up under one Go name."
  },
  {
   "property": "C49",
   "status": "partial",
   "theorems": [
    "C49_sound",
    "C49_complete",
    "C49_first",
    "C49_inside",
    "C49_only_candidate",
    "C49_contains_refuted",
    "C49_narrowest_refuted"
   ],
   "note": "Proved: the result is always the first meaningful token touching the cursor, and the containing token whenever the cursor is strictly inside it. Findings: at a boundary between adjacent tokens the one that ends there is returned (search.go:590), so the statement fails for a cursor before the first character; of nested tokens the outer one is returned although the function promises the narrowest."
  },
  {
   "property": "C50",
   "status": "proved",
   "theorems": [
    "C50_once",
    "C50_all",
    "C50_same",
    "C50_progress",
    "C50_terminates",
    "C50_no_panic"
   ],
   "note": "Full statement proved: once each at every moment, all of them at the end, the same set for every schedule, progress, a bound on the number of steps, and no send on the closed channel."
  },
  {
   "property": "C51",
   "status": "partial",
   "theorems": [
    "C51_search_visits_linked",
    "C51_search_visits_only_current",
    "C51_search_visits_partial_refuted"
   ],
   "note": "Proved for linked files, and that only current results are visited. Finding: a partially linked file that never linked before is not visited."
  },
  {
   "property": "C52",
   "status": "proved",
   "theorems": [
    "C52_pragmas_current",
    "C52_latest_exists"
   ],
   "note": "Full statement proved for reports that mention each path at most once."
  },
  {
   "property": "C53",
   "status": "partial",
   "theorems": [
    "C53_relative_prefix_search_exact",
    "C53_full_prefix_search_exact",
    "C53_dotted_prefix_search_partial",
    "C53_dotted_prefix_search_refuted"
   ],
   "note": "Proved for relative and unqualified prefixes. Finding: with a leading dot, only files whose package itself starts with the prefix are searched, so a prefix that reaches beyond the package name finds nothing."
  },
  {
   "property": "C54",
   "status": "partial",
   "theorems": [
    "C54_literal_covered_iff_partial",
    "C54_gapless_partial",
    "C54_quoted_raw_text_refuted",
    "C54_literal_covered_refuted"
   ],
   "note": "Finding: semantic.go:761-773 mixes two conventions for the raw text. If it excludes the quotes, the tokens are right iff the literal ends with an escape sequence (exact characterisation proved); otherwise its last character is reported as the closing quote. If it includes the quotes every escape is off by one."
  },
  {
   "property": "C55",
   "status": "partial",
   "theorems": [
    "C55_multiline_comment_covered",
    "C55_multiline_one_token_per_line",
    "C55_plain_comment_covered",
    "C55_only_pragmas",
    "C55_pragma_comment_covered_iff_partial",
    "C55_pragma_comment_covered_refuted"
   ],
   "note": "Proved for multi-line and ordinary comments. Finding: semantic.go:371 compares the length of the text after the prefix with a length that includes the prefix, so a pragma's value of at most ten characters gets no token (exact condition proved)."
  },
  {
   "property": "C56",
   "status": "proved",
   "theorems": [
    "C56_published_in_flush_order",
    "C56_nothing_lost_while_open"
   ],
   "note": ""
  },
  {
   "property": "C57",
   "status": "partial",
   "theorems": [
    "C57_flush_completes_while_open_partial",
    "C57_flush_completes_iff_partial",
    "C57_closing_during_flush_blocks_refuted"
   ],
   "note": "Finding: the receiving goroutine stops on cancellation without draining, so a flush with two more reports blocks in the channel send for ever, holding listenerMu, diagnosticsMu and the results lock. Completion while open is proved, and the exact set of blocked states."
  },
  {
   "property": "C58",
   "status": "proved",
   "theorems": [
    "C58_extract_keeps_fields"
   ],
   "note": "Full statement proved for messages with fewer than 100 field names."
  },
  {
   "property": "C59",
   "status": "partial",
   "theorems": [
    "C59_single_field_offered_partial",
    "C59_sibling_fields_offered_refuted",
    "C59_offered_sound"
   ],
   "note": "Soundness proved, completeness proved for one field. Finding: refactor.go:486 compares the parent message with the field node of later paths, so with two or more selected fields the action is never offered."
  },
  {
   "property": "C60",
   "status": "partial",
   "theorems": [
    "C60_values_kept_partial",
    "C60_order_kept_partial",
    "C60_documented_case_panics_refuted",
    "C60_first_outside_panics_refuted",
    "C60_other_elements_lost_refuted",
    "C60_order_changed_refuted",
    "C60_other_scopes_refuted"
   ],
   "note": "Proved when the field's first mention is inside a container that has it as an array. Findings: the documented case (no container yet) and every case whose first mention is outside the container panic, since the first option is removed at 1103-1105 before being looked up at 1115; without an array the container is replaced and its other elements are lost; an array after single values reorders them; in enums, services etc. values are duplicated or lost (replaceWithinParent handles only messages and files). Commas are left out here; see C176, by which even the case proved depends on a comma after the last value of the array."
  },
  {
   "property": "C61",
   "status": "partial",
   "theorems": [
    "C61_accept_replaces_word_partial",
    "C61_accept_replaces_word_refuted"
   ],
   "note": "Proved for ASCII words. Finding: the range is computed from byte lengths while columns are UTF-16 units, so for import paths with other characters text after the word is removed too."
  },
  {
   "property": "C62",
   "status": "partial",
   "theorems": [
    "C62_comment_text_kept",
    "C62_comment_stays_one",
    "C62_comment_idempotent_partial",
    "C62_comment_idempotent_refuted"
   ],
   "note": "Text and unity proved for all comments, idempotence for comments without lines that are blank but contain characters other than spaces and tabs. Finding: such a line (a carriage return in files with Windows line ends) counts as indentation 0 in computeIndent, and vanishes on output, so the second formatting moves the comment again."
  },
  {
   "property": "C63",
   "status": "partial",
   "theorems": [
    "C63_file_options_order_partial",
    "C63_values_order_refuted"
   ],
   "note": "Proved up to 12 options. Finding: beyond that sort.Slice does not promise stability, so the values of a repeated custom option may be permuted, which changes its value; the refutation is of the documented contract of sort.Slice, not of one run of it."
  },
  {
   "property": "C64",
   "status": "partial",
   "theorems": [
    "C64_document_wins",
    "C64_size_limit",
    "C64_module_last",
    "C64_google",
    "C64_google_paths",
    "C64_gogo_googleapis",
    "C64_same_answer_partial",
    "C64_google_document_refuted",
    "C64_large_module_file_refuted",
    "C64_gogo_fallback_refuted"
   ],
   "note": "Proved outside google/ and, for repeated lookups, when module files are readable and at most 1 MiB long. Findings: the registry reports protoregistry.NotFound, which is not os.ErrNotExist, so every path under google/ that is not built in fails at once, even if the workspace or a Go module (googleapis) has it; module files over 1 MiB are served once and refused afterwards; a failed synthesis from Go code (503, wrapping a nil error) is a hard failure that skips the gogo.proto fallback."
  },
  {
   "property": "C65",
   "status": "partial",
   "theorems": [
    "C65_uri_of_resolved_path_partial",
    "C65_alias_ignored",
    "C65_built_in",
    "C65_google_document_refuted"
   ],
   "note": "Proved for all sequences of lookups. Finding: a workspace file created under a google/ path takes over the path's URI although the built-in text continues to be served, so definitions and references point into the wrong file."
  },
  {
   "property": "C66",
   "status": "partial",
   "theorems": [
    "C66_module_relative_import",
    "C66_cache_relative_import",
    "C66_located",
    "C66_not_local",
    "C66_known_path_kept",
    "C66_plain_workspace_refuted"
   ],
   "note": "Proved for files of the local Go module and of the module cache. Finding: for workspaces without a Go module the translated path is made relative to the importing file's directory again (803), i.e. it is the path that just failed, so such imports never resolve outside the root folder. The lookup through generated code (296-306) is not modelled."
  },
  {
   "property": "C67",
   "status": "partial",
   "theorems": [
    "C67_module_relative_package",
    "C67_import_paths_distinct",
    "C67_directive_ignored",
    "C67_outside_module_refuted"
   ],
   "note": "Proved inside the module. Findings: filepath.Rel succeeds for any two absolute paths, so the go_package option is never consulted while there is a module (the code after 563 is dead for such files), and files outside the module directory get an invented package."
  },
  {
   "property": "C68",
   "status": "partial",
   "theorems": [
    "C68_bare_name",
    "C68_match_exact",
    "C68_longest_match_partial",
    "C68_longest_match_refuted"
   ],
   "note": "That the result is such a place, and exists iff there is one: proved. Longest agreement proved when the import does not repeat its first component. Finding: append(append(sourceParts[:i], ...)) (867) overwrites the array being searched, so scores of later places are wrong and a worse place can win."
  },
  {
   "property": "C69",
   "status": "partial",
   "theorems": [
    "C69_change",
    "C69_change_as_asked_iff_partial",
    "C69_rename_refuted",
    "C69_reindex"
   ],
   "note": "Proved for every history, with the exact condition for folder changes (no folder both added and removed). Finding: removals are processed after additions (server.go:783-793), so a notification that removes and re-adds a folder, e.g. to rename it, drops the workspace."
  },
  {
   "property": "C70",
   "status": "partial",
   "theorems": [
    "C70_tasks_running",
    "C70_no_leak_iff_partial",
    "C70_leak_refuted"
   ],
   "note": "Proved: no cancel function is missing, served workspaces have their tasks, and the exact condition for the absence of leaks (no folder added while known). Finding: adding a known folder again overwrites its cancel function (server.go:83), so the old cache publishes diagnostics for ever, also after shutdown."
  },
  {
   "property": "C71",
   "status": "partial",
   "theorems": [
    "C71_open_documents_iff_partial",
    "C71_versions_partial",
    "C71_nothing_else_opened",
    "C71_unsaved_new_document_refuted",
    "C71_version_goes_back_refuted"
   ],
   "note": "Proved: exact condition for a document and its text to be kept, exact versions, nothing else is opened. Findings (commands.go:117-146): documents that are not on disk yet are dropped with their text; saved documents are reopened with the disk file's version (dv, 0 in the refutation as for gopls disk files), which is below the client's."
  },
  {
   "property": "C72",
   "status": "partial",
   "theorems": [
    "C72_no_concurrent_access_partial",
    "C72_symbol_during_reindex_refuted",
    "C72_shutdown_refuted"
   ],
   "note": "Proved for any number of requests except workspace/symbol and shutdown, which do not lock (server.go:857, 772). Since commands run concurrently with later requests (C20), a symbol search during a reindexing command can stop the process."
  },
  {
   "property": "C73",
   "status": "partial",
   "theorems": [
    "C73_links",
    "C73_short_dependencies_panic",
    "C73_read_only_iff_partial",
    "C73_read_only_refuted"
   ],
   "note": "Links: proved when the dependencies are those of the imports plus possibly the implicit one. Read-only: exact condition proved. Finding: append(dependencyPaths[:i], ...) (links.go:50, inlayhints.go:131) overwrites the compiled file's dependency list, under a read lock only, unless the implicit dependency is last; the file then lacks descriptor.proto and lists another import twice. With fewer dependencies than complete imports the request panics (proved)."
  },
  {
   "property": "C74",
   "status": "proved",
   "theorems": [
    "C74_hint_iff",
    "C74_hint_accepted"
   ],
   "note": "Full statement proved for imports on one line (given the documented convention that node end positions are exclusive)."
  },
  {
   "property": "C75",
   "status": "partial",
   "theorems": [
    "C75_local_file_partial",
    "C75_accepted",
    "C75_sibling_refuted"
   ],
   "note": "Proved except for the folder boundary. Finding: strings.HasPrefix(filename, workspaceRoot) (resolver.go:608) accepts files of a sibling folder whose name starts like the workspace folder."
  },
  {
   "property": "C76",
   "status": "partial",
   "theorems": [
    "C76_declared_exactly_if",
    "C76_declared_refuted"
   ],
   "note": "Exact condition proved. Findings: enum values whose name is a Go keyword or starts with an underscore, members of oneofs (generated as wrapper types), fields renamed because of a conflict (Reset, String, ...) and extensions declared inside messages (E_Outer_name) are never found."
  },
  {
   "property": "C77",
   "status": "partial",
   "theorems": [
    "C77_source_read",
    "C77_marked_files_kept",
    "C77_files_of_package",
    "C77_only_own_files_refuted",
    "C77_versions_never_recorded"
   ],
   "note": "Proved: the source line is read correctly; the files found are exactly the files of the package that carry the generated-code marker. Findings: the check is inverted (golang.go:133, !ok), so the source is compared only for files without a preamble, and all generated files of the package are returned; the versions in the preamble are never recorded (the inner loop starts at the '// versions:' line itself and stops there, golang.go:439)."
  },
  {
   "property": "C78",
   "status": "partial",
   "theorems": [
    "C78_symbol_exactly_if",
    "C78_symbol_refuted"
   ],
   "note": "Exact condition proved (paths of letters, digits, underscores, slashes and dots that start with a letter). Finding: for other paths, e.g. with a dash, the variable is not found (golang.go:294 replaces only slashes and dots)."
  },
  {
   "property": "C79",
   "status": "partial",
   "theorems": [
    "C79_unique_candidate",
    "C79_order_irrelevant",
    "C79_component_boundary_refuted"
   ],
   "note": "Proved for the textual suffix. Finding: the suffix is not matched at a component boundary (generated.go:173), so example.com/myapi is taken for directory api and makes example.com/api ambiguous."
  },
  {
   "property": "C80",
   "status": "partial",
   "theorems": [
    "C80_path_and_name",
    "C80_path_only",
    "C80_name_only",
    "C80_implicit",
    "C80_single_word_module_refuted"
   ],
   "note": "Proved except for modules whose path is a single word. Finding: then the implied path is taken for a package name (golang.go:106) and files of a differently named package are not found."
  },
  {
   "property": "C81",
   "status": "proved",
   "theorems": [
    "C81_output",
    "C81_only_blanks_lost",
    "C81_reports_everything"
   ],
   "note": ""
  },
  {
   "property": "C82",
   "status": "partial",
   "theorems": [
    "C82_panics_iff",
    "C82_blank_comment_refuted",
    "C82_nothing_iff",
    "C82_line_comments",
    "C82_block_comments"
   ],
   "note": "Proved for both styles. Finding: the comment that consists of two newlines (two empty // lines) makes the printer panic with an index out of range when it is printed inline or with multi-line style (print.go:2668); exact condition proved."
  },
  {
   "property": "C83",
   "status": "partial",
   "theorems": [
    "C83_exact",
    "C83_at_workspace",
    "C83_sublist",
    "C83_no_location",
    "C83_other_directory_refuted"
   ],
   "note": "Exact condition proved. Finding: existence is tested with the workspace-relative path (driver.go:234), i.e. relative to the current directory of the process, so the statement holds in the workspace folder only."
  },
  {
   "property": "C84",
   "status": "partial",
   "theorems": [
    "C84_from_directory",
    "C84_explicit_kept",
    "C84_consistent",
    "C84_meant_unique",
    "C84_order_refuted",
    "C84_other_package_refuted"
   ],
   "note": "Proved for directories whose files agree; always: no error means every file has a package taken from its directory. Findings: once a package has been inferred for a directory it is used for later files of other packages without a check (protogen.go:69), so the order of the files decides between an error and a wrong package."
  },
  {
   "property": "C85",
   "status": "partial",
   "theorems": [
    "C85_exact",
    "C85_name_refuted",
    "C85_named_refuted"
   ],
   "note": "Import path proved; exact condition for the name. Finding: the directory is compared by textual suffix (protogen.go:43), so go_package bar in directory foobar becomes package foobar; an option name;alias is mangled."
  },
  {
   "property": "C86",
   "status": "partial",
   "theorems": [
    "C86_no_panic",
    "C86_all_or_problems",
    "C86_two_packages",
    "C86_renamed_target_refuted",
    "C86_renamed_import_refuted",
    "C86_collision_refuted"
   ],
   "note": "Proved when targets are not renamed, restored names stay distinct and files whose name is original import only such files. Findings: each condition is needed: targets are looked up by the name before restoring (protogen.go:125), and protogen's error becomes a panic (protogen.go:135)."
  },
  {
   "property": "C87",
   "status": "partial",
   "theorems": [
    "C87_line",
    "C87_last_line",
    "C87_other",
    "C87_all",
    "C87_crash_refuted",
    "C87_dropped_refuted",
    "C87_last_character_refuted"
   ],
   "note": "Proved for single-line diagnostics on all lines but the last. Findings: a warning or error on an empty last line makes Compile panic (slice bounds, driver.go:164); the last character of a file without final newline is cut off; diagnostics over several lines are not reported (driver.go:112); exact conditions proved."
  },
  {
   "property": "C88",
   "status": "partial",
   "theorems": [
    "C88_exact",
    "C88_below",
    "C88_below_relative",
    "C88_neighbour_refuted",
    "C88_trailing_slash_refuted",
    "C88_two_places_refuted"
   ],
   "note": "Files below a search directory are generated if import directories are unambiguous. Findings: directories are compared by textual prefix (generator.go:125), so api includes apiv2 and an absolute directory with a trailing slash includes nothing; two places of one import directory are confused (generator.go:115)."
  },
  {
   "property": "C89",
   "status": "partial",
   "theorems": [
    "C89_beside_source",
    "C89_absolute",
    "C89_known",
    "C89_unknown",
    "C89_unknown_refuted",
    "C89_top_level_refuted"
   ],
   "note": "Proved for outputs named after the import directory of their source. Findings: with another go_package, and for sources without directory, the path is relative to the current directory (generator.go:178-184; the key of such sources is \".\", that of the output \"\")."
  },
  {
   "property": "C90",
   "status": "partial",
   "theorems": [
    "C90_single",
    "C90_never_ends",
    "C90_reader_refuted"
   ],
   "note": "False for every content (C90_never_ends): Read keeps no position and never reports the end (generator.go:41), so io.ReadAll and io.Copy never finish."
  },
  {
   "property": "C91",
   "status": "partial",
   "theorems": [
    "C91_batch",
    "C91_streaming_refuted"
   ],
   "note": "Proved for plugins that read the whole request before they answer. Finding: the request is written completely before the response is read (generator.go:71-79), so a plugin that answers while it reads deadlocks on requests larger than the pipes, for every capacity."
  },
  {
   "property": "C92",
   "status": "partial",
   "theorems": [
    "C92_exact",
    "C92_unmarked",
    "C92_sound",
    "C92_once",
    "C92_marker_refuted",
    "C92_overlap_refuted",
    "C92_missing_refuted",
    "C92_vendor_refuted"
   ],
   "note": "Exact characterisation proved; the full statement for a single existing root without markers. Findings: a marker only hides what sorts after it (search.go:36); overlapping roots give duplicates; a missing root panics on a nil entry (search.go:20); a root named vendor or node_modules is skipped."
  },
  {
   "property": "C93",
   "status": "proved",
   "theorems": [
    "C93_deepest",
    "C93_found",
    "C93_not_empty",
    "C93_source_order",
    "C93_skipped_subtree"
   ],
   "note": "Full statement proved; the walker's range filter is an arbitrary predicate."
  },
  {
   "property": "C94",
   "status": "partial",
   "theorems": [
    "C94_deepest",
    "C94_first",
    "C94_found",
    "C94_half_open",
    "C94_closed",
    "C94_rpc_body_never",
    "C94_innermost_refuted"
   ],
   "note": "Proved for what the visitor records: the first deepest candidate; half-open intervals for closed declarations, closed intervals otherwise. Finding: the condition for rpcs repeats Semicolon != nil (search.go:712), so an rpc with a body is never the result and a cursor in it finds the service instead."
  },
  {
   "property": "C95",
   "status": "partial",
   "theorems": [
    "C95_accepted",
    "C95_name_check",
    "C95_identifier_partial",
    "C95_identifier_refuted",
    "C95_taken"
   ],
   "note": "Proved: accepted names are free, keep the scope, and consist of identifiers separated by dots; without dots they are identifiers. Finding: only the joined full name is checked (rename.go:94), so a new name with dots is accepted and written into every reference."
  },
  {
   "property": "C96",
   "status": "partial",
   "theorems": [
    "C96_local",
    "C96_all_or_nothing",
    "C96_renamed_partial",
    "C96_rpc_refuted",
    "C96_skipped_refuted"
   ],
   "note": "Proved for every workspace without qualified rpc types. Findings: the range of an rpc's request or response type includes its qualification (rename.go:165), which the edit removes; a reference whose last component has no valid position, or a field reference with another kind of name, is silently left (rename.go:127-147)."
  },
  {
   "property": "C97",
   "status": "partial",
   "theorems": [
    "C97_resolves_partial",
    "C97_captured_refuted",
    "C97_capturing_refuted"
   ],
   "note": "Proved exactly when: a simple reference still resolves to the symbol if and only if no scope between has a member of the new name. Findings: only the symbol's own scope is checked (rename.go:99), so inner declarations capture renamed references and the renamed symbol captures references to outer ones."
  },
  {
   "property": "C98",
   "status": "proved",
   "theorems": [
    "C98_offered",
    "C98_not_offered",
    "C98_offer_kept"
   ],
   "note": "Full statement proved."
  },
  {
   "property": "C99",
   "status": "partial",
   "theorems": [
    "C99_package_references",
    "C99_once",
    "C99_compound_checked",
    "C99_simple_unchecked_refuted",
    "C99_symmetric_refuted",
    "C99_hover"
   ],
   "note": "Exact result proved for indexes that search by component. Findings: the relation is not symmetric (package foo; is found from foo.a but not the other way round, packages.go:57); simple names are not compared at all in a prefix search (packages.go:98), compound ones are."
  },
  {
   "property": "C100",
   "status": "proved",
   "theorems": [
    "C100_symbol",
    "C100_located",
    "C100_count",
    "C100_package"
   ],
   "note": "Full statement proved; the search for the references itself is C50."
  },
  {
   "property": "C101",
   "status": "partial",
   "theorems": [
    "C101_sound",
    "C101_complete_partial",
    "C101_types_shown",
    "C101_oneof_refuted",
    "C101_group_refuted",
    "C101_ranges"
   ],
   "note": "Proved: what is shown is a sublist of what is declared; equal for files without oneofs, groups and unfinished fields; types are always shown unless in groups; ranges nest. Findings: fields of oneofs (symbols.go:161) and groups with everything in them are missing."
  },
  {
   "property": "C102",
   "status": "partial",
   "theorems": [
    "C102_offered",
    "C102_package",
    "C102_outside_refuted"
   ],
   "note": "Proved except the last part. Finding: the package lens includes files outside of the workspace (codelens.go:44), for which the command then writes files next to them."
  },
  {
   "property": "C103",
   "status": "partial",
   "theorems": [
    "C103_decoded",
    "C103_whole",
    "C103_not_decoded",
    "C103_wrapped_refuted"
   ],
   "note": "Round trip proved for all four encodings. Finding: base64 broken into lines, as base64(1) prints it, is not decoded (decode.go:181) and read as a binary message."
  },
  {
   "property": "C104",
   "status": "partial",
   "theorems": [
    "C104_unchanged_iff",
    "C104_white_space",
    "C104_space_lost",
    "C104_unchanged_refuted",
    "C104_digits_refuted",
    "C104_no_input"
   ],
   "note": "The exact condition is proved; the statement itself is false. Findings: every message that starts or ends with a byte that is white space is cut (decode.go:192), among them every message that starts with a length-delimited field 1 (tag 0x0A); a message all of whose bytes are base64 digits is decoded as base64."
  },
  {
   "property": "C105",
   "status": "partial",
   "theorems": [
    "C105_full_name",
    "C105_last_name",
    "C105_otherwise",
    "C105_any_case",
    "C105_found_iff",
    "C105_any_order",
    "C105_fallback_refuted",
    "C105_listed",
    "C105_inner_refuted",
    "C105_inner_other_refuted",
    "C105_full_name_file"
   ],
   "note": "Proved for messages not declared in others, except the last part. Findings: messages declared in others are not among those chosen from (pkg/lsp/externalapi.go:89-95), so the full name of one is not found or selects another message that contains it; the help text promises the wire format for unknown types, the command fails instead."
  },
  {
   "property": "C106",
   "status": "partial",
   "theorems": [
    "C106_formatted_partial",
    "C106_any_moment",
    "C106_twice_refuted"
   ],
   "note": "Proved for files named once; at any moment before the end a file is old, formatted, or formatted with an old ending. Finding: a file named twice can be damaged although both goroutines succeed."
  },
  {
   "property": "C107",
   "status": "partial",
   "theorems": [
    "C107_links",
    "C107_crash_iff",
    "C107_other_name_refuted",
    "C107_kept_iff",
    "C107_kept_refuted"
   ],
   "note": "Links proved for all histories; exact conditions for the rest. Findings: removing the implicit descriptor.proto with append (links.go:50) overwrites the file descriptor's own list under the read lock, so the dependency is lost and the last one duplicated; an import that resolves to google/protobuf/descriptor.proto under another name makes both requests crash."
  },
  {
   "property": "C108",
   "status": "proved",
   "theorems": [
    "C108_hints",
    "C108_shown_iff",
    "C108_accept",
    "C108_reads"
   ],
   "note": "Full statement proved, for literals of one piece in lines where columns are characters."
  },
  {
   "property": "C109",
   "status": "partial",
   "theorems": [
    "C109_undisturbed_partial",
    "C109_latest_partial",
    "C109_only_formatted",
    "C109_erased_refuted"
   ],
   "note": "Proved while no change is under way, and always: nothing but the formatted form of some earlier text is written. Finding: the check, the text and the syntax tree are read at three moments without a common lock, so a change in between makes edits that take back what was typed (schedules that allow it: C20)."
  },
  {
   "property": "C110",
   "status": "partial",
   "theorems": [
    "C110_words_partial",
    "C110_tokens_partial",
    "C110_leading_dot_refuted",
    "C110_dropped_option_refuted",
    "C110_two_packages_refuted"
   ],
   "note": "Proved for all trees but those the formatter gets wrong. Findings: the leading dot of an unlabelled field type is written twice; options after a string of several literals are dropped when the list stays on one line; of several package declarations only the last is kept. The 16 unit tests of the formatter are replayed in FormatTree/Cases.v."
  },
  {
   "property": "C111",
   "status": "partial",
   "theorems": [
    "C111_no_crash_partial",
    "C111_crash_refuted",
    "C111_error_refuted",
    "C111_uneven_refuted",
    "C111_no_error_partial"
   ],
   "note": "No crash is proved for the trees of C110. Findings: a last multi-line compact option that is a string of several literals without a trailing comma dereferences a nil comma; two strings of several literals in a one-line message literal make Format report an indentation error for a valid file, and so do two nested literals of which one starts its lines deeper than the other. No other file is refused: when the literals of each declaration break into lines at one depth there is no error and the indentation ends at the margin."
  },
  {
   "property": "C112",
   "status": "partial",
   "theorems": [
    "C112_comments_kept_partial",
    "C112_method_comment_refuted",
    "C112_empty_comment_refuted",
    "C112_method_end_refuted",
    "C112_brace_end_refuted",
    "C112_option_value_refuted",
    "C112_option_dot_refuted",
    "C112_doubled_refuted"
   ],
   "note": "Proved: a comment outside the places listed in CommentSpec.file_lost is shown in the output (a comment with the same content is in the text). Findings, each a refutation: lost are the comments inside the braces of a method without options, the comment after a method without options (`rpc A(B) returns (C); // x`), comments of empty declarations, the comment after a semicolon that follows a closing brace, comments around the one-token value of an option, comments after a dot of an option name. A comment after an option name in a list over several lines is written twice, and doubles again every time the file is formatted."
  },
  {
   "property": "C113",
   "status": "partial",
   "theorems": [
    "C113_names_partial",
    "C113_declares_partial",
    "C113_same_text_partial",
    "C113_infinity_refuted",
    "C113_nan_refuted",
    "C113_rounding_refuted",
    "C113_keyword_refuted",
    "C113_edition_refuted",
    "C113_reserved_refuted"
   ],
   "note": "Proved for all admissible descriptors, and the names printed resolve in the scope where the language begins to look exactly if nothing further in shadows them; each condition has a computed counterexample. Findings: infinite defaults print as +Inf and do not parse; NaN prints as an unknown identifier; numbers are rounded to six digits after the point; a message named like a statement cannot be a bare field type; editions print a syntax statement naming none; enum reserved ranges lose their last number."
  },
  {
   "property": "C114",
   "status": "proved",
   "theorems": [
    "C114_apart"
   ],
   "note": "Full statement proved, for the modelled part (no source information)."
  },
  {
   "property": "C115",
   "status": "partial",
   "theorems": [
    "C115_first_value_refuted",
    "C115_first_value_partial"
   ],
   "note": "False in general: values are sorted by number, so an enum whose first value is not the least gets another default (and, in proto3, a first value other than zero). Proved for the top-level enums whose first value is the least and that sort by insertion."
  },
  {
   "property": "C116",
   "status": "proved",
   "theorems": [
    "C116_file",
    "C116_call",
    "C116_served"
   ],
   "note": "Full statement proved under grpc-go's contract for Invoke, NewStream and RegisterService (Grpc/Spec.v)."
  },
  {
   "property": "C117",
   "status": "partial",
   "theorems": [
    "C117_distinct_partial",
    "C117_new_refuted",
    "C117_unsafe_refuted",
    "C117_underscore_refuted",
    "C117_stream_refuted",
    "C117_case_refuted",
    "C117_own_refuted",
    "C117_refuted"
   ],
   "note": "False in general; proved with generic streams when Go names are distinct, have no underscore in service names and none is another after New, Register, Unimplemented or Unsafe. Findings: services Foo and NewFoo, A{B_C} and A_B{C}, A{stream B} and A_B, methods get and Get, and without generic streams Foo{stream Bar} and FooBar, give Go code that does not compile."
  },
  {
   "property": "C118",
   "status": "proved",
   "theorems": [
    "C118_client",
    "C118_server",
    "C118_fits",
    "C118_streams"
   ],
   "note": "Full statement proved for the modelled declarations."
  },
  {
   "property": "C119",
   "status": "partial",
   "theorems": [
    "C119_name_partial",
    "C119_in_group_refuted",
    "C119_in_group_fails_refuted",
    "C119_oneof_group_refuted",
    "C119_ext_group_refuted",
    "C119_map_refuted"
   ],
   "note": "Proved for all names but those the search gets wrong. Findings: messages in a group are looked up by name in the file, so another message of that name, or none, is found; groups in oneofs or extend blocks are not found; the name of a map field whose value type is a top-level message of a file without package gives that message."
  },
  {
   "property": "C120",
   "status": "partial",
   "theorems": [
    "C120_type_partial",
    "C120_scalar",
    "C120_method",
    "C120_key",
    "C120_extendee",
    "C120_map_enum_refuted",
    "C120_map_message_refuted",
    "C120_nested_extendee_refuted"
   ],
   "note": "Proved for message types everywhere the name of the field is found, for enums except as map values, for methods, keys and top-level extendees. Findings: an enum that is the value of a map is not found; in a file without package neither is a message; the extendee of a nested extend block is found only if written with its full name."
  },
  {
   "property": "C121",
   "status": "partial",
   "theorems": [
    "C121_new",
    "C121_plain_partial",
    "C121_extension_partial",
    "C121_shown",
    "C121_no_parentheses_refuted",
    "C121_blanks_refuted",
    "C121_not_closed_refuted",
    "C121_literal_refuted",
    "C121_field_refuted"
   ],
   "note": "Proved where no name is typed, for fields replacing plain names, and for extensions replacing names in parentheses, with the cursor anywhere. Findings: an extension taken for a name typed without parentheses is inserted without them; blanks inside parentheses, an unclosed one, brackets of a message literal and fields offered for a name in parentheses give wrong text."
  },
  {
   "property": "C122",
   "status": "partial",
   "theorems": [
    "C122_fields_partial",
    "C122_preselected",
    "C122_keyword",
    "C122_extensions_partial",
    "C122_parentheses",
    "C122_no_extensions",
    "C122_again_refuted",
    "C122_extension_again_refuted",
    "C122_gogo_refuted",
    "C122_oneof_refuted"
   ],
   "note": "Proved: the exact set of fields given what is known to be set, exactly the settable ones after the keyword, and the exact set of extensions. Findings: once a letter of the name is typed, options already set are offered again; extensions already set always are; those of gogoproto are hidden; other members of a oneof that is set are offered in message literals."
  },
  {
   "property": "C123",
   "status": "partial",
   "theorems": [
    "C123_element_partial",
    "C123_file",
    "C123_method_refuted",
    "C123_oneof_refuted",
    "C123_value_refuted",
    "C123_map_refuted",
    "C123_group_refuted",
    "C123_brackets_refuted"
   ],
   "note": "Proved for messages, fields, extensions, enums, services and files, wherever C119 holds. Findings: inside an rpc the options of the file are offered, in a oneof or at a map field those of the message, at an enum value those of the enum; in a group the options set on the message around it count; in empty brackets of a field, the fields of its type are offered instead of options."
  },
  {
   "property": "C124",
   "status": "partial",
   "theorems": [
    "C124_visible",
    "C124_others_kept",
    "C124_acyclic_partial",
    "C124_cycle_refuted",
    "C124_statement_partial",
    "C124_statement_refuted"
   ],
   "note": "Proved, except that a name declared in a file that imports this one, directly or not, is offered, and accepting it makes an import cycle (the theorem says exactly when); the path is written without escaping."
  },
  {
   "property": "C125",
   "status": "partial",
   "theorems": [
    "C125_packages_partial",
    "C125_ascending",
    "C125_root_refuted",
    "C125_empty_refuted"
   ],
   "note": "Proved for files whose path starts with their directory. Findings: at the root of the tree the directory is '.', no path starts with it, and nothing is offered; a file without a package makes the empty name an offer."
  },
  {
   "property": "C126",
   "status": "partial",
   "theorems": [
    "C126_text",
    "C126_qualified",
    "C126_declared",
    "C126_others",
    "C126_comment_refuted"
   ],
   "note": "Proved, except for comments: one that stands behind the last token on its line ends up behind the new message. Offered only for unqualified names."
  },
  {
   "property": "C127",
   "status": "partial",
   "theorems": [
    "C127_lines",
    "C127_alone_partial",
    "C127_neighbour_refuted",
    "C127_broken_refuted",
    "C127_greyed",
    "C127_severity"
   ],
   "note": "Proved: exactly the lines the statement touches are deleted, so the claim holds if it is alone on them. Findings: another import or the beginning of a declaration on those lines is deleted too, which may leave a file that does not parse."
  },
  {
   "property": "C128",
   "status": "partial",
   "theorems": [
    "C128_told",
    "C128_on_disk",
    "C128_refused_partial",
    "C128_created_refuted",
    "C128_moved_refuted"
   ],
   "note": "Proved for every notification that is not refused; changes of watched files never are. Findings: a creation, deletion or renaming is refused as a whole if one file is in no workspace, so the others are not heard of, and a file moved into or out of the workspace is not noticed."
  },
  {
   "property": "C129",
   "status": "partial",
   "theorems": [
    "C129_created_partial",
    "C129_deleted_partial",
    "C129_renamed_partial",
    "C129_deleted_refuted",
    "C129_renamed_refuted",
    "C129_two_renamed_refuted"
   ],
   "note": "Proved for any number of creations, one deletion, one renaming. Findings: the paths of deleted files are forgotten before they are looked up (documents.go:62, 69), and unresolved events are removed by stale indices (89-91): deleting two or more files at a time always panics, so does renaming three or more; renaming two applies the wrong event."
  },
  {
   "property": "C130",
   "status": "partial",
   "theorems": [
    "C130_shows_partial",
    "C130_cut",
    "C130_comments_partial",
    "C130_fence_partial",
    "C130_map_refuted",
    "C130_oneof_refuted",
    "C130_group_refuted",
    "C130_fence_refuted",
    "C130_around",
    "C130_nothing"
   ],
   "note": "Proved for declarations other than maps, oneofs and groups whose text has no line that ends the block; such a line can only start inside a block comment or a literal. Findings: hovering over a map field, a oneof or a group shows the message around it; a block comment with a line of three backquotes ends the code before the declaration. Not modelled: which declaration the cursor's name stands for (C119, C120)."
  },
  {
   "property": "C131",
   "status": "partial",
   "theorems": [
    "C131_roles",
    "C131_shown_partial",
    "C131_linked_partial",
    "C131_option_value",
    "C131_field_value",
    "C131_url_refuted",
    "C131_special_refuted",
    "C131_list_refuted",
    "C131_lines_refuted",
    "C131_library_refuted",
    "C131_library",
    "C131_float_value",
    "C131_library_marks"
   ],
   "note": "Proved as a permutation for every tree without results of the linker, up to slashes of type URLs; with them, only values of fields and options are reported besides. Findings: the slash of a type URL is reported as type and as operator; inf and nan as a field's value and booleans in lists are reported twice; a name over two lines is one item whose length is computed from columns and may be negative; a type is marked as library if its name merely contains google.protobuf. . Not modelled: CEL expressions, incomplete nodes."
  },
  {
   "property": "C132",
   "status": "partial",
   "theorems": [
    "C132_comments_partial",
    "C132_linked_partial",
    "C132_no_other",
    "C132_end_refuted",
    "C132_value_refuted",
    "C132_dot_refuted"
   ],
   "note": "Proved up to exact lists of what is missed and doubled, and that nothing else is reported. Findings: comments at the end of a file, at names that are values, inside names and at tokens the parser inserted are not highlighted; comments before a type that starts with a dot, and at the brackets and slashes of field names, are reported twice."
  },
  {
   "property": "C133",
   "status": "partial",
   "theorems": [
    "C133_words_partial",
    "C133_comments_partial",
    "C133_keyword_refuted",
    "C133_tag_refuted",
    "C133_end_refuted"
   ],
   "note": "Proved for messages whose literals do not go on over the end of a line and which the formatter writes back (see C110); comments up to an exact list. Findings: a comment between the keyword 'message' and the name is lost; a comment at a field's number is lost; a comment after the closing brace is doubled, since the replaced range ends at the brace but the printed text has the comment."
  },
  {
   "property": "C134",
   "status": "partial",
   "theorems": [
    "C134_words_partial",
    "C134_comments_partial",
    "C134_tag_refuted"
   ],
   "note": "Proved as C133. The names in types of moved fields are given by the resolver of names (a parameter that keeps the form of a name). Comments at the numbers of moved fields are lost, and those at their types may be (C144 says what the types mean). Which fields a selection chooses is C59. Not modelled: edits that clients apply differently from the order given."
  },
  {
   "property": "C135",
   "status": "partial",
   "theorems": [
    "C135_words_partial",
    "C135_comments_partial",
    "C135_comment_refuted"
   ],
   "note": "Proved as C133. Finding: the comments of the inlined field are lost, and the new fields have none. Labels and options of the inlined fields are those the code writes (see C27)."
  },
  {
   "property": "C136",
   "status": "partial",
   "theorems": [
    "C136_covers_partial",
    "C136_others",
    "C136_unparsed",
    "C136_escape_refuted",
    "C136_blank_refuted",
    "C136_number_refuted"
   ],
   "note": "Proved for strings without escape sequences, of which none (of several) begins with a blank, and for numbers and strings written as they are printed. Findings: each escape sequence shifts what follows (and backslashes are doubled before parsing, 912); a string that begins with a blank is shifted by the blanks that are trimmed (904); numbers such as 0x20 or 1u are covered in part. Elements inserted by macros of CEL are outside of the parser's contract."
  },
  {
   "property": "C137",
   "status": "partial",
   "theorems": [
    "C137_no_panic_partial",
    "C137_line_break_refuted",
    "C137_no_string_refuted",
    "C137_no_name_refuted"
   ],
   "note": "Proved for literals whose fields have names and whose expressions are strings without line breaks. Findings: a string that contains an escaped line break before an operator, identifier or literal indexes the strings out of range (936 and others); an expression that is no string (expression: 5) panics at 916 since the empty text does not parse; a field without a name before the expression panics at 885, although the caller checks for it (604)."
  },
  {
   "property": "C138",
   "status": "partial",
   "theorems": [
    "C138_imports_partial",
    "C138_fresh_partial",
    "C138_versions_partial",
    "C138_same_line_refuted",
    "C138_single_quotes_refuted",
    "C138_lost_refuted"
   ],
   "note": "Proved for paths in double quotes that are the first on their line. Findings: with another import before it on the line nothing is offered, since the first quotation mark of the line is taken for that of the path (424); in single quotes no file is offered, but the keyword public is, within the path; with no path yet and another import after it on the line, accepting a file removes what stands between."
  },
  {
   "property": "C139",
   "status": "partial",
   "theorems": [
    "C139_elements_partial",
    "C139_all_partial",
    "C139_missing_refuted",
    "C139_group_refuted",
    "C139_editions_refuted",
    "C139_declarations_partial",
    "C139_syntax_refuted"
   ],
   "note": "Proved both ways at the top level of files with a syntax; in messages of proto3 that what is offered may stand there, and for all that it is offered but for four words. Findings: oneof, map and extensions are never offered; group is offered as the beginning of an element; files with an edition are taken for proto2, so required and group are offered in messages and a syntax at the top."
  },
  {
   "property": "C140",
   "status": "partial",
   "theorems": [
    "C140_values_partial",
    "C140_absent",
    "C140_after_refuted",
    "C140_list_refuted"
   ],
   "note": "Proved for a cursor within or at the end of the value. Findings: with the cursor after the value the part that is replaced is shifted, so that the beginning of the value stays (tr becomes trtrue); within a list nothing is offered."
  },
  {
   "property": "C141",
   "status": "partial",
   "theorems": [
    "C141_fields_partial",
    "C141_extension_refuted"
   ],
   "note": "Proved for literals that are values of messages. Finding: in the literal of an extension the fields are written like options, name = value, which does not parse, and fields that are set are offered again (176-186)."
  },
  {
   "property": "C142",
   "status": "partial",
   "theorems": [
    "C142_before_partial",
    "C142_extension_partial",
    "C142_after_partial",
    "C142_on_part",
    "C142_fields_refuted",
    "C142_eaten_refuted",
    "C142_middle_refuted"
   ],
   "note": "Proved for parts that do not follow an extension, for the extension that begins a name, and after the last dot. Findings: after an extension in parentheses the parentheses of that extension are taken for those of the part at the cursor (part is nodeChildren[i-3], 318 and 347), so that the fields of a message with extension ranges are not offered and extensions are written over the text to the left; after a dot that is not the last (a. |b) the fields of the type of the next part are offered."
  },
  {
   "property": "C143",
   "status": "partial",
   "theorems": [
    "C143_field_partial",
    "C143_extendee_partial",
    "C143_panic_refuted",
    "C143_blanks_refuted"
   ],
   "note": "Proved for names written without blanks. Findings: completing the extendee of 'extend foo . bar' after its name panics with slice bounds out of range (473), since offsets in the text index the name without blanks; for a field's type written so, the end of the name stays behind."
  },
  {
   "property": "C144",
   "status": "partial",
   "theorems": [
    "C144_messages_partial",
    "C144_top_level_partial",
    "C144_others_partial",
    "C144_enum_refuted",
    "C144_delimited_refuted",
    "C144_hidden_refuted",
    "C144_new_name_refuted",
    "C144_scalar_refuted"
   ],
   "note": "Exact condition proved for types that are messages (no scope in between declares the first part of the shortened name, and it is not the name of a scalar); unconditional but for scalars for messages that are not nested and types of their package; types of other kinds keep their meaning unless the old message declares the name. Findings: enums declared in the old message are not found from the new one, nor are messages with delimited encoding (refactor.go:551 looks at MessageKind only); the dot in front of full names is dropped, so that a nearer declaration is found; a nested new message may have the name of a type that is used in it, which is then recursive."
  },
  {
   "property": "C145",
   "status": "partial",
   "theorems": [
    "C145_scalars",
    "C145_names_partial",
    "C145_hidden_refuted",
    "C145_label_refuted",
    "C145_map_refuted",
    "C145_group_refuted"
   ],
   "note": "Proved for scalars that are neither repeated nor required; exact condition for messages and enums. Findings: repeated and required fields lose their label (730-733); map fields become single fields of the type of their entries, which cannot be referred to; groups become fields of a type called group (746); a type declared in the enclosing message hides the type meant."
  },
  {
   "property": "C146",
   "status": "partial",
   "theorems": [
    "C146_same_lines_partial",
    "C146_third_partial",
    "C146_settled_partial",
    "C146_joined_refuted",
    "C146_options_refuted",
    "C146_map_refuted",
    "C146_start_refuted"
   ],
   "note": "False: four refutations. A field broken over lines is joined by the first formatting and only aligned by the second; the same for the type of a map; a field that began on the last line of the options of the one before it is aligned with it only the first time; several empty lines at the start become one and then none. Proved, for files in the formatter's order without comments and without message or list literals: the second formatting leaves every word on its line; the third changes nothing; and one formatting that moves no word to another line is final. Missing: comments (which can double for ever, C112_doubled_refuted), message and list literals."
  },
  {
   "property": "C147",
   "status": "partial",
   "theorems": [
    "C147_absolute",
    "C147_qualified",
    "C147_own_package",
    "C147_other_package",
    "C147_captured_refuted",
    "C147_package_captured_refuted"
   ],
   "note": "Unconditional when what was typed begins with a dot. Otherwise proved with the exact condition: no scope between the place of use and the package (for types of the same package), or none at all (for full names), declares something with the first name of what is written. Findings: in a message that declares T, the type T of the package is offered as T, which means the nested one; and a full name whose first package is also declared in an enclosing scope is not found."
  },
  {
   "property": "C148",
   "status": "partial",
   "theorems": [
    "C148_types",
    "C148_shown",
    "C148_once",
    "C148_extendees_proto2",
    "C148_extendees_proto3",
    "C148_own_package",
    "C148_qualified",
    "C148_nested_refuted",
    "C148_relative_refuted",
    "C148_absolute_refuted",
    "C148_no_package_refuted"
   ],
   "note": "The set offered is characterised exactly; types of the file's package by their names in it and all types of packages by their full names are offered. Findings: a nested type is not offered by its short name inside the message that declares it; after 'M.' nothing is offered for types nested in M; a name with a leading dot is not continued behind the package ('.a.' offers nothing); types of files without a package are never offered. In proto3 all nine kinds of options are offered as extendees whatever was typed."
  },
  {
   "property": "C149",
   "status": "partial",
   "theorems": [
    "C149_fitting_partial",
    "C149_once",
    "C149_effect",
    "C149_unversioned_refuted",
    "C149_reopened_refuted",
    "C149_only_resolved",
    "C149_not_resolved_refuted"
   ],
   "note": "Proved for clients that resolve edits, in every history in which no document is opened a second time. Findings: clients without the resolve capability for edits get changes without a version (server.go:869), which go into a text they were not computed for; after a document is closed and opened again the versions start anew and an old edit is accepted; refactorings are offered also to clients that do not resolve actions, where they do nothing."
  },
  {
   "property": "C150",
   "status": "partial",
   "theorems": [
    "C150_deadly",
    "C150_session",
    "C150_refuted"
   ],
   "note": "False; the messages that end the process are characterised exactly. Findings (commands.go:84-210): a command that takes an argument without one; 'protols/generate' with an empty list; any command, also one that does not exist, whose 'uri' is no string, whose 'uris' does not begin with a string or whose 'workspace' lacks a string for its URI or its name. The panic is in a goroutine without recover (handler.go:81), so that the server ends."
  },
  {
   "property": "C151",
   "status": "partial",
   "theorems": [
    "C151_workspace",
    "C151_generate_partial",
    "C151_split_refuted",
    "C151_others_refuted",
    "C151_folder",
    "C151_document"
   ],
   "note": "Proved: what is not registered does nothing; the workspace is that of 'uri', else of the first of 'uris', else 'workspace' (by URI, whatever the name); the files are those listed if no other member is read as the list. Findings: the workspace is looked up by the exact member name but files are read from a member of any case, and a 'uri' takes precedence, so that files and workspace need not go together; the first file decides for all."
  },
  {
   "property": "C152",
   "status": "partial",
   "theorems": [
    "C152_no_other",
    "C152_near",
    "C152_all_partial",
    "C152_end_refuted",
    "C152_end"
   ],
   "note": "Proved for ranges that begin and end on a token; the first half for every range. Finding (under the contract that TokenAtOffset gives TokenError = -1 for an offset that is on no token): a range that ends between tokens, for example at the end of a line, gives no tokens at all. What begins exactly at the end of the range is included."
  },
  {
   "property": "C153",
   "status": "partial",
   "theorems": [
    "C153_hints_partial",
    "C153_once",
    "C153_end_refuted",
    "C153_end"
   ],
   "note": "Proved for ranges that begin and end on a token. Finding, as for C152: a range that ends between tokens, such as one that ends at the end of a line of the screen, gives no hints."
  },
  {
   "property": "C154",
   "status": "partial",
   "theorems": [
    "C154_no_crash_partial",
    "C154_crash_iff",
    "C154_new_file_refuted",
    "C154_folder_refuted"
   ],
   "note": "Proved for documents that are opened in a workspace that knows the file and stay in it while they are open, with the exact condition for a crash. Findings (under the contract that UpdateOverlays gives an error for an edit of a document without an overlay, upon which documents.go:93 panics): opening a file whose path is not known yet is dropped without an overlay (documents.go:69-77), so that once a watcher reports the file as created the next edit, save or close ends the server; and the same for a document that is open while its folder is added to the workspace."
  },
  {
   "property": "C155",
   "status": "partial",
   "theorems": [
    "C155_folders",
    "C155_text_partial",
    "C155_closed",
    "C155_saved",
    "C155_told",
    "C155_discarded_refuted",
    "C155_replaced_refuted",
    "C155_ghost_refuted"
   ],
   "note": "Proved for open documents whose file is not deleted meanwhile (and whose Go module stays), with changes that are applied as the protocol says (C06); for closed ones that were saved or whose change the server is told of. Findings: closing without saving compiles nothing (documents.go:79), so that results and diagnostics stay those of the text that was thrown away while positions are read in the file; what is typed between the deletion and the creation of the file on disk is dropped, and the texts differ ever after; closing a document whose file was deleted is dropped too, so that its overlay stays and a new file of that name is taken to have the old text."
  },
  {
   "property": "C156",
   "status": "partial",
   "theorems": [
    "C156_definition_partial",
    "C156_only_current",
    "C156_no_source",
    "C156_file",
    "C156_file_no_source",
    "C156_references",
    "C156_recompiled_refuted",
    "C156_recompiled",
    "C156_syntax_error_refuted"
   ],
   "note": "Proved when the declaring file is not compiled between the steps of the request, for the places C119 and C120 cover. Findings: the lock is given back between finding the descriptor and finding its node (server.go:297-306), and nodes are looked up by the identity of the old result's descriptors, so any compilation of the declaring file in between, even of the same text, makes the request fail; a document with a syntax error that had linked before makes every request for it panic (see C08)."
  },
  {
   "property": "C157",
   "status": "partial",
   "theorems": [
    "C157_place",
    "C157_range_partial",
    "C157_point",
    "C157_has_line",
    "C157_quoted",
    "C157_range_refuted",
    "C157_unknown_refuted"
   ],
   "note": "Exact condition proved, under the contract that the parser's columns count bytes: the range is right iff there are only ASCII characters before its ends on their lines (and for any other way of counting, iff it counts UTF-16 units). Findings: after any other character on the line every range is shifted to the right; a report without a position has line and column 4294967295."
  },
  {
   "property": "C158",
   "status": "partial",
   "theorems": [
    "C158_names_partial",
    "C158_type_partial",
    "C158_names_refuted",
    "C158_fails_refuted",
    "C158_crash_refuted"
   ],
   "note": "Proved when only ASCII characters come before the name on its line. Findings: byte columns are read back as UTF-16 columns (completion.go:1522, 376, 470), so after another character on the line the wrong text is taken for what is typed or the request fails, and at the start of a field's type the slice index is negative (382), a panic."
  },
  {
   "property": "C159",
   "status": "partial",
   "theorems": [
    "C159_reported_partial",
    "C159_all_partial",
    "C159_fails",
    "C159_succeeds",
    "C159_read",
    "C159_lines_refuted",
    "C159_lines"
   ],
   "note": "Proved for diagnostics within one line that a line feed ends; the exit status for all. Finding: of a diagnostic that spans several lines nothing is printed (driver.go:115), so that the check can fail without a message."
  },
  {
   "property": "C160",
   "status": "partial",
   "theorems": [
    "C160_crash_iff",
    "C160_fails_iff",
    "C160_crash_refuted",
    "C160_empty_refuted",
    "C160_unknown_refuted"
   ],
   "note": "Exact conditions proved for both. Findings: an error or warning in the empty line after the last line feed (as for a missing closing brace at the end of the file) or in an empty file makes the slice driver.go:166 go out of range, a panic; a diagnostic without a position (line 4294967295, C157) makes Compile fail with an error, and no message of any document is printed."
  },
  {
   "property": "C161",
   "status": "partial",
   "theorems": [
    "C161_highlight_partial",
    "C161_head",
    "C161_last_line",
    "C161_last_line_refuted"
   ],
   "note": "Proved for every text within a line that a line feed ends: byte columns are read as such here, so that other characters do no harm (unlike C157). Finding: of a last line without a line feed the last character is cut off (endPos-1), and a problem that reaches it is not marked, but the whole line."
  },
  {
   "property": "C162",
   "status": "partial",
   "theorems": [
    "C162_element_partial",
    "C162_block_partial",
    "C162_row_partial",
    "C162_spaced",
    "C162_block_spaced",
    "C162_options_partial",
    "C162_detached",
    "C162_default",
    "C162_same_line",
    "C162_fails_iff",
    "C162_fields",
    "C162_owner_refuted",
    "C162_option_owner_refuted"
   ],
   "note": "Proved that the declaration is outside of the comments, that every comment is there with all its lines and in its place, the empty line after detached comments and that one-line trailing comments stay on the line; exact condition for the crash (a comment of two line ends within a line). Missing and refuted: with the server's printer a trailing comment of several lines of one field is printed as the leading comment of the next field, and so is every trailing comment of an option in brackets, since the comma is written before it (print.go:1702-1708)."
  },
  {
   "property": "C163",
   "status": "partial",
   "theorems": [
    "C163_order",
    "C163_top",
    "C163_numbers",
    "C163_declarations",
    "C163_kinds_partial",
    "C163_source_refuted",
    "C163_unlocated_refuted",
    "C163_mixed_refuted"
   ],
   "note": "Proved for compiled declarations but for the order of the source. Findings: locations are compared by their paths in the descriptor instead of their positions (print.go:2451-2464, .Path for .Span), so that messages come before enums, enums before services etc., whatever the order in the source; without source information the comparison is no strict weak order (fields are ordered, a nested message is equivalent to each of them), and if only some fields have locations it has cycles, so that the result depends on the sorting algorithm."
  },
  {
   "property": "C164",
   "status": "partial",
   "theorems": [
    "C164_extendee",
    "C164_blocks_partial",
    "C164_comments",
    "C164_deep",
    "C164_unlocated",
    "C164_comment_refuted",
    "C164_crash",
    "C164_crash_refuted"
   ],
   "note": "Proved that blocks do not mix extended messages, and what blocks there are. Findings: paths are taken for spans here too, so that printing a compiled file with a top-level extend statement panics with an index out of range (print.go:695); in a top-level message all blocks get the comments of the first extend statement, and statements for the same message are merged; in nested messages all comments of extend statements are lost."
  },
  {
   "property": "C165",
   "status": "partial",
   "theorems": [
    "C165_exact",
    "C165_first",
    "C165_later",
    "C165_one",
    "C165_order",
    "C165_elsewhere",
    "C165_parts",
    "C165_parts_refuted"
   ],
   "note": "Proved which location is used for every option and every value of it. Finding: when several statements set fields of the same message option, the option is printed once, with the comments of the first statement; the comments of the others are lost."
  },
  {
   "property": "C166",
   "status": "partial",
   "theorems": [
    "C166_type_partial",
    "C166_extension",
    "C166_extension_scalar",
    "C166_extension_refuted",
    "C166_enum",
    "C166_enum_refuted",
    "C166_map",
    "C166_map_refuted",
    "C166_file"
   ],
   "note": "Proved for scalar and message types and for files. Findings: a map is shown as repeated map<p.M.XEntry.key, p.M.XEntry.value>, with the names of the entry's fields for their types (completion.go:822); every enum is shown as enum and every extension of a message type as message, without the type's name."
  },
  {
   "property": "C167",
   "status": "proved",
   "theorems": [
    "C167_accepted",
    "C167_new",
    "C167_refused",
    "C167_iff",
    "C167_strict",
    "C167_error",
    "C167_other"
   ],
   "note": "Proved for all histories, as long as no such problem is withdrawn because another file that was cleared named its place (C12). That a request is between compilations is C22/C109; which errors are syntax errors is a parameter (errors.As)."
  },
  {
   "property": "C168",
   "status": "partial",
   "theorems": [
    "C168_after",
    "C168_after_extensions",
    "C168_after_accept",
    "C168_first",
    "C168_first_accept",
    "C168_inner_partial",
    "C168_inner_accept_partial",
    "C168_inner_refuted",
    "C168_inner_accept_refuted"
   ],
   "note": "Partial. Proved in full for a dot at the end and for the first name. For later names it holds if the name is no extension and the one before it is no extension or leads to a message without extension ranges. Findings: the reference that is passed on is the one before the name that is completed, so after an extension no field is offered (C168_inner_refuted), and in the place of an extension after a field an accepted offer leaves an unpaired parenthesis (C168_inner_accept_refuted). Whether the tree of the parser is the one in Spec.v is trusted."
  },
  {
   "property": "C169",
   "status": "partial",
   "theorems": [
    "C169_typed_partial",
    "C169_field_total",
    "C169_extend_fails_iff",
    "C169_extend_refuted",
    "C169_typed_refuted",
    "C169_empty",
    "C169_label"
   ],
   "note": "Partial. Proved for names without blanks or comments inside. Findings: the offset in the source is used in the name without blanks (AsIdentifier), so with blanks in it more is taken as typed than is (C169_typed_refuted), and in the name of an extended message the request panics near its end, as the bound is not checked there (completion.go:479; C169_extend_refuted, C169_extend_fails_iff). That AsIdentifier leaves blanks out is trusted (the library is not in the repository)."
  },
  {
   "property": "C170",
   "status": "partial",
   "theorems": [
    "C170_options_partial",
    "C170_keys",
    "C170_fields",
    "C170_options_refuted"
   ],
   "note": "Partial. Proved for keys and fields, and for options of different names. Finding: an option of the language that is set and is also the first of the options not yet interpreted shares its name with them, and which is printed first is left to chance (C170_options_refuted). Names of options are not empty; the sort of more than twelve elements is any that keeps Go's contract."
  },
  {
   "property": "C171",
   "status": "partial",
   "theorems": [
    "C171_only_seen",
    "C171_all_seen",
    "C171_no_conflict",
    "C171_exactly",
    "C171_reparse",
    "C171_printed_refuted"
   ],
   "note": "Partial. Proved for the registration and for reading unknown fields (values that are not malformed). Finding: the options are read in the message that protodesc.ToFileDescriptorProto makes, which is then dropped, and printed from the descriptor, so an option kept as unknown bytes is not printed though its extension is seen (print.go:355; C171_printed_refuted). That ToFileDescriptorProto copies options is the library's contract. Files do not import themselves."
  },
  {
   "property": "C172",
   "status": "proved",
   "theorems": [
    "C172_leads",
    "C172_one",
    "C172_different",
    "C172_path"
   ],
   "note": "Proved for all elements that can exist."
  },
  {
   "property": "C173",
   "status": "partial",
   "theorems": [
    "C173_guarded",
    "C173_requests_partial",
    "C173_generate_alone",
    "C173_generate_refuted",
    "C173_every_generate_refuted"
   ],
   "note": "Partial. Proved for all requests but those that generate code. Finding: generating code reads the tables under the lock of the results (externalapi.go:63-83), while an edit writes them under the lock of the tables only (documents.go:62), so both can happen at once; commands run beside other requests (handler.go:61-64), so the client can bring this about by editing after the command is sent. Waiting writers keeping out readers is left out of the model, which only adds runs; in the runs of the refutation no lock is waited for."
  },
  {
   "property": "C174",
   "status": "partial",
   "theorems": [
    "C174_requests_partial",
    "C174_packages_refuted"
   ],
   "note": "Partial. Proved for all requests but completion in the name of a package, which goes through the results without the lock (completion.go:621). The server runs requests other than commands one at a time (C20), so this concerns users of the Cache API. The hooks of the compiler are taken to run one at a time, as the library has it. That the results have no other uses outside the lock was checked by reading."
  },
  {
   "property": "C175",
   "status": "partial",
   "theorems": [
    "C175_values_partial",
    "C175_single_partial",
    "C175_map_partial",
    "C175_values_refuted",
    "C175_name",
    "C175_set",
    "C175_fails_iff"
   ],
   "note": "Partial. Finding: values of enums whose number has no name are left out (print.go:1997-2000; C175_values_refuted), so a descriptor with such values is printed without them. An option that is set to nothing makes the printer panic (print.go:1791; C175_fails_iff). Numbers are taken by their printed text; for what is lost in printing floating-point numbers see C113."
  },
  {
   "property": "C176",
   "status": "partial",
   "theorems": [
    "C176_new",
    "C176_extended_partial",
    "C176_extended_refuted"
   ],
   "note": "Partial. Proved for new arrays, for arrays that are empty and for arrays with a comma after their last value. Finding: no comma is added after the last value of an array that is there, so if it has none the values added leave too few commas and the printer's index is out of range (formatter.go:1436, 1456; C176_extended_refuted). Whether the parser ever leaves such an array is up to the library, which is not at hand: its lexer adds delimiters of its own, and test/codeactions_test.go expects this very case to work. Split is taken to return the values and the commas among the elements."
  },
  {
   "property": "C177",
   "status": "proved",
   "theorems": [
    "C177_leading",
    "C177_service",
    "C177_method",
    "C177_leading_says",
    "C177_service_says",
    "C177_directive_refuted"
   ],
   "note": "The lines are proved to be comments. Finding: the text follows the slashes as it is, so that a comment such as //go:build ignore before the syntax of a file is an instruction to the Go command in the code generated (C177_directive_refuted). Comments.String and P are taken by their documentation; trimming is of ASCII white space. What gofmt does to the text afterwards is not modelled."
  }
 ]
}