{
 "claims": [
  {
   "property": "C01",
   "status": "proved",
   "theorems": [
    "C01_utf16_roundtrip",
    "C01_position_meaning"
   ],
   "note": "UTF-16 positions round-trip"
  },
  {
   "property": "C02",
   "status": "proved",
   "theorems": [
    "C02_utf8_roundtrip"
   ],
   "note": "UTF-8-mode positions round-trip"
  },
  {
   "property": "C03",
   "status": "partial",
   "theorems": [
    "C03_utf8_columns_refuted",
    "C03_utf8_columns_partial"
   ],
   "note": "False: columns count characters in UTF-8 mode (C03_utf8_columns_refuted); holds when the line prefix is ASCII."
  },
  {
   "property": "C04",
   "status": "proved",
   "theorems": [
    "C04_in_bounds",
    "C04_failure_iff",
    "C04_clamps",
    "C04_exact"
   ],
   "note": "Position conversion is total and in bounds on client positions"
  },
  {
   "property": "C05",
   "status": "partial",
   "theorems": [
    "C05_documents_agree_partial",
    "C05_single_change_partial",
    "C05_documents_agree_refuted"
   ],
   "note": "False for texts with VT/FF/NEL/U+2028/U+2029 (C05_documents_agree_refuted); proved for every history over texts with LF, CR and CRLF line ends."
  },
  {
   "property": "C06",
   "status": "partial",
   "theorems": [
    "C06_no_panic_refuted",
    "C06_no_panic_partial"
   ],
   "note": "False: three kinds of ranges panic (C06_no_panic_refuted); proved that every convertible ordered range is applied."
  },
  {
   "property": "C07",
   "status": "proved",
   "theorems": [
    "C07_framing_roundtrip",
    "C07_frame_consumed"
   ],
   "note": "Message framing round-trips over streams"
  },
  {
   "property": "C08",
   "status": "proved",
   "theorems": [
    "C08_truncated_stream"
   ],
   "note": "Truncated frames are never delivered"
  },
  {
   "property": "C09",
   "status": "proved",
   "theorems": [
    "C09_extra_headers",
    "C09_no_length_rejected",
    "C09_bad_header_rejected"
   ],
   "note": "Extra headers do not matter"
  },
  {
   "property": "C10",
   "status": "proved",
   "theorems": [
    "C10_at_most_one_response"
   ],
   "note": "At most one response per request"
  },
  {
   "property": "C11",
   "status": "proved",
   "theorems": [
    "C11_every_request_answered",
    "C11_finish_answers"
   ],
   "note": "The driver never calls Incoming::cancel; $/cancelRequest is an ordinary notification."
  },
  {
   "property": "C12",
   "status": "proved",
   "theorems": [
    "C12_before_initialize",
    "C12_bad_initialize",
    "C12_first_initialize",
    "C12_initialize_once",
    "C12_before_initialized",
    "C12_second_initialize",
    "C12_after_shutdown",
    "C12_service_window",
    "C12_after_exit"
   ],
   "note": "Lifecycle protocol"
  },
  {
   "property": "C13",
   "status": "proved",
   "theorems": [
    "C13_ids_distinct",
    "C13_callback_once",
    "C13_callback_cause",
    "C13_response_delivered",
    "C13_response_ignored"
   ],
   "note": "Outgoing request ids are unique and callbacks fire once"
  },
  {
   "property": "C14",
   "status": "proved",
   "theorems": [
    "C14_registration_alternates",
    "C14_last_setting",
    "C14_static_clients"
   ],
   "note": "Dynamic capability registration alternates"
  },
  {
   "property": "C15",
   "status": "partial",
   "theorems": [
    "C15_editor_shadows_disk_partial",
    "C15_torn_read_refuted",
    "C15_unread_notification_refuted",
    "C15_shadow_by_id_refuted"
   ],
   "note": "Proved for orderly histories: reads not torn by revisions, no shadows by id, and every batch that changes the layers changes the view. Refuted without each of the three: a snapshot read in flight during a revision leaves the live system with a stale entry the editor can no longer replace; a watcher event about an unread file leaks the old content through a shared map; a removed shadow by id leaves an entry without a registered path."
  },
  {
   "property": "C16",
   "status": "partial",
   "theorems": [
    "C16_snapshot_isolation_partial",
    "C16_eviction_refuted"
   ],
   "note": "Proved as long as nothing is evicted. Refuted with eviction at the server's threshold (60)."
  },
  {
   "property": "C17",
   "status": "partial",
   "theorems": [
    "C17_revision_never_decreases",
    "C17_batch_raises_revision",
    "C17_notification_raises_revision_partial",
    "C17_unread_notification_refuted"
   ],
   "note": "Monotonicity, the step of at most one and the increase for shadow changes and cache resets are proved for all histories; the increase for watcher notifications is proved in orderly histories for files the instance has read, and refuted for unread files."
  },
  {
   "property": "C18",
   "status": "partial",
   "theorems": [
    "C18_skip_is_sound_partial",
    "C18_late_read_refuted",
    "C18_cache_reset_refuted",
    "C18_reset_recompiles"
   ],
   "note": "Proved when the compilation read its files before the live system was revised and nothing is evicted or reset in between; refuted otherwise (two counterexamples)."
  },
  {
   "property": "C19",
   "status": "proved",
   "theorems": [
    "C19_source_then_bytes",
    "C19_bytes_then_source"
   ],
   "note": "All histories, including torn reads, evictions before, and the shared source cache. Source::replace is taken to install exactly the new text."
  },
  {
   "property": "C20",
   "status": "partial",
   "theorems": [
    "C20_no_change_lost_partial",
    "C20_waits_only_for_running_partial",
    "C20_empty_task_change_refuted",
    "C20_restart_refuted",
    "C20_reload_refuted"
   ],
   "note": "Proved when no project is removed, restarted or reloaded during a compilation of it and every task change changes something. Refuted without each restriction: the scheduler waits for ever for a compilation that is not running."
  },
  {
   "property": "C21",
   "status": "partial",
   "theorems": [
    "C21_status_never_back_partial",
    "C21_results_increase_partial",
    "C21_cleared_diagnostics_return_refuted",
    "C21_predecessor_result_refuted"
   ],
   "note": "Proved without reloads: status revisions never decrease, result revisions strictly increase while the project is not removed. Refuted: diagnostics cleared by a suspension come back from an older compilation; a restarted project shows its predecessor's result after its own."
  },
  {
   "property": "C22",
   "status": "partial",
   "theorems": [
    "C22_last_good_kept_partial",
    "C22_query_snapshot_refuted",
    "C22_entry_change_refuted"
   ],
   "note": "Proved for histories without query snapshots and without entry changes during a compilation; refuted without each."
  },
  {
   "property": "C23",
   "status": "partial",
   "theorems": [
    "C23_editor_updates_arrive_partial",
    "C23_overtaken_update_refuted"
   ],
   "note": "Proved for histories in which no update bypasses the watcher while earlier ones are on their way through it. Refuted in general: the logical tick is never raised, so an update may overtake a delayed one, which then overwrites it."
  },
  {
   "property": "C24",
   "status": "partial",
   "theorems": [
    "C24_current_content_partial",
    "C24_deletion_refuted",
    "C24_truncation_refuted",
    "C24_replacement_refuted"
   ],
   "note": "Proved for tracked paths that end readable and not empty. Refuted for files that end deleted or empty, and for a file replaced by deletion and creation within the recheck delay."
  },
  {
   "property": "C25",
   "status": "partial",
   "theorems": [
    "C25_no_duplicate_reports_partial",
    "C25_save_unchanged_refuted",
    "C25_error_repeats_refuted"
   ],
   "note": "Proved for paths that are readable and not empty all the time. Refuted in general by an unchanged file that is briefly empty, and by errors reported by the recheck."
  },
  {
   "property": "C26",
   "status": "partial",
   "theorems": [
    "C26_upserts_partial",
    "C26_routes",
    "C26_duplicates_refuted",
    "C26_file_update",
    "C26_round_trip"
   ],
   "note": "Proved for routes, and for documents and tasks in lock files without duplicate identities, on the values and through the text of the file (read back, repeated update writes nothing). Refuted for files with duplicate identities: only the first entry is replaced."
  },
  {
   "property": "C27",
   "status": "partial",
   "theorems": [
    "C27_last_route_wins",
    "C27_priority_partial",
    "C27_priority_refuted"
   ],
   "note": "Refuted: the priorities are collected and never used; the last route wins. Partial: it is the best one when the list is ordered by priority."
  },
  {
   "property": "C28",
   "status": "partial",
   "theorems": [
    "C28_atomic_partial",
    "C28_done_was_asked",
    "C28_mode_kept_partial",
    "C28_nothing_left_partial",
    "C28_power_refuted",
    "C28_kill_leaves_refuted",
    "C28_lock_refuted",
    "C28_lock_torn_refuted"
   ],
   "note": "Exports: proved for all interleavings of writers, failures and killed processes; not for power loss (refuted, nothing is flushed before the rename). Missing: symbolic links. Lock file: refuted, it is truncated and written in place."
  },
  {
   "property": "C29",
   "status": "partial",
   "theorems": [
    "C29_round_trip",
    "C29_print_parse",
    "C29_syntax",
    "C29_print_injective",
    "C29_no_ends_refuted",
    "C29_selection",
    "C29_first_only",
    "C29_selection_partial",
    "C29_selection_refuted"
   ],
   "note": "Proved for the syntax (parse, print, round trip for every range that can be parsed). Refuted for the selection: '1-' exports the first page only, every other range all pages, and PDF exports ignore ranges. Partial: right when no ranges are given."
  },
  {
   "property": "C30",
   "status": "proved",
   "theorems": [
    "C30_round_trip",
    "C30_injective",
    "C30_parse_range",
    "C30_u128",
    "C30_short_panics",
    "C30_error_panics",
    "C30_not_canonical"
   ],
   "note": "Proved for all 128-bit values. Beyond the statement (C30_error_panics, C30_not_canonical): other strings end the thread instead of giving an error, and several strings are parsed to one fingerprint."
  },
  {
   "property": "C31",
   "status": "partial",
   "theorems": [
    "C31_expiry",
    "C31_latest",
    "C31_resolves_partial",
    "C31_other_span_refuted",
    "C31_lost_refuted"
   ],
   "note": "Proved: an id is reported as expired exactly from the 30th render after it was made, and is resolved to its span until the next render. Partial: older ids are right as long as no id at all has expired. Refuted: once an id expires the indices behind it shift, so an id within its lifetime resolves to another heading or to nothing."
  },
  {
   "property": "C32",
   "status": "proved",
   "theorems": [
    "C32_round_trip",
    "C32_injective",
    "C32_u64",
    "C32_handed_out",
    "C32_other_strings_panic"
   ],
   "note": "Proved for all 64-bit ids, in particular for every id the interner hands out; the forms of different ids differ. Beyond the statement (C32_other_strings_panic): other strings that the page may send end the task."
  },
  {
   "property": "C33",
   "status": "proved",
   "theorems": [
    "C33_refines",
    "C33_rollback",
    "C33_commit",
    "C33_no_leak",
    "C33_clear_panics",
    "C33_order_panics"
   ],
   "note": "Proved for all histories of insertions, removals and nested snapshots: the map behaves as a stack of maps, rolling back restores it and committing keeps it. Beyond the statement (C33_clear_panics, C33_order_panics): clearing inside of a snapshot and closing in another order fail assertions."
  },
  {
   "property": "C34",
   "status": "partial",
   "theorems": [
    "C34_single_line_partial",
    "C34_multi_line",
    "C34_gap_refuted"
   ],
   "note": "Proved with multi-line tokens for all sorted token lists (with gaps); with one line per token for token lists without gaps, which is what the tokenizer produces. Refuted for gaps: the subtraction of the length underflows."
  },
  {
   "property": "C35",
   "status": "proved",
   "theorems": [
    "C35_delta_applies",
    "C35_delta_empty",
    "C35_delta_in_range"
   ],
   "note": "Proved: the edit applies, is empty exactly for equal lists, and replaces whole existing tokens."
  },
  {
   "property": "C36",
   "status": "partial",
   "theorems": [
    "C36_locked_slots_kept",
    "C36_no_unlock_panic",
    "C36_last_release_leaves_newest",
    "C36_used_revision_refuted"
   ],
   "note": "Proved for all histories: slots from the estimated revision of a held lock on are kept until that lock is released or the caches are cleared explicitly; the unlock never panics; the last release leaves only the newest slot. Refuted for requests whose world is older than the estimate."
  },
  {
   "property": "C37",
   "status": "partial",
   "theorems": [
    "C37_actor",
    "C37_cleared",
    "C37_current_partial",
    "C37_removed_refuted"
   ],
   "note": "The editor actor is proved for every sequence of requests. From the compilations on it is partial: proved if every compilation has sent its diagnostics before the next change of its project; refuted otherwise (diagnostics of a removed project stay)."
  },
  {
   "property": "C38",
   "status": "partial",
   "theorems": [
    "C38_newest_partial",
    "C38_order_refuted"
   ],
   "note": "Partial: proved if diagnostics are sent before the next compilation is announced, in whatever order revisions are announced. Refuted when two deliveries overtake each other: the actor ignores the version."
  },
  {
   "property": "C39",
   "status": "partial",
   "theorems": [
    "C39_one",
    "C39_newest_partial",
    "C39_progress_partial",
    "C39_order",
    "C39_only_submitted",
    "C39_panic_refuted",
    "C39_disorder_refuted"
   ],
   "note": "Proved: one job at a time, increasing submissions start in increasing order. Partial: the newest submission is not lost as long as no job panics; refuted with panics (nothing is ever started again) and for submissions out of order (the older one runs last)."
  },
  {
   "property": "C40",
   "status": "partial",
   "theorems": [
    "C40_displaced_partial",
    "C40_single_partial",
    "C40_refuted"
   ],
   "note": "Refuted: the queue is shared by all projects and compares revisions of different worlds. Proved: what displaces a pending job, and that one project alone keeps its last submission."
  },
  {
   "property": "C41",
   "status": "proved",
   "theorems": [
    "C41_all",
    "C41_levels",
    "C41_place",
    "C41_first",
    "C41_items",
    "C41_history"
   ],
   "note": "Proved: every bookmarked heading once and in order, levels rise, the ancestors of every heading are determined exactly, and the items that the client gets show that tree with ids that lead to the source."
  },
  {
   "property": "C42",
   "status": "proved",
   "theorems": [
    "C42_ordered",
    "C42_within",
    "C42_at",
    "C42_exact",
    "C42_other",
    "C42_lost"
   ],
   "note": "Proved: ordered, within the element, exact for a selection within one element, and what is reported when the start or the end is unknown or elsewhere."
  },
  {
   "property": "C43",
   "status": "partial",
   "theorems": [
    "C43_nothing",
    "C43_edit_partial",
    "C43_client_partial",
    "C43_ascii",
    "C43_insert_delete",
    "C43_lost_refuted",
    "C43_lost_longer_refuted",
    "C43_panic_refuted",
    "C43_crlf_refuted"
   ],
   "note": "Proved: no edit exactly if nothing changes; for all ASCII texts and for all insertions and deletions the edit gives the formatted text. Partial for other texts: proved unless the parts that differ end with characters that share their last UTF-8 byte; there it is refuted (edit lost, or panic). For the client with CR LF line breaks refuted as well."
  },
  {
   "property": "C44",
   "status": "proved",
   "theorems": [
    "C44_text",
    "C44_counts",
    "C44_pieces",
    "C44_split",
    "C44_joined"
   ],
   "note": "Proved for all texts and documents, with the classes of characters (whitespace, CJK) as parameters; also that the text counted is what the document reads.  C44_joined shows that pages and frames without a hint are not separated."
  },
  {
   "property": "C45",
   "status": "partial",
   "theorems": [
    "C45_valid",
    "C45_kept",
    "C45_complete",
    "C45_exact",
    "C45_distinct_partial",
    "C45_twice_refuted",
    "C45_crossing",
    "C45_sub_heading"
   ],
   "note": "Proved: no panic, ranges in the document, start line before end line, what is kept and (under conditions) exactly what; distinctness is proved for documents without headings where no two hierarchies start on the same line (C45_distinct_partial) and refuted otherwise (C45_twice_refuted)."
  },
  {
   "property": "C46",
   "status": "partial",
   "theorems": [
    "C46_hierarchy",
    "C46_found",
    "C46_sound",
    "C46_levels",
    "C46_all_partial",
    "C46_blocks",
    "C46_comment_refuted",
    "C46_item_refuted"
   ],
   "note": "Proved: no panic, everything is found once and in order, the answer is a subsequence, headings nest by level, items and blocks hold exactly what is inside them, and everything before the first comment or list item is listed (C46_all_partial).  The property itself fails: C46_comment_refuted and C46_item_refuted."
  },
  {
   "property": "C47",
   "status": "partial",
   "theorems": [
    "C47_serves_partial",
    "C47_answers",
    "C47_request",
    "C47_span",
    "C47_stop",
    "C47_srclocation_refuted",
    "C47_bad_id_refuted"
   ],
   "note": "Proved for all histories of all the actors: the loop ends only by a stop, the loss of a connection, a click that asks for a source location, or a bad id (C47_serves_partial); what waits is answered in order (C47_answers), requests are carried out (C47_request, C47_span), and a stop stops (C47_stop).  Refuted: the click and the bad id end it."
  },
  {
   "property": "C48",
   "status": "partial",
   "theorems": [
    "C48_exclusive",
    "C48_start",
    "C48_kill",
    "C48_owner_partial",
    "C48_drain_partial",
    "C48_reload_refuted",
    "C48_leak_refuted",
    "C48_same_id_refuted",
    "C48_background_refuted",
    "C48_no_kill_all"
   ],
   "note": "Proved for all histories: one registration per project, a start gets a slot exactly if it is free (C48_start), a kill frees the slot (C48_kill, not for background previews).  In orderly histories slots are held by exactly the living previews (C48_owner_partial).  Refuted: after a reload two live previews share a project; failed starts and reused task ids leave a slot taken for ever; background previews cannot be killed."
  },
  {
   "property": "C49",
   "status": "partial",
   "theorems": [
    "C49_same_revision_partial",
    "C49_snapshots_are_current_partial",
    "C49_entry_manager_refuted",
    "C49_with_entry_file_refuted",
    "C49_stale_snapshot_refuted",
    "C49_reset_refuted",
    "C49_task_world_refuted"
   ],
   "note": "Proved for changes made through sessions of increment_revision. Refuted: EntryManager::mutate_entry, with_entry_file and reset change the universe without raising its revision; task worlds share the revision of the universe whatever their entry and inputs."
  },
  {
   "property": "C50",
   "status": "partial",
   "theorems": [
    "C50_stable_partial",
    "C50_none",
    "C50_dots_refuted",
    "C50_settings_restart",
    "C50_settings_kept"
   ],
   "note": "Proved for every cache state and any resolutions in between, unless the path ends with '..' (refuted there). Beyond the statement: `root` alone is not stable, which restarts projects on an unchanged configuration."
  },
  {
   "property": "C51",
   "status": "proved",
   "theorems": [
    "C51_idempotent",
    "C51_names_only",
    "C51_absolute",
    "C51_form",
    "C51_relative_changes"
   ],
   "note": "Proved for the components of every text: idempotent, names only, absolute paths stay absolute and keep where they lead. Beyond the statement (C51_relative_changes): a relative path that starts with '..' loses it."
  },
  {
   "property": "C52",
   "status": "partial",
   "theorems": [
    "C52_new",
    "C52_in_bounds",
    "C52_map",
    "C52_default",
    "C52_limit_refuted"
   ],
   "note": "Proved for up to 2^31 requested shards after any insertions; the shards behave as one map. Refuted: more than 2^31 shards panic."
  },
  {
   "property": "C53",
   "status": "partial",
   "theorems": [
    "C53_column_clamp_refuted",
    "C53_column_clamp_partial"
   ],
   "note": "False except on the last line."
  },
  {
   "property": "C54",
   "status": "partial",
   "theorems": [
    "C54_no_request_panics_refuted",
    "C54_only_get_resources_partial"
   ],
   "note": "False: tinymist.getResources with no arguments indexes args[0]; proved that nothing else in the dispatcher panics."
  },
  {
   "property": "C55",
   "status": "proved",
   "theorems": [
    "C55_served",
    "C55_notified"
   ],
   "note": "Requests in service get their handler's answer"
  },
  {
   "property": "C56",
   "status": "partial",
   "theorems": [
    "C56_encoding_agreed_refuted",
    "C56_encoding_agreed_partial"
   ],
   "note": "False when the client offers UTF-8: the server then uses UTF-8 but announces nothing; holds for other clients."
  },
  {
   "property": "C57",
   "status": "proved",
   "theorems": [
    "C57_rejected_settings"
   ],
   "note": "Rejected settings change nothing"
  },
  {
   "property": "C58",
   "status": "proved",
   "theorems": [
    "C58_repeated_settings"
   ],
   "note": "Repeated settings have no effect"
  },
  {
   "property": "C59",
   "status": "partial",
   "theorems": [
    "C59_own_key_refuted",
    "C59_lint_ignored_refuted",
    "C59_own_key_partial",
    "C59_value_taken_partial"
   ],
   "note": "False for lint, which is read from the key preview; proved for all other settings."
  },
  {
   "property": "C60",
   "status": "partial",
   "theorems": [
    "C60_channels_agree_refuted",
    "C60_channels_agree_partial"
   ],
   "note": "False for objects with a tinymist namespace; proved for all others."
  },
  {
   "property": "C61",
   "status": "partial",
   "theorems": [
    "C61_polling_keeps_settings_refuted",
    "C61_polling_keeps_settings_partial"
   ],
   "note": "False for settings missing in CONFIG_ITEMS; proved for the listed ones."
  },
  {
   "property": "C62",
   "status": "partial",
   "theorems": [
    "C62_namespace_keeps_rest_refuted",
    "C62_namespace_precedence_partial"
   ],
   "note": "Precedence is proved; that unmentioned settings survive is false."
  },
  {
   "property": "C63",
   "status": "partial",
   "theorems": [
    "C63_no_panic_partial",
    "C63_settle_refuted",
    "C63_reload_refuted"
   ],
   "note": "False: a result that arrives after its project was settled or reloaded panics in find_project; proved for histories that do neither during a compilation."
  },
  {
   "property": "C64",
   "status": "partial",
   "theorems": [
    "C64_starts_are_reported_partial",
    "C64_restarted_project_is_silent_refuted"
   ],
   "note": "Proved when no project id is used twice (and without reloads); refuted for a project that is closed and opened again."
  },
  {
   "property": "C65",
   "status": "proved",
   "theorems": [
    "C65_closed_files_are_reread",
    "C65_open_files_are_known"
   ],
   "note": "Both halves proved for all histories."
  },
  {
   "property": "C66",
   "status": "partial",
   "theorems": [
    "C66_dependencies_watched_partial",
    "C66_upstream_unwatches_refuted"
   ],
   "note": "Proved: the state right after a list of dependencies. Refuted for the time after: an update from the editor routed through the watcher ends the watch of all other dependencies."
  },
  {
   "property": "C67",
   "status": "partial",
   "theorems": [
    "C67_answers_fresh_partial",
    "C67_two_projects_refuted",
    "C67_default_slot_refuted"
   ],
   "note": "Proved when a revision number stands for one state of the files and requests enter the cache in the order of their revisions. Refuted otherwise: projects share the cache and count revisions separately; slots without a base share the maps of the default slot."
  },
  {
   "property": "C68",
   "status": "partial",
   "theorems": [
    "C68_base_was_answered_partial",
    "C68_ids_unique_partial",
    "C68_no_panic_partial",
    "C68_latest_usable_partial",
    "C68_clear_panic_refuted",
    "C68_clear_ids_refuted",
    "C68_unknown_id_refuted"
   ],
   "note": "Proved without explicit cache clears: bases are the tokens answered under that id for that file, ids are unique, no panic; with clients that only name ids they were given, the newest id of a file can always be used. Refuted with a clear (panic, reuse of ids) and for unknown ids (later answers are forgotten)."
  },
  {
   "property": "C69",
   "status": "partial",
   "theorems": [
    "C69_tokens_cover_partial",
    "C69_multi_line_partial",
    "C69_no_overlap_partial",
    "C69_heading_refuted",
    "C69_utf8_refuted"
   ],
   "note": "Proved for trees in which no typed node has an inner child with exactly one non-empty leaf. Refuted for headings whose body is a single leaf (two tokens at one place) and, for UTF-8, for non-ASCII text (lengths in bytes, columns in characters)."
  },
  {
   "property": "C70",
   "status": "proved",
   "theorems": [
    "C70_serial",
    "C70_exclusive"
   ],
   "note": "Proved for file systems with locks (elsewhere the code goes on without one) and processes that do not die between truncating and writing (see C28 for those)."
  },
  {
   "property": "C71",
   "status": "partial",
   "theorems": [
    "C71_nearest_partial",
    "C71_answer_loaded",
    "C71_stale_refuted"
   ],
   "note": "Proved: nearest route for the states at the time of the request, for all histories. Refuted: a directory that was used keeps its first lock file, because nothing calls the update functions."
  },
  {
   "property": "C72",
   "status": "partial",
   "theorems": [
    "C72_round_trip_partial",
    "C72_parse_print",
    "C72_colon_unreadable",
    "C72_colon_refuted"
   ],
   "note": "Partial: exactly the resource paths without further colons round trip. Refuted for paths with a colon."
  },
  {
   "property": "C73",
   "status": "partial",
   "theorems": [
    "C73_substitution_partial",
    "C73_nested_refuted",
    "C73_constant"
   ],
   "note": "Proved for patterns whose dollar signs all start variables and for roots and directories without dollar signs, and for patterns without a complete variable. Refuted: variables in the root or the directory are replaced again. Missing: the final cleaning of the path."
  },
  {
   "property": "C74",
   "status": "partial",
   "theorems": [
    "C74_sequential",
    "C74_answers",
    "C74_overlap_refuted"
   ],
   "note": "Proved for calls one after the other and every hash function. Refuted for overlapping calls: the lookup and the insertion are two steps."
  },
  {
   "property": "C75",
   "status": "partial",
   "theorems": [
    "C75_absolute",
    "C75_relative_partial",
    "C75_mixed",
    "C75_completion",
    "C75_slash",
    "C75_clean",
    "C75_up_refuted",
    "C75_empty_refuted"
   ],
   "note": "Proved between absolute paths and for completion labels, unix_slash and clean. Partial for relative paths: the empty path and bases that go up further than the target are missing; both are refuted. Symbolic links are not modelled."
  },
  {
   "property": "C76",
   "status": "partial",
   "theorems": [
    "C76_references",
    "C76_others",
    "C76_target_partial",
    "C76_moved_file_refuted",
    "C76_target_refuted"
   ],
   "note": "Proved for references to the moved file, for every change between absolute paths. Partial for renames through a reference. Refuted: relative references inside of the moved file are not changed. Which references lead to the file is an input of the model."
  },
  {
   "property": "C77",
   "status": "partial",
   "theorems": [
    "C77_same_directory",
    "C77_other_directory_refuted"
   ],
   "note": "Proved when the process runs in the directory of the lock file. Refuted otherwise: paths are stored relative to the current directory and read relative to the lock file."
  },
  {
   "property": "C78",
   "status": "partial",
   "theorems": [
    "C78_main_leads",
    "C78_main_found",
    "C78_root_partial",
    "C78_default_absolute",
    "C78_stale_refuted",
    "C78_escape_refuted"
   ],
   "note": "Proved: the main file leads to the requested file; for absolute paths of names it always can be read and the root is above it. The choice of the root is partial: proved when nothing is cached for the path; refuted for answers cached from an older tree and for paths that leave a folder by '..'."
  },
  {
   "property": "C79",
   "status": "partial",
   "theorems": [
    "C79_status_partial",
    "C79_told",
    "C79_silent",
    "C79_late_refuted",
    "C79_restart_refuted"
   ],
   "note": "Proved while notifications are on from the start, and that nothing is sent while they are off. Refuted after switching them on later, and for a project that is removed and started again."
  },
  {
   "property": "C80",
   "status": "partial",
   "theorems": [
    "C80_shown",
    "C80_cursor",
    "C80_selection",
    "C80_half",
    "C80_astral_refuted"
   ],
   "note": "Proved for positions with only characters of the basic plane before them in the line (and shown to be exactly those), for texts whose line ends editor and typst agree on; C80_astral_refuted shows the failure otherwise."
  },
  {
   "property": "C81",
   "status": "partial",
   "theorems": [
    "C81_alive_partial",
    "C81_reload_refuted",
    "C81_settle_refuted"
   ],
   "note": "Proved for calm histories (C81_alive_partial); refuted with a reload, or with a task id used again before its project is settled."
  },
  {
   "property": "C82",
   "status": "partial",
   "theorems": [
    "C82_proper",
    "C82_stays",
    "C82_foreign",
    "C82_binary",
    "C82_lag",
    "C82_lagged",
    "C82_others",
    "C82_viewport",
    "C82_answered",
    "C82_delivered",
    "C82_panic_partial",
    "C82_panic_refuted",
    "C82_ping_refuted"
   ],
   "note": "Proved: the protocol is understood (C82_proper), foreign texts end the connection (C82_foreign) and that of no other page (C82_others), positions reach all pages (C82_viewport).  Partial: which texts panic.  Refuted: a request without argument panics, a ping ends the connection."
  },
  {
   "property": "C83",
   "status": "partial",
   "theorems": [
    "C83_shows_partial",
    "C83_stale_refuted",
    "C83_packs",
    "C83_taken",
    "C83_taking",
    "C83_delivered",
    "C83_outline",
    "C83_outline_due"
   ],
   "note": "Proved that what is shown changes exactly with a compilation that is taken (C83_taken, C83_taking).  Partial: the latest document is shown unless the last drawing answered a full render with an older document (C83_shows_partial), which happens (C83_stale_refuted)."
  },
  {
   "property": "C84",
   "status": "partial",
   "theorems": [
    "C84_idle",
    "C84_ends_partial",
    "C84_leak_refuted"
   ],
   "note": "Proved that it stops only when idle (C84_idle), and that it stops if no handshake failed (C84_ends_partial).  Refuted: after one failed handshake it never does (C84_leak_refuted)."
  },
  {
   "property": "C85",
   "status": "partial",
   "theorems": [
    "C85_pinned_partial",
    "C85_changes",
    "C85_preview_partial",
    "C85_unpinned",
    "C85_browsing",
    "C85_taken_refuted",
    "C85_fonts_refuted",
    "C85_refused_refuted"
   ],
   "note": "Proved for all histories without previews that bring a file and without new settings (C85_pinned_partial, C85_preview_partial), and exactly which steps change the main file (C85_changes).  Refuted: a preview takes the pinned file away, a change of fonts or root forgets it, and a refused pin pins."
  },
  {
   "property": "C86",
   "status": "partial",
   "theorems": [
    "C86_command",
    "C86_activity",
    "C86_opened",
    "C86_follows_partial",
    "C86_default",
    "C86_unpin",
    "C86_preview_refuted",
    "C86_fonts_refuted",
    "C86_default_refuted"
   ],
   "note": "Proved which file is focused (C86_command, C86_activity, C86_opened), that it is the main file without pins (C86_follows_partial), and what unpinning does (C86_unpin).  Refuted: after a preview, a change of fonts, or a new default entry the main file is another."
  },
  {
   "property": "C87",
   "status": "partial",
   "theorems": [
    "C87_position",
    "C87_cursor_partial",
    "C87_hover",
    "C87_other_refuted",
    "C87_manual_refuted"
   ],
   "note": "Proved that the position was told since the file is focused (C87_position), and in that file if the client asks only there (C87_cursor_partial, C87_hover).  Refuted: completions, signature help, and hovers after a focus command in another file."
  },
  {
   "property": "C88",
   "status": "proved",
   "theorems": [
    "C88_equal",
    "C88_alive",
    "C88_content",
    "C88_freed",
    "C88_no_panic",
    "C88_new",
    "C88_unblocked",
    "C88_alloc"
   ],
   "note": "Proved for all interleavings at the granularity of atomic operations and locked regions."
  },
  {
   "property": "C89",
   "status": "partial",
   "theorems": [
    "C89_clean_partial",
    "C89_sequential_partial",
    "C89_leak_refuted",
    "C89_recovers"
   ],
   "note": "Proved for histories in which no two handles of one cell are dropped at the same time (C89_clean_partial), in particular for one thread (C89_sequential_partial); what is left over is found and removed by the next use of the content (C89_recovers).  Refuted in general: two threads that drop the last two handles both see the other's and leave the entry."
  },
  {
   "property": "C90",
   "status": "partial",
   "theorems": [
    "C90_started",
    "C90_announced",
    "C90_export",
    "C90_lint",
    "C90_empty_refuted"
   ],
   "note": "Proved for tame histories (see C20).  Refuted for a task change that changes nothing: it compiles the same revision again with the cached snapshot, which carries the old reasons."
  },
  {
   "property": "C91",
   "status": "partial",
   "theorems": [
    "C91_only_finish",
    "C91_refuted"
   ],
   "note": "Refuted: a result is announced only by the end of the compilation that made it (C91_only_finish), for every tame history."
  },
  {
   "property": "C92",
   "status": "proved",
   "theorems": [
    "C92_same",
    "C92_kept",
    "C92_shared",
    "C92_once",
    "C92_progress",
    "C92_bounded",
    "C92_finishes",
    "C92_answered",
    "C92_forked_twice"
   ],
   "note": "Proved.  Beyond the statement: a fork made before the entry exists compiles the same snapshot again (C92_forked_twice), and after a panic the next one compiles again (C92_crash)."
  },
  {
   "property": "C93",
   "status": "proved",
   "theorems": [
    "C93_artifact",
    "C93_pair",
    "C93_no_error",
    "C93_asked_for",
    "C93_flag_stays",
    "C93_world",
    "C93_early",
    "C93_torn"
   ],
   "note": "Proved.  The conditions are needed: asked too early the error is kept for ever (C93_early), and a fork in the middle takes document and diagnostics from two compilations (C93_torn).  All callers in the code keep them."
  },
  {
   "property": "C94",
   "status": "partial",
   "theorems": [
    "C94_whole_partial",
    "C94_stays_partial",
    "C94_seen_refuted",
    "C94_killed_refuted",
    "C94_vanished_refuted",
    "C94_left_refuted"
   ],
   "note": "Partial: proved when a package is prepared by one call at a time, no process is killed while unpacking, and what is left of a malformed archive can be removed (C94_whole_partial, C94_stays_partial).  Otherwise false: a call that looks while another unpacks is given part of the package (C94_seen_refuted), a killed download leaves part of it for ever (C94_killed_refuted), a failing second download removes what the first was answered (C94_vanished_refuted), and so does a failing removal leave a part (C94_left_refuted)."
  },
  {
   "property": "C95",
   "status": "proved",
   "theorems": [
    "C95_inside",
    "C95_apart",
    "C95_requests",
    "C95_writes",
    "C95_data_first",
    "C95_then_cache",
    "C95_nowhere",
    "C95_download",
    "C95_unchecked"
   ],
   "note": "Proved.  Beyond the statement: names that a client sends in a PackageInfo are not checked and lead out of the root (C95_unchecked)."
  },
  {
   "property": "C96",
   "status": "partial",
   "theorems": [
    "C96_listed_partial",
    "C96_exactly",
    "C96_all",
    "C96_listed_refuted",
    "C96_twice_refuted"
   ],
   "note": "Partial: which directories are listed is exact (C96_exactly, C96_all); they can be resolved if their names are versions as printed (C96_listed_partial).  A directory 01.0.0 is listed as 1.0.0, which is not found (C96_listed_refuted), and a package in both directories is listed twice (C96_twice_refuted)."
  },
  {
   "property": "C97",
   "status": "partial",
   "theorems": [
    "C97_index",
    "C97_local_partial",
    "C97_once",
    "C97_failed_refuted",
    "C97_local_refuted"
   ],
   "note": "Partial: the index part is exact (C97_index); the local part holds if the names of directories are versions as printed (C97_local_partial), else false (C97_local_refuted).  A failure to fetch the index is remembered for ever (C97_once, C97_failed_refuted)."
  },
  {
   "property": "C98",
   "status": "proved",
   "theorems": [
    "C98_exactly",
    "C98_foreign",
    "C98_no_origin",
    "C98_own",
    "C98_no_crash",
    "C98_absent",
    "C98_port80"
   ],
   "note": "Proved, for parsers of URLs that read the scheme, host and port of origins (assumed of the external parser, and proved of a simple one).  Beyond the statement: requests without the header are served (C98_absent), and at port 80 the server refuses its own page (C98_port80)."
  },
  {
   "property": "C99",
   "status": "proved",
   "theorems": [
    "C99_exactly",
    "C99_reader",
    "C99_absent"
   ],
   "note": "Proved."
  },
  {
   "property": "C100",
   "status": "partial",
   "theorems": [
    "C100_exactly",
    "C100_return",
    "C100_no_crash",
    "C100_complete",
    "C100_hidden_refuted",
    "C100_head_refuted",
    "C100_closure_refuted"
   ],
   "note": "Which places are reported is proved exactly, for all trees.  That evaluations which end with a stray event have a warning is proved for code with such statements as statements only (tame); it is refuted in arguments of calls, for functions passed as arguments, and in heads of loops."
  },
  {
   "property": "C101",
   "status": "partial",
   "theorems": [
    "C101_only_with_return",
    "C101_may",
    "C101_must_partial",
    "C101_last",
    "C101_fallthrough_refuted",
    "C101_else_refuted",
    "C101_loop_refuted",
    "C101_rules_refuted",
    "C101_missed_refuted"
   ],
   "note": "Proved: only functions with a `return` are looked at; a reported value that can be joined can be discarded; it always is, in functions that end with `return` on every way and have none in loops (C101_must_partial); the last value in front of `return v` is reported.  Refuted: conditional and looped returns that are not taken, rules in front of `return` without a value, all values but the last."
  },
  {
   "property": "C102",
   "status": "partial",
   "theorems": [
    "C102_exactly",
    "C102_invisible_partial",
    "C102_show_refuted",
    "C102_unseen_refuted"
   ],
   "note": "Which rules are reported is proved exactly.  That such a block shows nothing is proved for blocks without show rules without a selector, and refuted for those; blocks elsewhere are not looked at (C102_unseen_refuted)."
  },
  {
   "property": "C103",
   "status": "partial",
   "theorems": [
    "C103_project_resolves_partial",
    "C103_for_iterable_refuted",
    "C103_default_refuted",
    "C103_item_refuted",
    "C103_assign_refuted",
    "C103_item_path_refuted",
    "C103_rebound_module_refuted",
    "C103_library_item_refuted",
    "C103_field_refuted"
   ],
   "note": "Proved for all files of acyclic projects without the constructs refuted (C103_project_resolves_partial; `tame` in ScopeSpec.v lists them).  Refuted: the iterable of a loop over a variable of the same name, defaults that name an earlier parameter or the function, definitions in headings and list items used after them, destructuring assignment, paths in import items, plain imports of a module bound under another name, items imported from library values, fields of modules (`m.x`, never recorded).  Not modelled: dynamic analysis of import sources, labels, docstrings, cyclic imports."
  },
  {
   "property": "C104",
   "status": "partial",
   "theorems": [
    "C104_exports_partial",
    "C104_names_partial",
    "C104_exports_refuted"
   ],
   "note": "Proved for files without wildcard imports at top level (names and targets), and that the exported names are the bound names for all tame files.  Refuted: with wildcard imports older bindings win in the exports."
  },
  {
   "property": "C105",
   "status": "partial",
   "theorems": [
    "C105_references_partial",
    "C105_import_source_refuted"
   ],
   "note": "Proved for tame files, except for names that are sources of imports, for which it is refuted (they are never recorded)."
  },
  {
   "property": "C106",
   "status": "partial",
   "theorems": [
    "C106_scopes_paired",
    "C106_block_restores",
    "C106_follow_partial",
    "C106_follow_refuted"
   ],
   "note": "That scopes are paired is proved for all files and both stages.  That following import sources ends is proved for tame files and refuted in general: `#import \"a.typ\" as x: x` and `#import x: y` where a.typ has no x recurses without end."
  },
  {
   "property": "C107",
   "status": "partial",
   "theorems": [
    "C107_finds",
    "C107_ends",
    "C107_once",
    "C107_project_partial",
    "C107_tables_partial",
    "C107_star_refuted",
    "C107_alias_refuted",
    "C107_field_refuted",
    "C107_package_refuted",
    "C107_cycle_refuted"
   ],
   "note": "Exactly the files reached over exports and imports are searched, and the search ends, for all workspaces (C107_finds, C107_ends); each reference once without cyclic imports (C107_once).  That this is every reference is proved for projects in which the definition is handed on under its own name by files that mention it (C107_tables_partial, and against Typst's scoping C107_project_partial).  Refuted: files that hand it on by a wildcard import without naming it, or under an alias; fields of modules (`m.x`); definitions in packages; duplicates with cyclic imports.  Labels and modules are not modelled."
  },
  {
   "property": "C108",
   "status": "partial",
   "theorems": [
    "C108_keeps_partial",
    "C108_edits_partial",
    "C108_files",
    "C108_capture_refuted",
    "C108_source_refuted",
    "C108_field_refuted",
    "C108_alias_refuted"
   ],
   "note": "Proved for the projects of C107_project_partial without wildcard imports at the top level of a file, for new names that occur nowhere in them and definitions from which no import takes its items (C108_keeps_partial; the edits are exactly the names that mean the definition, C108_edits_partial).  Edits change nothing but names, for all files (C108_files).  Refuted: a new name that is taken, definitions used as sources of imports, fields of modules, definitions handed on under an alias.  The rename of files is not part of it."
  },
  {
   "property": "C109",
   "status": "partial",
   "theorems": [
    "C109_total",
    "C109_passed_partial",
    "C109_named",
    "C109_block",
    "C109_hints_partial",
    "C109_sink_refuted",
    "C109_spread_refuted",
    "C109_with_refuted"
   ],
   "note": "Proved for closures whose sink, if any, comes after the positional parameters and with bindings read off function values: positional arguments before the first spread (C109_passed_partial), named ones (C109_named), the mark of content blocks (C109_block), and the exact set of hints of calls without spreads (C109_hints_partial).  No panic, for all functions and all arguments: C109_total.  Refuted: sinks before a positional parameter, arguments after a spread, `with` calls found by static analysis."
  },
  {
   "property": "C110",
   "status": "partial",
   "theorems": [
    "C110_marks_partial",
    "C110_named",
    "C110_shown",
    "C110_set",
    "C110_set_pos",
    "C110_sink_refuted",
    "C110_with_refuted"
   ],
   "note": "Proved for arguments that are passed to a positional parameter of a closure, the sink last, no spread before, only positional `with` arguments (C110_marks_partial), for named arguments of all functions and in set rules (C110_named), and for the list of parameters (C110_shown, C110_set).  Refuted: arguments of the sink, named `with` arguments."
  },
  {
   "property": "C111",
   "status": "proved",
   "theorems": [
    "C111_pairs",
    "C111_parts"
   ],
   "note": "Proved for the positional part of the pairs; the pairs of named types are not modelled."
  },
  {
   "property": "C112",
   "status": "proved",
   "theorems": [
    "C112_loop",
    "C112_same",
    "C112_none",
    "C112_only",
    "C112_range"
   ],
   "note": "Proved."
  },
  {
   "property": "C113",
   "status": "partial",
   "theorems": [
    "C113_wrap",
    "C113_heading",
    "C113_inline",
    "C113_block",
    "C113_kept_partial",
    "C113_comment_refuted",
    "C113_bracket_refuted",
    "C113_unclosed",
    "C113_nearest"
   ],
   "note": "Proved for wrapping, headings, the text of each conversion of an equation, which nodes are meant, and equations that are not closed.  That only white space is lost is proved for equations with only white space between the body and the dollar signs (C113_kept_partial); refuted for comments there.  The mark that is moved need not be one of the sentence (C113_bracket_refuted)."
  },
  {
   "property": "C114",
   "status": "proved",
   "theorems": [
    "C114_comment",
    "C114_alone",
    "C114_math",
    "C114_case"
   ],
   "note": "Proved for the comment, equation and case analysis; list items are recognised and then left alone by the code, although its documentation says otherwise (finding)."
  },
  {
   "property": "C115",
   "status": "partial",
   "theorems": [
    "C115_adds",
    "C115_places",
    "C115_break_refuted"
   ],
   "note": "Proved: additions only, numbering, places.  Refuted for line breaks: after a show rule a line break is added before the `;` that ends it, so that the `;` becomes text (C115_break_refuted)."
  },
  {
   "property": "C116",
   "status": "partial",
   "theorems": [
    "C116_result_partial",
    "C116_report_partial",
    "C116_bounds",
    "C116_report_refuted",
    "C116_result_refuted"
   ],
   "note": "C116_result_partial is for programs in which the condition of an `else if` binds no variable (refuted otherwise), C116_report_partial for programs whose bodies are all code blocks, or content not in an `else if` (refuted otherwise).  Show rules, set rules and `context` are in C115 only."
  },
  {
   "property": "C117",
   "status": "partial",
   "theorems": [
    "C117_counts_partial",
    "C117_once",
    "C117_report_partial",
    "C117_panic_refuted",
    "C117_placeless_refuted"
   ],
   "note": "Proved for runs that make only calls that were added (C117_counts_partial, C117_report_partial); refuted for documents that call `__cov_pc` themselves, which panic, and for the agreement of summary and report on marks that have no place."
  },
  {
   "property": "C118",
   "status": "partial",
   "theorems": [
    "C118_cleared",
    "C118_never",
    "C118_start_refuted",
    "C118_ends"
   ],
   "note": "Refuted: the test in `set_debug_session` is of the new session and not of the running one, so no session is ever installed (C118_never); what holds is that ending works and that every start is followed by its end."
  },
  {
   "property": "C119",
   "status": "proved",
   "theorems": [
    "C119_total",
    "C119_ground",
    "C119_known"
   ],
   "note": "Proved for closed sets of variables (each variable met has bounds)."
  },
  {
   "property": "C120",
   "status": "proved",
   "theorems": [
    "C120_labels",
    "C120_principal"
   ],
   "note": "Exact for the mode that all features use (principal = false); for the principal type, which is only printed for debugging, the inclusion."
  },
  {
   "property": "C121",
   "status": "proved",
   "theorems": [
    "C121_exact",
    "C121_unique",
    "C121_sets"
   ],
   "note": "Proved for bounds without cycles.  With cycles it fails (C121_cycle, a finding): a variable may stand for less at one place than at another.  The order of types is a parameter: total for C121_exact, linear for C121_unique and C121_sets."
  },
  {
   "property": "C122",
   "status": "proved",
   "theorems": [
    "C122_normal",
    "C122_again",
    "C122_fixed"
   ],
   "note": "Proved for a total order of types."
  },
  {
   "property": "C123",
   "status": "proved",
   "theorems": [
    "C123_call",
    "C123_restored",
    "C123_bound"
   ],
   "note": "Proved if the names of signatures are in order (as the constructor sorts them).  Types in the bounds of a `Let` are not replaced (a finding)."
  },
  {
   "property": "C124",
   "status": "proved",
   "theorems": [
    "C124_total",
    "C124_exact",
    "C124_order",
    "C124_containing",
    "C124_ever_be"
   ],
   "note": "Proved for environments whose builtin dictionaries have no variables and do not occur inside dictionaries of their own fields (true of the six there are)."
  },
  {
   "property": "C125",
   "status": "proved",
   "theorems": [
    "C125_weaken",
    "C125_run"
   ],
   "note": "Proved.  A call repeated after a weakening is not looked at again (C125_cached, a finding), which is why the lifted bound is not claimed there."
  },
  {
   "property": "C126",
   "status": "proved",
   "theorems": [
    "C126_block",
    "C126_total",
    "C126_silent",
    "C126_hidden"
   ],
   "note": "Proved; C126_hidden shows that a variable hides the types of the other expressions (a finding)."
  },
  {
   "property": "C127",
   "status": "partial",
   "theorems": [
    "C127_exact",
    "C127_due",
    "C127_leak_refuted"
   ],
   "note": "Exact description proved for all trees (C127_exact), with the comments at the end of an inner sequence that leak to a later definition in the same expression; that they do is C127_leak_refuted."
  },
  {
   "property": "C128",
   "status": "partial",
   "theorems": [
    "C128_text",
    "C128_indent_refuted"
   ],
   "note": "Exact description proved; that the indentation common to all comments that say something is removed is refuted (C128_indent_refuted): an empty comment keeps it."
  },
  {
   "property": "C129",
   "status": "partial",
   "theorems": [
    "C129_module",
    "C129_own_refuted"
   ],
   "note": "Exact description proved; C129_own_refuted: the documentation of the first definition is given to the module too."
  },
  {
   "property": "C130",
   "status": "partial",
   "theorems": [
    "C130_exact",
    "C130_docs_refuted"
   ],
   "note": "Exact description proved for all marks with a nonempty end mark; C130_docs_refuted: with parameters only their lines are the documentation as well."
  },
  {
   "property": "C131",
   "status": "proved",
   "theorems": [
    "C131_fences"
   ],
   "note": "Proved."
  },
  {
   "property": "C132",
   "status": "proved",
   "theorems": [
    "C132_entries",
    "C132_plain",
    "C132_cut",
    "C132_seq_taken"
   ],
   "note": "Proved: exact for all documents (C132_entries), plain for ordinary bibliographies (C132_plain), cut files (C132_cut). C132_seq_taken shows that a key whose value is a sequence of mappings counts as an entry (a finding)."
  },
  {
   "property": "C133",
   "status": "proved",
   "theorems": [
    "C133_last",
    "C133_order",
    "C133_total",
    "C133_raw_elsewhere"
   ],
   "note": "Proved: exact (C133_last, C133_order), no panic and what each file gives (C133_total). C133_raw_elsewhere is a finding: the entry of hayagriva may be that of another file than the place."
  },
  {
   "property": "C134",
   "status": "partial",
   "theorems": [
    "C134_exact",
    "C134_inside",
    "C134_finds",
    "C134_transform_refuted",
    "C134_detached_refuted",
    "C134_group_link"
   ],
   "note": "Exact description proved for all frames (C134_exact); the result is under the click (C134_inside) and there is one (C134_finds) in frames without transformations whose glyphs are of files; both conditions are needed (C134_transform_refuted, C134_detached_refuted). C134_group_link: a link inside a group hides the group only."
  },
  {
   "property": "C135",
   "status": "partial",
   "theorems": [
    "C135_pages",
    "C135_closest",
    "C135_nothing",
    "C135_on_glyph",
    "C135_closest_refuted"
   ],
   "note": "Proved for glyphs of the span (C135_pages, C135_on_glyph) and for the choice of the closest (C135_closest); the place given for the closest is that in its group, not on the page: C135_closest_refuted."
  },
  {
   "property": "C136",
   "status": "proved",
   "theorems": [
    "C136_exact",
    "C136_unique",
    "C136_plain",
    "C136_numbered_twice"
   ],
   "note": "Proved for all texts; C136_numbered_twice: a placeholder that is numbered in the snippet keeps its number as text."
  },
  {
   "property": "C137",
   "status": "partial",
   "theorems": [
    "C137_ident",
    "C137_argument",
    "C137_label",
    "C137_reference",
    "C137_other",
    "C137_cursor",
    "C137_label_end_refuted"
   ],
   "note": "The text after the edit is proved exactly for identifiers, arguments, labels, references and all else; the cursor is in the range (C137_cursor) but not behind a label with brackets: C137_label_end_refuted."
  },
  {
   "property": "C138",
   "status": "partial",
   "theorems": [
    "C138_filter",
    "C138_all",
    "C138_order",
    "C138_order_refuted",
    "C138_around"
   ],
   "note": "Filter and texts around exactly; the order for at most 1000 items (C138_order), with more it is wrong: C138_order_refuted."
  },
  {
   "property": "C139",
   "status": "partial",
   "theorems": [
    "C139_exact",
    "C139_off",
    "C139_total_refuted",
    "C139_escape_refuted",
    "C139_calls"
   ],
   "note": "The text after all edits is proved for all snippets with a placeholder; a snippet without one panics (C139_total_refuted); the text of the expression is not escaped (C139_escape_refuted)."
  },
  {
   "property": "C140",
   "status": "proved",
   "theorems": [
    "C140_exact"
   ],
   "note": "Slices of sources never panic"
  },
  {
   "property": "C141",
   "status": "proved",
   "theorems": [
    "C141_offered",
    "C141_answered"
   ],
   "note": "A prefix snippet is offered exactly where one of its contexts matches"
  },
  {
   "property": "C142",
   "status": "partial",
   "theorems": [
    "C142_fence_partial",
    "C142_fence_refuted",
    "C142_inline_partial",
    "C142_inline_refuted",
    "C142_error",
    "C142_context_refuted"
   ],
   "note": "Fence proved for texts that do not end in a backtick (C142_fence_partial), errors for all (C142_error), inline text for one line; a run at the end, inline text of several lines or with backticks, and contexts shown as code are not fenced: C142_fence_refuted, C142_inline_refuted, C142_context_refuted."
  },
  {
   "property": "C143",
   "status": "proved",
   "theorems": [
    "C143_boxes",
    "C143_lines"
   ],
   "note": "Boxes become quotes line by line"
  },
  {
   "property": "C144",
   "status": "partial",
   "theorems": [
    "C144_rows_partial",
    "C144_default_partial",
    "C144_in_rows",
    "C144_footer_refuted",
    "C144_total_partial",
    "C144_total_refuted"
   ],
   "note": "Rows, headers and default column for all cells that are not footers; no panic if no table has zero or fewer columns (and there is no include); footers give an empty cell, columns 0 or () panic: C144_footer_refuted, C144_total_refuted."
  },
  {
   "property": "C145",
   "status": "partial",
   "theorems": [
    "C145_code_partial",
    "C145_hash_refuted"
   ],
   "note": "Proved for documents of text, comments and code statements with one theme and inline images; a call that gives content leaves its hash: C145_hash_refuted."
  },
  {
   "property": "C146",
   "status": "partial",
   "theorems": [
    "C146_own_partial",
    "C146_images_partial",
    "C146_equation",
    "C146_include_refuted",
    "C146_example_refuted",
    "C146_theme_refuted"
   ],
   "note": "Own numbers without includes and examples, with two themes or without asset files; images are the compiler's for all; includes and examples overwrite files, with one theme the image file holds its path: C146_include_refuted, C146_example_refuted, C146_theme_refuted."
  },
  {
   "property": "C147",
   "status": "partial",
   "theorems": [
    "C147_ends_partial",
    "C147_cycle_refuted",
    "C147_depth",
    "C147_include"
   ],
   "note": "Depth and includes for all; ends for ranked includes; a file that includes itself does not end: C147_cycle_refuted."
  },
  {
   "property": "C148",
   "status": "proved",
   "theorems": [
    "C148_pieces",
    "C148_pieces_only",
    "C148_marks",
    "C148_example",
    "C148_example_lines"
   ],
   "note": "Documents are converted piece by piece"
  },
  {
   "property": "C149",
   "status": "partial",
   "theorems": [
    "C149_message",
    "C149_determined",
    "C149_last_partial",
    "C149_plain",
    "C149_meant_refuted"
   ],
   "note": "The exact text is proved for all messages (C149_message): one character after each placeholder is lost, and a placeholder without argument loses its closing brace; as meant only for a placeholder at the end; C149_meant_refuted."
  },
  {
   "property": "C150",
   "status": "partial",
   "theorems": [
    "C150_once",
    "C150_exact",
    "C150_region_partial",
    "C150_none",
    "C150_message",
    "C150_order_refuted",
    "C150_capital_refuted"
   ],
   "note": "For languages of ASCII letters, with one matching language; with several the order of the map decides, and a language written with capitals is never found: C150_order_refuted, C150_capital_refuted."
  },
  {
   "property": "C151",
   "status": "partial",
   "theorems": [
    "C151_read",
    "C151_readable",
    "C151_load",
    "C151_panic_refuted"
   ],
   "note": "Exact for all files that are read; a lone bracket panics: C151_panic_refuted."
  },
  {
   "property": "C152",
   "status": "partial",
   "theorems": [
    "C152_round_trip",
    "C152_update",
    "C152_disk_partial",
    "C152_line_refuted"
   ],
   "note": "The maps for all; the file for messages of one line; a message with a line break makes a file that cannot be read: C152_line_refuted."
  },
  {
   "property": "C153",
   "status": "proved",
   "theorems": [
    "C153_rust",
    "C153_typescript",
    "C153_literal"
   ],
   "note": "All messages of the program are found"
  },
  {
   "property": "C154",
   "status": "partial",
   "theorems": [
    "C154_path",
    "C154_stable",
    "C154_distinct",
    "C154_same_partial",
    "C154_detour_refuted",
    "C154_plain_refuted",
    "C154_exhausted_refuted"
   ],
   "note": "Meaning, stability and distinctness for all roots; the same id again only for roots without detours (C154_same_partial), since the lookup uses the root as given and the table has the cleaned one: C154_detour_refuted, C154_plain_refuted, C154_exhausted_refuted."
  },
  {
   "property": "C155",
   "status": "partial",
   "theorems": [
    "C155_workspace",
    "C155_untitled",
    "C155_rootless",
    "C155_package",
    "C155_inside",
    "C155_names",
    "C155_parent",
    "C155_distinct",
    "C155_panic_refuted",
    "C155_alias_refuted"
   ],
   "note": "All proved; a document can name a package of the namespace of workspaces and so cause a panic or an alias: C155_panic_refuted, C155_alias_refuted."
  },
  {
   "property": "C156",
   "status": "partial",
   "theorems": [
    "C156_places",
    "C156_match",
    "C156_update",
    "C156_mismatch",
    "C156_again",
    "C156_still",
    "C156_apart",
    "C156_shared_refuted",
    "C156_replaced_refuted"
   ],
   "note": "Proved for all; names with dots share a reference (C156_shared_refuted), and a reference without its hash is replaced without permission (C156_replaced_refuted)."
  },
  {
   "property": "C157",
   "status": "partial",
   "theorems": [
    "C157_verdict",
    "C157_order",
    "C157_duplicate",
    "C157_files",
    "C157_errors",
    "C157_both_refuted"
   ],
   "note": "Cases run one after another, in any order; the verdict is exact, but an example with a mismatch is logged as failed and as passed: C157_both_refuted."
  },
  {
   "property": "C158",
   "status": "partial",
   "theorems": [
    "C158_shown",
    "C158_lost",
    "C158_place",
    "C158_message",
    "C158_trace_refuted"
   ],
   "note": "Exact for all diagnostics; a diagnostic in a file that cannot be shown is lost even if its trace leads to the main file: C158_trace_refuted."
  },
  {
   "property": "C159",
   "status": "proved",
   "theorems": [
    "C159_files",
    "C159_check",
    "C159_keys",
    "C159_apart"
   ],
   "note": "Each file gets its diagnostics and lints, in order, once"
  },
  {
   "property": "C160",
   "status": "partial",
   "theorems": [
    "C160_links",
    "C160_range",
    "C160_relative",
    "C160_absolute_refuted"
   ],
   "note": "Links exact; targets proved for relative paths; absolute ones lead out of the root: C160_absolute_refuted."
  },
  {
   "property": "C161",
   "status": "partial",
   "theorems": [
    "C161_other",
    "C161_unnamed",
    "C161_missed_refuted",
    "C161_wrong_refuted"
   ],
   "note": "Refuted: the id in a link is that of the document with the link, so no link of another file is changed (C161_other, C161_missed_refuted) and links of the renamed file that lead elsewhere are (C161_wrong_refuted)."
  },
  {
   "property": "C162",
   "status": "partial",
   "theorems": [
    "C162_words",
    "C162_quote",
    "C162_injection_refuted",
    "C162_lost_path_refuted"
   ],
   "note": "Exact for the shells of the Bourne family if names stay on one line; a name with a line break runs what follows it: C162_injection_refuted; a path that is not a file leaves its option without a value: C162_lost_path_refuted. PowerShell is not modelled."
  },
  {
   "property": "C163",
   "status": "partial",
   "theorems": [
    "C163_same_partial",
    "C163_read_partial",
    "C163_unsupported",
    "C163_when_refuted",
    "C163_name_refuted",
    "C163_html_refuted",
    "C163_never_html",
    "C163_query_refuted",
    "C163_ppi_refuted",
    "C163_hyphen_refuted"
   ],
   "note": "Proved for documents known by their path and tasks with defaults other than pages, standards, fonts, root and packages; refuted for the rest: C163_unsupported (commands that are refused), C163_{when,name,html,query,ppi,hyphen}_refuted."
  },
  {
   "property": "C164",
   "status": "proved",
   "theorems": [
    "C164_read",
    "C164_detached",
    "C164_stable",
    "C164_taken",
    "C164_apart"
   ],
   "note": "A file has one content for all worlds of a session"
  },
  {
   "property": "C165",
   "status": "proved",
   "theorems": [
    "C165_dependencies",
    "C165_compile",
    "C165_quiet",
    "C165_queries_counted"
   ],
   "note": "The flag is on in every snapshot and only the clone a compilation works on switches it off, so reads by queries count too: C165_queries_counted."
  },
  {
   "property": "C166",
   "status": "proved",
   "theorems": [
    "C166_one_time",
    "C166_task"
   ],
   "note": "One date for all worlds of a snapshot"
  },
  {
   "property": "C167",
   "status": "proved",
   "theorems": [
    "C167_rows",
    "C167_answers",
    "C167_html",
    "C167_place"
   ],
   "note": "For items of at most 2^32 - 1 glyphs."
  },
  {
   "property": "C168",
   "status": "partial",
   "theorems": [
    "C168_copy",
    "C168_refused",
    "C168_only",
    "C168_starts",
    "C168_outside",
    "C168_entry",
    "C168_no_entry",
    "C168_undone_refuted"
   ],
   "note": "C168_undone_refuted: a failed start is not undone, and what it left makes the next start be refused. C168_no_entry: the entry point is not checked. Names of files of the package differ within a directory."
  },
  {
   "property": "C169",
   "status": "proved",
   "theorems": [
    "C169_woven",
    "C169_places",
    "C169_blocks",
    "C169_bodies",
    "C169_nowhere",
    "C169_show_set",
    "C169_else"
   ],
   "note": "For trees of a parser (inner nodes have no text). C169_nowhere: tests of bodies with one token have no place. C169_show_set and C169_else: texts that mean something else."
  },
  {
   "property": "C170",
   "status": "partial",
   "theorems": [
    "C170_reads",
    "C170_filter",
    "C170_hidden_refuted",
    "C170_universe"
   ],
   "note": "C170_hidden_refuted: a directory whose own name begins with a dot (as `.`) is read as empty. C170_universe: other namespaces panic."
  },
  {
   "property": "C171",
   "status": "partial",
   "theorems": [
    "C171_map",
    "C171_dir",
    "C171_copies",
    "C171_inside",
    "C171_outside_refuted",
    "C171_absolute",
    "C171_long_refuted"
   ],
   "note": "For directories, paths must stay below: C171_outside_refuted and C171_absolute otherwise. C171_long_refuted: long paths in archives."
  },
  {
   "property": "C172",
   "status": "partial",
   "theorems": [
    "C172_answer_partial",
    "C172_ordered",
    "C172_panics",
    "C172_named",
    "C172_panic_refuted",
    "C172_deep_refuted"
   ],
   "note": "C172_panic_refuted: comments and list items make requests without a pattern panic. C172_deep_refuted: only the first two levels are searched; C172_answer_partial is exact for those."
  },
  {
   "property": "C173",
   "status": "partial",
   "theorems": [
    "C173_session",
    "C173_online",
    "C173_answered",
    "C173_crash",
    "C173_away",
    "C173_launch",
    "C173_events",
    "C173_evaluate",
    "C173_numbered",
    "C173_welcome",
    "C173_malformed_refuted",
    "C173_wrap_refuted",
    "C173_announced_refuted",
    "C173_silent"
   ],
   "note": "C173_malformed_refuted: other arguments of a launch panic (exactly when: C173_crash). C173_wrap_refuted: numbers beyond an i32. C173_announced_refuted: breakpoints and step targets are announced without a handler. C173_silent: a finding."
  },
  {
   "property": "C174",
   "status": "proved",
   "theorems": [
    "C174_exact",
    "C174_order",
    "C174_once",
    "C174_unread",
    "C174_shadowed",
    "C174_others",
    "C174_presentations",
    "C174_first"
   ],
   "note": "C174_shadowed and C174_first are findings."
  },
  {
   "property": "C175",
   "status": "proved",
   "theorems": [
    "C175_resolve",
    "C175_aligned",
    "C175_dirty",
    "C175_flushed",
    "C175_first",
    "C175_once",
    "C175_sound",
    "C175_calm",
    "C175_index",
    "C175_loaded",
    "C175_describe",
    "C175_substitute",
    "C175_no_substitute",
    "C175_stale"
   ],
   "note": "C175_stale is a finding."
  },
  {
   "property": "C176",
   "status": "partial",
   "theorems": [
    "C176_file",
    "C176_untitled_partial",
    "C176_rootless_partial",
    "C176_resolved",
    "C176_distinct_partial",
    "C176_relative",
    "C176_panic",
    "C176_percent_refuted",
    "C176_hash_refuted",
    "C176_root_refuted"
   ],
   "note": "C176_untitled_partial, C176_rootless_partial and C176_distinct_partial ask for names without percent signs, question marks, hashes, tabs, ends of lines and trailing spaces; C176_percent_refuted, C176_hash_refuted: otherwise it is false. C176_root_refuted: the root of the file system."
  },
  {
   "property": "C177",
   "status": "partial",
   "theorems": [
    "C177_answer",
    "C177_nested",
    "C177_answers_partial",
    "C177_end_refuted"
   ],
   "note": "C177_answers_partial: not for the end of the document; C177_end_refuted: there the whole request has no answer."
  },
  {
   "property": "C178",
   "status": "partial",
   "theorems": [
    "C178_total",
    "C178_answer_partial",
    "C178_depth",
    "C178_ordered",
    "C178_deep_refuted"
   ],
   "note": "C178_answer_partial: labels of the first two levels of the hierarchy; C178_deep_refuted: the others are lost."
  },
  {
   "property": "C179",
   "status": "partial",
   "theorems": [
    "C179_rows",
    "C179_sums",
    "C179_bounds_partial",
    "C179_alloc",
    "C179_size_partial",
    "C179_size_panics",
    "C179_size_refuted",
    "C179_none_refuted"
   ],
   "note": "C179_bounds_partial: once a query ended; C179_none_refuted: before that the shortest time is the largest duration. C179_size_partial: below 768 terabytes; C179_size_refuted: above that the report panics (C179_size_panics)."
  },
  {
   "property": "C180",
   "status": "partial",
   "theorems": [
    "C180_calm",
    "C180_innermost",
    "C180_single",
    "C180_values_partial",
    "C180_runs",
    "C180_string",
    "C180_ninth_refuted"
   ],
   "note": "C180_values_partial: a single function is recognised by the first nine values; C180_ninth_refuted: the tenth may be another value."
  },
  {
   "property": "C181",
   "status": "proved",
   "theorems": [
    "C181_nearest",
    "C181_range",
    "C181_contents"
   ],
   "note": "Hovering shows what is at the position"
  },
  {
   "property": "C182",
   "status": "partial",
   "theorems": [
    "C182_exact",
    "C182_bars",
    "C182_flat",
    "C182_order_partial",
    "C182_functions_refuted"
   ],
   "note": "C182_order_partial: without functions; C182_functions_refuted: with two functions the order matters, and the second is lost."
  },
  {
   "property": "C183",
   "status": "proved",
   "theorems": [
    "C183_exact",
    "C183_variants",
    "C183_plain",
    "C183_twice",
    "C183_empty"
   ],
   "note": "C183_twice and C183_empty: findings beyond the statement."
  },
  {
   "property": "C184",
   "status": "partial",
   "theorems": [
    "C184_exact",
    "C184_members",
    "C184_dual",
    "C184_ends_partial",
    "C184_cycle_refuted",
    "C184_questions",
    "C184_sources"
   ],
   "note": "C184_ends_partial: without cycles; C184_cycle_refuted: with a variable that is directly in a bound of itself the recursion does not end."
  },
  {
   "property": "C185",
   "status": "partial",
   "theorems": [
    "C185_last_partial",
    "C185_bounds_refuted",
    "C185_kinds",
    "C185_features",
    "C185_offers",
    "C185_names",
    "C185_name",
    "C185_types_refuted"
   ],
   "note": "C185_last_partial: only the last bound counts; C185_bounds_refuted: a function bound before another bound is lost; C185_types_refuted: a type of values is completed as if its constructor had no parameters."
  },
  {
   "property": "C186",
   "status": "partial",
   "theorems": [
    "C186_plain",
    "C186_same",
    "C186_resolve",
    "C186_ended",
    "C186_links_refuted",
    "C186_fragments",
    "C186_summary_partial",
    "C186_weights_refuted"
   ],
   "note": "C186_links_refuted: a link to another file leads to the page for missing pages; C186_summary_partial / C186_weights_refuted: the greatest weight shown is that of the last variant in order."
  },
  {
   "property": "C187",
   "status": "partial",
   "theorems": [
    "C187_fonts_partial",
    "C187_window_refuted",
    "C187_packages",
    "C187_tags",
    "C187_labels",
    "C187_labels_refuted",
    "C187_values_partial",
    "C187_quotes_refuted",
    "C187_fields_refuted"
   ],
   "note": "C187_fonts_partial / C187_window_refuted: the word may be just outside of the 25 bytes looked at; C187_values_partial / C187_quotes_refuted: a quote only after the cursor; C187_labels_refuted: labels that cannot be written with signs; C187_fields_refuted: quotes in names of fields."
  },
  {
   "property": "C188",
   "status": "partial",
   "theorems": [
    "C188_definitions",
    "C188_ends",
    "C188_cycles",
    "C188_modules_refuted",
    "C188_fields",
    "C188_rename",
    "C188_agree_partial",
    "C188_agree_refuted"
   ],
   "note": "C188_modules_refuted: a name that has only a module without a name as its value ends in a panic; C188_agree_partial / C188_agree_refuted: a field is renamed though not prepared; C188_cycles: the order of imports is needed as a hypothesis."
  },
  {
   "property": "C189",
   "status": "partial",
   "theorems": [
    "C189_modes",
    "C189_mode_at_partial",
    "C189_ends_refuted",
    "C189_raw_refuted",
    "C189_code",
    "C189_math",
    "C189_markup",
    "C189_snippet",
    "C189_params",
    "C189_targets"
   ],
   "note": "C189_mode_at_partial / C189_ends_refuted: at the end of a document the mode is always markup; C189_raw_refuted: no languages are offered after the backticks of raw text after a hash."
  },
  {
   "property": "C190",
   "status": "partial",
   "theorems": [
    "C190_paths",
    "C190_source",
    "C190_items",
    "C190_spots",
    "C190_typed_refuted"
   ],
   "note": "C190_typed_refuted: a name written in full counts as imported and is not offered at its own place."
  },
  {
   "property": "C191",
   "status": "partial",
   "theorems": [
    "C191_total",
    "C191_fields",
    "C191_scope",
    "C191_docs_partial",
    "C191_docs_refuted",
    "C191_dict_refuted"
   ],
   "note": "C191_docs_partial / C191_docs_refuted: of several elements a field has the type of the first and the documentation of the last; C191_dict_refuted: methods of dictionaries with known fields are never offered."
  },
  {
   "property": "C192",
   "status": "partial",
   "theorems": [
    "C192_ends",
    "C192_steps",
    "C192_once",
    "C192_shows",
    "C192_internal_refuted"
   ],
   "note": "C192_internal_refuted: an exported module stands without its definitions where it is exported if something of it is exported by a name before it."
  },
  {
   "property": "C193",
   "status": "partial",
   "theorems": [
    "C193_types",
    "C193_steps",
    "C193_fields",
    "C193_again",
    "C193_strings",
    "C193_langs_refuted"
   ],
   "note": "C193_langs_refuted: in strings no languages and regions are offered."
  },
  {
   "property": "C194",
   "status": "proved",
   "theorems": [
    "C194_get",
    "C194_define",
    "C194_write",
    "C194_enter",
    "C194_panic",
    "C194_block",
    "C194_block_names"
   ],
   "note": "Scopes give the innermost definition"
  }
 ]
}