{"id": "C01", "title": "UTF-16 positions round-trip", "statement": "For every source text and every character boundary in it (including end of file), converting the byte offset to an LSP position in UTF-16 encoding and back gives the same byte offset.", "quantifier": "all source texts (any mix of 1..4-byte characters and newline kinds) and all character-boundary offsets", "why_tests_cant": "Texts and offsets are unbounded; the existing tests check one 14-byte string.", "anchors": ["crates/tinymist-analysis/src/location.rs: to_lsp_position, to_typst_position"]}
{"id": "C02", "title": "UTF-8-mode positions round-trip", "statement": "For every source text and every character boundary in it, converting the byte offset to an LSP position in the UTF-8 encoding mode and back gives the same byte offset.", "quantifier": "all source texts, all character-boundary offsets", "why_tests_cant": "Unbounded texts; no test uses the UTF-8 mode on a multi-byte text.", "anchors": ["crates/tinymist-analysis/src/location.rs: to_lsp_position, to_typst_position"]}
{"id": "C03", "title": "UTF-8-mode columns are byte columns", "statement": "In the UTF-8 position encoding the character field of a produced LSP position counts bytes from the start of the line, as the protocol (and the enum's own documentation) says.", "quantifier": "all source texts and offsets", "why_tests_cant": "Only texts with multi-byte characters before the offset distinguish bytes from characters.", "anchors": ["crates/tinymist-analysis/src/location.rs: PositionEncoding::Utf8, to_lsp_position"]}
{"id": "C04", "title": "Position conversion is total and in bounds on client positions", "statement": "Whatever line/character a client sends, if the conversion to an offset succeeds the offset is within the text and on a character boundary; positions at or past the last line clamp to end of file; the conversion never fails for a position whose line is before the last one and whose column lies within that line.", "quantifier": "all texts, all (line, character) pairs", "why_tests_cant": "Infinitely many out-of-range pairs; failures only for particular line/column combinations.", "anchors": ["crates/tinymist-analysis/src/location.rs: to_typst_position"]}
{"id": "C05", "title": "Incremental edits keep server text equal to client text", "statement": "Starting from the same text, after any sequence of didChange content changes whose ranges are valid positions in the client's document, the server's copy is exactly the client's document. ", "quantifier": "all initial texts and all finite sequences of ranged / full-text changes", "why_tests_cant": "Errors compound over histories of edits with multi-byte characters.", "anchors": ["crates/tinymist/src/input.rs: edit_source", "crates/tinymist-analysis/src/location.rs: to_typst_range"]}
{"id": "C06", "title": "No client edit can crash the server", "statement": "A didChange notification with an arbitrary range either is applied or reports an error; it never terminates the server by a panic.", "quantifier": "all texts, all ranges (including reversed or out-of-range ones)", "why_tests_cant": "Only unusual ranges trigger the panic path.", "anchors": ["crates/tinymist/src/input.rs: edit_source (expect)", "crates/tinymist-analysis/src/location.rs: to_typst_range"]}
{"id": "C07", "title": "Message framing round-trips over streams", "statement": "Writing any sequence of messages to a byte stream and reading it back yields the same sequence of messages, each exactly once and in order, followed by a clean end of stream.", "quantifier": "all finite lists of message bodies (arbitrary bytes that are valid UTF-8)", "why_tests_cant": "Bodies may contain header-like text, CRLFs, and any length; boundary errors appear only for specific contents.", "anchors": ["crates/sync-lsp/src/msg.rs: read_msg_text, write_msg_text"]}
{"id": "C08", "title": "Truncated frames are never delivered", "statement": "If a stream of well-framed messages is cut at an arbitrary byte, the reader delivers exactly the messages that were completely received and then reports end of stream or an error; it never delivers a message that was not sent.", "quantifier": "all message lists and all cut points", "why_tests_cant": "Crash points are every byte position of every stream.", "anchors": ["crates/sync-lsp/src/msg.rs: read_msg_text"]}
{"id": "C09", "title": "Extra headers do not matter", "statement": "A frame with additional headers, in any order and with any letter case of Content-Length, delivers the same body as the canonical frame; a frame with no Content-Length or a header line without ': ' is rejected.", "quantifier": "all header lists and bodies", "why_tests_cant": "Header sets are unbounded.", "anchors": ["crates/sync-lsp/src/msg.rs: read_msg_text"]}
{"id": "C10", "title": "At most one response per request", "statement": "Over any interleaving of incoming requests, asynchronous completions, cancellations and notifications, the number of responses sent for a request id never exceeds the number of requests received with that id.", "quantifier": "all event histories and all schedules of asynchronous completions", "why_tests_cant": "Depends on races between cancellation and completion.", "anchors": ["crates/sync-lsp/src/req_queue.rs", "crates/sync-lsp/src/server.rs", "crates/sync-lsp/src/server/lsp_srv.rs"]}
{"id": "C11", "title": "Every finished request is answered", "statement": "If request ids in flight are distinct, then every received request has been answered exactly once, except those whose asynchronous handler is still working; when such a handler finishes, its result is sent at once. This holds whether or not the client asked to cancel the request.", "quantifier": "all histories with distinct in-flight ids", "why_tests_cant": "Quantifies over all schedules.", "anchors": ["crates/sync-lsp/src/req_queue.rs: Incoming", "crates/sync-lsp/src/server.rs: respond"]}
{"id": "C12", "title": "Lifecycle protocol", "statement": "Before initialize no request other than initialize reaches a handler (each is answered with ServerNotInitialized); after shutdown every request is answered with InvalidRequest; initialize succeeds at most once; nothing is processed after exit.", "quantifier": "all message sequences", "why_tests_cant": "All orders of lifecycle and ordinary messages.", "anchors": ["crates/sync-lsp/src/server/lsp_srv.rs"]}
{"id": "C13", "title": "Outgoing request ids are unique and callbacks fire once", "statement": "Server-initiated requests carry pairwise different ids (until the 32-bit counter is exhausted) and each client response invokes the callback of exactly the request with that id, at most once; unknown ids invoke nothing.", "quantifier": "all histories of outgoing requests and incoming responses", "why_tests_cant": "Histories are unbounded; responses may be duplicated or reordered.", "anchors": ["crates/sync-lsp/src/req_queue.rs: Outgoing"]}
{"id": "C14", "title": "Dynamic capability registration alternates", "statement": "For any sequence of configuration changes, the register and unregister requests sent to the client for one capability strictly alternate beginning with register, and the capability is registered exactly when the last applied setting enables it.", "quantifier": "all sequences of configuration changes", "why_tests_cant": "Histories of settings.", "anchors": ["crates/tinymist/src/lsp.rs: enable_sema_token_caps, enable_formatter_caps, on_changed_configuration"]}
{"id": "C15", "title": "Editor contents shadow the disk", "statement": "As long as a document is open in the editor, reading it in any compilation returns the editor's text regardless of disk or watcher events; after it is closed reads return the newest watcher/disk content.", "quantifier": "all histories of open/change/close, watcher updates and disk contents", "why_tests_cant": "Depends on interleavings of layers.", "anchors": ["crates/tinymist-vfs/src/lib.rs", "crates/tinymist-vfs/src/overlay.rs", "crates/tinymist-vfs/src/notify.rs"]}
{"id": "C16", "title": "Snapshot isolation of file reads", "statement": "A world snapshot keeps returning, for a file it has already read, the contents it read the first time, whatever is changed in the live file system afterwards.", "quantifier": "all files and all histories of later changes and reads", "why_tests_cant": "Schedules of edits during a compilation.", "anchors": ["crates/tinymist-vfs/src/lib.rs: snapshot, EntryMap", "crates/tinymist-world/src/source.rs: SourceDb"]}
{"id": "C17", "title": "Virtual file system revisions are monotone", "statement": "The revision of the virtual file system never decreases, and it strictly increases for every batch of changes that altered a shadow or a watched file.", "quantifier": "all histories of change batches", "why_tests_cant": "Histories unbounded.", "anchors": ["crates/tinymist-vfs/src/lib.rs: RevisingVfs"]}
{"id": "C18", "title": "Skipping a compilation is sound", "statement": "If the server decides that nothing a previous compilation read has changed since its revision (and hence skips recompiling), then every file that compilation read still has the contents it read.", "quantifier": "all histories of reads, changes, evictions; all dependency sets", "why_tests_cant": "A wrong skip shows only after particular histories.", "anchors": ["crates/tinymist-vfs/src/lib.rs: is_clean_compile, evict, invalidate_file_id", "crates/tinymist/src/project.rs: on_any_compile_reason"]}
{"id": "C19", "title": "Parsed source agrees with bytes", "statement": "For every file, the parsed source handed to the compiler has exactly the text obtained by decoding the bytes that reading the same file in the same snapshot returns (BOM stripped).", "quantifier": "all contents and read orders", "why_tests_cant": "Read orders and invalidation histories.", "anchors": ["crates/tinymist-vfs/src/lib.rs: source, read_content"]}
{"id": "C20", "title": "No change is lost by the compile scheduler", "statement": "After any sequence of edits, file events and compile completions, when the scheduler is quiescent the last started compilation was started at or after the last relevant change.", "quantifier": "all event interleavings", "why_tests_cant": "Race of change versus in-flight compilation.", "anchors": ["crates/tinymist-project/src/compiler.rs", "crates/tinymist/src/project.rs"]}
{"id": "C21", "title": "Stale compilation results are ignored", "statement": "The revision of the result shown to clients (status, diagnostics, exports, previews) for a project never goes backwards, whatever the completion order of compilations.", "quantifier": "all completion orders", "why_tests_cant": "Completion order is a schedule.", "anchors": ["crates/tinymist-project/src/compiler.rs: process_compile", "crates/tinymist/src/project.rs: compiled, notify_compile"]}
{"id": "C22", "title": "Last good document is retained", "statement": "After a failing compilation, the document served to queries and preview is the one of the most recent successful compilation.", "quantifier": "all sequences of successful and failing compilations", "why_tests_cant": "Histories.", "anchors": ["crates/tinymist-project/src/compiler.rs: CompiledArtifact, success_doc"]}
{"id": "C23", "title": "Editor updates reach the compiler in order", "statement": "After all pending events are delivered, the in-memory contents seen by the compiler are the ones of the editor's last update for every file, even though some updates are routed through the file watcher and come back later.", "quantifier": "all interleavings of memory updates and watcher round-trips", "why_tests_cant": "Needs a race between a delayed and a direct update.", "anchors": ["crates/tinymist-project/src/compiler.rs: process_interrupt Memory/Fs, apply_delayed_memory_changes"]}
{"id": "C24", "title": "Watcher reports every settled change", "statement": "When a watched file has settled (its content stays the same through the recheck delay), the last content reported to the compiler equals the file's content on disk.", "quantifier": "all sequences of file-system events and contents", "why_tests_cant": "Histories of saves that truncate, delete and rewrite files.", "anchors": ["crates/tinymist-project/src/watch.rs: notify_entry_update, recheck_notify_event"]}
{"id": "C25", "title": "Watcher does not repeat itself", "statement": "The watcher never reports two consecutive identical contents for the same file through events.", "quantifier": "all sequences of file-system events", "why_tests_cant": "Histories.", "anchors": ["crates/tinymist-project/src/watch.rs"]}
{"id": "C26", "title": "Lock file upserts", "statement": "Replacing a document, task or route in the lock file leaves exactly one entry for its identity with the new contents, leaves every other entry unchanged, and doing it twice is the same as once.", "quantifier": "all lock files and all entries", "why_tests_cant": "Arbitrary lock file contents.", "anchors": ["crates/tinymist-project/src/lock.rs: replace_document, replace_task, replace_route"]}
{"id": "C27", "title": "Route priority is respected", "statement": "When several routes map a file to different documents, the one with the best priority (lowest number) is chosen.", "quantifier": "all route lists", "why_tests_cant": "Order-dependent.", "anchors": ["crates/tinymist/src/route.rs: calculate_routes", "crates/tinymist-project/src/model.rs: ProjectRoute"]}
{"id": "C28", "title": "Atomic file writes survive crashes", "statement": "Whatever the crash point of writing an exported file, the destination afterwards holds either the complete old content or the complete new content. The same is expected of the project lock file.", "quantifier": "all old/new contents and all crash points", "why_tests_cant": "Crash points cannot be enumerated by tests.", "anchors": ["crates/tinymist-std/src/fs/paths.rs: write_atomic", "crates/tinymist-project/src/lock.rs: LockFile::update"]}
{"id": "C29", "title": "Page range syntax round-trips and selects the right pages", "statement": "Printing and re-parsing a page range gives the same range; a parsed list of ranges includes a page exactly when some range contains it.", "quantifier": "all page ranges and page numbers", "why_tests_cant": "Unbounded numbers.", "anchors": ["crates/tinymist-task/src/primitives.rs: Pages, exported_page_ranges"]}
{"id": "C30", "title": "Fingerprints round-trip through their text form", "statement": "Every fingerprint rendered as a string parses back to the same fingerprint, and different fingerprints render differently.", "quantifier": "all 128-bit values", "why_tests_cant": "2^128 values.", "anchors": ["crates/tinymist-std/src/hash.rs: Fingerprint, as_svg_id, from_str/try_from_str"]}
{"id": "C31", "title": "Preview span ids resolve to the span they were given for", "statement": "An id handed to the preview client resolves to the span it was created for, for as long as it is within its advertised lifetime (30 renders), and afterwards is reported as expired, never as another span.", "quantifier": "all histories of interning and resets", "why_tests_cant": "The failure needs more than 30 renders.", "anchors": ["crates/typst-preview/src/debug_loc.rs: SpanInterner"]}
{"id": "C32", "title": "Preview span id encoding", "statement": "The hexadecimal form of a span id parses back to the same id.", "quantifier": "all 64-bit ids", "why_tests_cant": "2^64 values.", "anchors": ["crates/typst-preview/src/debug_loc.rs: InternId"]}
{"id": "C33", "title": "Rollback restores an undoable map", "statement": "After any sequence of insertions, removals and nested snapshots, rolling back to a snapshot restores exactly the contents at the time the snapshot was taken; committing keeps the contents.", "quantifier": "all operation sequences and nestings", "why_tests_cant": "Nesting depth and sequences unbounded.", "anchors": ["crates/tinymist-analysis/src/adt/snapshot_map.rs"]}
{"id": "C34", "title": "Semantic token positions decode", "statement": "Decoding the relative token encoding sent to the client yields exactly the absolute positions, lengths, types and modifiers of the tokens, in order, for every token list sorted by position.", "quantifier": "all sorted token lists", "why_tests_cant": "Unbounded lists.", "anchors": ["crates/tinymist-query/src/analysis/semantic_tokens.rs: Tokenizer::push"]}
{"id": "C35", "title": "Semantic token delta applies", "statement": "Applying the computed delta to the previously sent token data gives the new token data, and the delta is empty exactly when the data are equal.", "quantifier": "all pairs of token lists", "why_tests_cant": "All pairs.", "anchors": ["crates/tinymist-query/src/semantic_tokens_delta.rs: token_delta"]}
{"id": "C36", "title": "Analysis revisions stay alive while locked", "statement": "While some request holds a lock on an analysis revision, garbage collection triggered by other unlocks never discards that revision's slot or newer ones.", "quantifier": "all lock/find/unlock histories", "why_tests_cant": "Schedules of requests.", "anchors": ["crates/tinymist-query/src/adt/revision.rs: RevisionManager"]}
{"id": "C37", "title": "Published diagnostics are the union of current results", "statement": "After any sequence of per-project diagnostics updates, what the client last received for a file is exactly the union over live projects of their latest diagnostics for it; files no longer affected have been cleared.", "quantifier": "all update sequences over all projects and files", "why_tests_cant": "Histories with several projects.", "anchors": ["crates/tinymist/src/actor/editor.rs: publish, publish_file"]}
{"id": "C38", "title": "Newer diagnostics win", "statement": "When diagnostics of two compilations of one project are delivered out of order, the client ends up with those of the newer compilation.", "quantifier": "all delivery orders", "why_tests_cant": "Race in a thread pool.", "anchors": ["crates/tinymist/src/actor/editor.rs: publish", "crates/tinymist/src/project.rs: notify_diagnostics"]}
{"id": "C39", "title": "Background exports: one at a time, newest last", "statement": "A background task queue runs at most one task at a time, never loses the newest submitted work, and, when submissions carry increasing revisions, runs them in increasing order.", "quantifier": "all interleavings of submissions and completions", "why_tests_cant": "Schedules.", "anchors": ["crates/tinymist/src/task/mod.rs: FutureFolder"]}
{"id": "C40", "title": "Exports of different projects do not displace each other", "statement": "Submitting an export for one project never discards the pending export of another project.", "quantifier": "all submission interleavings of at least two projects", "why_tests_cant": "Schedules.", "anchors": ["crates/tinymist/src/task/mod.rs: FutureFolder", "crates/tinymist/src/task/export.rs"]}
{"id": "C41", "title": "Outline preserves headings", "statement": "The outline tree of the preview lists every bookmarked heading exactly once in document order, and every child has a greater level than its parent.", "quantifier": "all heading sequences", "why_tests_cant": "Unbounded sequences and nestings.", "anchors": ["crates/typst-preview/src/outline.rs: get_outline"]}
{"id": "C42", "title": "Resolved source ranges are ordered and clamped", "statement": "The source range reported for a preview selection is ordered (start not after end) and lies within the clicked element's range whenever that is known.", "quantifier": "all element / start / end span results", "why_tests_cant": "All combinations.", "anchors": ["crates/typst-preview/src/actor/render.rs: resolve_span_range"]}
{"id": "C43", "title": "Formatting edits produce the formatted text", "statement": "Applying the returned text edits to the document yields exactly the formatter's output; if the formatter changes nothing no edit is returned.", "quantifier": "all old and new texts", "why_tests_cant": "Depends on byte coincidences inside multi-byte characters.", "anchors": ["crates/tinymist/src/task/format.rs: calc_diff"]}
{"id": "C44", "title": "Word count", "statement": "The reported word count equals the number of CJK characters plus the number of maximal runs of non-space non-CJK characters; the character count equals the number of characters.", "quantifier": "all texts", "why_tests_cant": "All texts.", "anchors": ["crates/tinymist/src/tool/word_count.rs"]}
{"id": "C45", "title": "Folding ranges are valid", "statement": "With line-folding-only clients, every folding range has start line strictly before end line, lies in the document, and no two ranges are equal.", "quantifier": "all candidate range lists", "why_tests_cant": "Arbitrary nestings.", "anchors": ["crates/tinymist-query/src/folding_range.rs"]}
{"id": "C46", "title": "Document symbols contain every definition", "statement": "Every function/variable/heading the lexical analysis finds in a document appears in the documentSymbol result, independently of comments in the document.", "quantifier": "all syntax trees", "why_tests_cant": "All trees.", "anchors": ["crates/tinymist-query/src/syntax/lexical_hierarchy.rs", "crates/tinymist-query/src/document_symbol.rs"]}
{"id": "C47", "title": "Preview control plane keeps serving", "statement": "The preview's control-plane loop keeps serving after any well-formed request from the page or the editor; it stops only when the connections close.", "quantifier": "all message histories", "why_tests_cant": "Histories.", "anchors": ["crates/typst-preview/src/actor/editor.rs: EditorActor::run"]}
{"id": "C48", "title": "Preview registration is exclusive", "statement": "At most one preview is registered per project at a time, registering succeeds exactly when none is registered, and killing a preview frees the slot.", "quantifier": "all histories of start/kill", "why_tests_cant": "Histories.", "anchors": ["crates/tinymist/src/project.rs: ProjectPreviewState", "crates/tinymist/src/actor/preview.rs"]}
{"id": "C49", "title": "World revisions and cache keys", "statement": "If two snapshots of the compiler universe taken through the public mutators have the same revision then they have the same entry, inputs, fonts and file-system revision.", "quantifier": "all histories of mutations", "why_tests_cant": "Histories.", "anchors": ["crates/tinymist-world/src/world.rs: CompilerUniverse, RevisingUniverse"]}
{"id": "C50", "title": "Entry resolution is stable", "statement": "Resolving the compilation entry for the same path twice gives the same project root and main file, as long as the directory tree does not change.", "quantifier": "all directory trees, settings and paths; all numbers of repetitions", "why_tests_cant": "Cache states.", "anchors": ["crates/tinymist-project/src/entry.rs: EntryResolver"]}
{"id": "C51", "title": "Path normalization", "statement": "Normalizing a path is idempotent, leaves no '.' components, and the normalized path of an absolute path never escapes the root.", "quantifier": "all component lists", "why_tests_cant": "Unbounded paths.", "anchors": ["crates/tinymist-std/src/fs/paths.rs: normalize_path"]}
{"id": "C52", "title": "Sharded fingerprint map indexing is in bounds", "statement": "For every requested shard count the unchecked shard access is within bounds for every fingerprint, and a key always maps to the same shard.", "quantifier": "all shard counts and fingerprints", "why_tests_cant": "All 128-bit keys.", "anchors": ["crates/tinymist-std/src/adt/fmap.rs: FingerprintMap"]}
{"id": "C53", "title": "Columns past the end of a line clamp to its end", "statement": "A position whose character is past the end of its line denotes the end of that line (the LSP rule), in either encoding.", "quantifier": "all texts, lines and columns", "why_tests_cant": "Editors rarely send such columns; infinitely many do exist and only the neighbouring lines decide what happens.", "anchors": ["crates/tinymist-analysis/src/location.rs: to_typst_position"]}
{"id": "C54", "title": "No request can crash the dispatcher", "statement": "No client message, well-formed as JSON-RPC, makes the driver's own dispatch code panic (handlers aside).", "quantifier": "all message sequences", "why_tests_cant": "Any panic terminates the release build (panic = abort); the space of message sequences is unbounded.", "anchors": ["crates/sync-lsp/src/server.rs: get_resources", "crates/sync-lsp/src/server/lsp_srv.rs: on_lsp_request"]}
{"id": "C55", "title": "Requests in service get their handler's answer", "statement": "Between the handshake and shutdown, every request whose handler finishes synchronously is answered at once with exactly that handler's result, unknown methods and commands with MethodNotFound, undecodable parameters with the proper error; handlers run exactly when they exist and the parameters decode; notifications reach their registered handlers.", "quantifier": "all histories and all requests", "why_tests_cant": "All combinations of histories and handler outcomes.", "anchors": ["crates/sync-lsp/src/server/lsp_srv.rs: on_lsp_request, on_execute_command, on_notification", "crates/sync-lsp/src/server.rs: schedule, schedule_tail"]}
{"id": "C56", "title": "Position encoding is agreed with the client", "statement": "The position encoding in which the server interprets and emits positions is the one the client must assume after initialize: the announced positionEncoding, or UTF-16 when none is announced.", "quantifier": "for every list of encodings offered by the client (or none)", "why_tests_cant": "the handshake depends on which encodings the client offers and in which order; tests use one fixed client", "anchors": ["crates/tinymist/src/config.rs: ConstConfig::from", "crates/tinymist/src/lsp/init.rs: initialize"]}
{"id": "C57", "title": "Rejected settings change nothing", "statement": "If the settings in didChangeConfiguration do not validate, the server keeps its whole configuration and sends nothing.", "quantifier": "for every settings object and server state", "why_tests_cant": "there are unboundedly many settings objects and the update is assembled from more than thirty fields", "anchors": ["crates/tinymist/src/config.rs: update_by_map, validate", "crates/tinymist/src/lsp.rs: on_changed_configuration"]}
{"id": "C58", "title": "Repeated settings have no effect", "statement": "Sending the same settings object twice in a row: the second leaves the configuration unchanged and triggers no registration, no watcher or formatter change, no export change.", "quantifier": "for every settings object and server state", "why_tests_cant": "requires comparing all side effects for all settings objects", "anchors": ["crates/tinymist/src/lsp.rs: on_changed_configuration", "crates/tinymist/src/config.rs"]}
{"id": "C59", "title": "Each setting is determined by its own documented key", "statement": "The effective value of a setting depends only on the value of the key under which it is documented, and a value that decodes is taken over.", "quantifier": "for every two settings objects and every setting", "why_tests_cant": "a copy-paste error in one of the keys is only visible for a combination of keys no test sends", "anchors": ["crates/tinymist/src/config.rs: update_by_map", "editors/vscode/package.json"]}
{"id": "C60", "title": "Initialization options and didChangeConfiguration agree", "statement": "The same settings object yields the same configuration whether sent as initializationOptions or by didChangeConfiguration.", "quantifier": "for every settings object and history of earlier changes", "why_tests_cant": "there are two code paths and infinitely many objects", "anchors": ["crates/tinymist/src/config.rs: update, extract_lsp_params", "crates/tinymist/src/lsp.rs: did_change_configuration"]}
{"id": "C61", "title": "Polling workspace/configuration keeps settings", "statement": "If the client answers the server's workspace/configuration request with the settings it gave at initialization, the configuration does not change.", "quantifier": "for every settings object", "why_tests_cant": "the polled list is a separate constant that can miss a setting", "anchors": ["crates/tinymist/src/config.rs: CONFIG_ITEMS, get_items, values_to_map", "crates/tinymist/src/lsp.rs: on_changed_configuration"]}
{"id": "C62", "title": "The tinymist namespace takes precedence without losing the rest", "statement": "A setting inside the `tinymist` object of the initialization options overrides the same setting outside, and a setting it does not mention keeps the value given outside.", "quantifier": "for every settings object with a tinymist object in it", "why_tests_cant": "needs combinations of nested and flat keys", "anchors": ["crates/tinymist/src/config.rs: update, update_by_map"]}
{"id": "C63", "title": "The scheduler never panics", "statement": "No sequence of interrupts, compile completions, project restarts, removals and reloads makes the project server panic.", "quantifier": "all event interleavings", "why_tests_cant": "A result that arrives after its project was removed needs a race between a compilation and the end of a preview.", "anchors": ["crates/tinymist-project/src/compiler.rs: find_project, process_inner", "crates/tinymist/src/project.rs: reload_projects"]}
{"id": "C64", "title": "Every compilation of a project is reported", "statement": "When a compilation of a project that exists is started, a status report with its revision reaches the client, also after the project was closed and opened again.", "quantifier": "all histories of projects", "why_tests_cant": "Needs a project that is removed and created again after several compilations.", "anchors": ["crates/tinymist/src/project.rs: status, notify_removed", "crates/tinymist-project/src/compiler.rs: restart_dedicate, remove_dedicates"]}
{"id": "C65", "title": "Closed files are read again", "statement": "Whenever an update from the editor ends the life of a file's in-memory content, the file watcher is asked to read that file from disk; the record of which files are open in the editor, on which this decision rests, is exact.", "quantifier": "all sequences of memory updates and watcher round trips", "why_tests_cant": "The record is updated by several kinds of events; a single missed file makes stale contents stay forever.", "anchors": ["crates/tinymist-project/src/compiler.rs: process_inner, Interrupt::Memory"]}
{"id": "C66", "title": "Dependencies stay watched", "statement": "After a compilation hands its dependencies to the watcher, the operating system watches each of them that can be watched, and this lasts until the next list of dependencies.", "quantifier": "all sequences of dependency lists, editor updates and file-system events", "why_tests_cant": "Depends on what other events do to the watches between two compilations.", "anchors": ["crates/tinymist-project/src/watch.rs: update_watches, invalidate_upstream, notify_event"]}
{"id": "C67", "title": "Analysis answers belong to the queried world", "statement": "Whatever the cache holds, an analysis answered to a request equals the analysis computed from scratch in the world the request sees.", "quantifier": "all histories of requests, edits, collections and clears", "why_tests_cant": "Cached results of other revisions and other projects are candidates for every request.", "anchors": ["crates/tinymist-query/src/analysis/global.rs: IncrCacheMap, AnalysisRevCache", "crates/tinymist-query/src/adt/revision.rs: RevisionManager"]}
{"id": "C68", "title": "Semantic token result ids", "statement": "A semantic-token delta is computed against exactly the tokens that were answered under the previous id for the same file; ids are not reused; the newest answered id can be used as a base; no request makes the server panic.", "quantifier": "all histories of token requests, completions and cache clears", "why_tests_cant": "Requests overlap and old slots are collected in between.", "anchors": ["crates/tinymist-query/src/analysis/semantic_tokens.rs: SemanticTokenCache", "crates/tinymist-query/src/analysis/global.rs: cached_tokens"]}
{"id": "C69", "title": "Semantic tokens cover the document", "statement": "For every syntax tree the tokens answered, decoded as the protocol says, cut the text into fragments of one line each (or into the leaves, with multi-line tokens), give every character the type of its leaf and the modifiers of the nodes around it, and do not overlap.", "quantifier": "all trees, encodings and client capabilities", "why_tests_cant": "All trees; the tokenizer slices parent tokens around their children.", "anchors": ["crates/tinymist-query/src/analysis/semantic_tokens.rs: Tokenizer::tokenize_tree, Tokenizer::push"]}
{"id": "C70", "title": "Concurrent lock file updates are serial", "statement": "Updates and reads of the lock file by any number of processes, interleaved in any way, behave as if they ran one after the other: each update starts from what the last one left, no update is lost, and every reader sees a complete file.", "quantifier": "all initial files, all jobs and all interleavings, on a file system that has locks; processes may die outside the write", "why_tests_cant": "Interleavings of processes cannot be enumerated by tests.", "anchors": ["crates/tinymist-project/src/lock.rs: LockFile::update, LockFile::read", "crates/tinymist-std/src/fs/flock.rs"]}
{"id": "C71", "title": "Route resolution", "statement": "A file is routed to the document of the nearest ancestor directory whose lock file has a route for it; the answer names a lock state that is loaded; a changed lock file is used by the next request.", "quantifier": "all directories, lock files, materials and histories", "why_tests_cant": "Histories of requests and of changes on disk.", "anchors": ["crates/tinymist/src/route.rs: ProjectRouteState::resolve, ProjectRouteState::update_lock"]}
{"id": "C72", "title": "Resource paths round trip", "statement": "The text form of a resource path, which the lock file stores, is parsed back to the same resource path, and no two strings are parsed to the same one.", "quantifier": "all schemes and paths", "why_tests_cant": "File names are arbitrary strings.", "anchors": ["crates/tinymist-task/src/primitives.rs: ResourcePath"]}
{"id": "C73", "title": "Output path substitution", "statement": "Substituting an output pattern replaces every variable by the root, the directory and the name of the main file and leaves the rest of the pattern and the replaced texts alone.", "quantifier": "all patterns, roots, directories and names", "why_tests_cant": "Directory names are arbitrary strings.", "anchors": ["crates/tinymist-task/src/primitives.rs: PathPattern::substitute"]}
{"id": "C74", "title": "Fingerprints identify contents", "statement": "Whenever two calls of the fingerprint builder return the same fingerprint they were given the same content; a call that cannot keep this reports the conflict.", "quantifier": "all hash functions, contents and histories of calls", "why_tests_cant": "Hash collisions cannot be produced by tests.", "anchors": ["crates/tinymist-std/src/hash.rs: FingerprintBuilder::resolve"]}
{"id": "C75", "title": "Relative paths lead to their target", "statement": "The relative path computed between two paths, as it is offered for completion, leads from the second to the first; cleaning a path and writing it with slashes keep where it leads.", "quantifier": "all paths (texts)", "why_tests_cant": "Paths are unbounded; '.' and '..' components may occur anywhere.", "anchors": ["crates/tinymist-std/src/path.rs: diff, unix_slash, clean", "crates/tinymist-query/src/analysis/completion/path.rs"]}
{"id": "C76", "title": "Moving a file keeps references", "statement": "After a file is renamed or moved with the edits the server returns, every import, include and link that led to it leads to its new place, and all others lead where they led before.", "quantifier": "all old and new places, all references", "why_tests_cant": "References are arbitrary relative or absolute paths with detours.", "anchors": ["crates/tinymist-query/src/rename.rs: RenameFileWorker", "crates/tinymist-query/src/will_rename_files.rs"]}
{"id": "C77", "title": "Paths in the lock file lead back", "statement": "A path that is stored in the lock file is read back as a path to the same file.", "quantifier": "all inputs and directories", "why_tests_cant": "The directory of the process and of the lock file vary independently.", "anchors": ["crates/tinymist-task/src/primitives.rs: ResourcePath::from_user_sys, to_abs_path", "crates/tinymist-project/src/lock.rs: LockFileUpdate::compiled"]}
{"id": "C78", "title": "Project root and main file of a path", "statement": "The main file that is chosen for a path is the file at that path, it lies under the chosen root, and the root is the configured one, else the first workspace folder that contains the file, else the nearest directory with a typst.toml, else the directory of the file.", "quantifier": "all paths, settings, directory trees and cache states", "why_tests_cant": "Trees, folders and paths with detours are unbounded.", "anchors": ["crates/tinymist-project/src/entry.rs: EntryResolver", "crates/tinymist-world/src/entry.rs: EntryState"]}
{"id": "C79", "title": "Compile status follows the primary project", "statement": "Every status message to the client shows the latest report and the latest word count of the primary project; reports and counts of it always lead to a message while notifications are on, other projects never do.", "quantifier": "all sequences of reports, word counts and changes of settings", "why_tests_cant": "Interleavings of reports of several projects with changes of settings.", "anchors": ["crates/tinymist/src/actor/editor.rs: run", "crates/tinymist/src/project.rs: status"]}
{"id": "C80", "title": "Jumps mean the same characters to editor and preview", "statement": "A range selected in the preview is shown by the editor as exactly the source characters it came from, and a jump from the editor starts from the character at the cursor (positions of the language server protocol count UTF-16 units).", "quantifier": "all texts, nodes, offsets and cursor positions", "why_tests_cant": "Columns differ only for characters beyond the basic plane; tests use ASCII or CJK text.", "anchors": ["crates/tinymist/src/tool/preview/compile.rs: resolve_span, resolve_source_span, resolve_document_position", "crates/tinymist/src/tool/preview.rs: send_show_document", "crates/typst-preview/src/actor/render.rs: resolve_span_range"]}
{"id": "C81", "title": "Previews never bring the server down", "statement": "Whatever the order of starting, killing and reloading previews, every compilation a preview asks for is of a project that exists, so the server thread does not panic.", "quantifier": "all histories of start, kill and reload, all orders of delivery", "why_tests_cant": "The panic needs a particular order of independent queues.", "anchors": ["crates/tinymist-project/src/compiler.rs: find_project", "crates/tinymist/src/tool/preview.rs: PreviewState::start", "crates/tinymist/src/project.rs: reload_projects"]}
{"id": "C82", "title": "Requests of a preview page are understood or refused", "statement": "Every text of the page's protocol is turned into the request it means and leaves the page connected; any other text ends that page's connection only; no text panics, and no frame of the websocket protocol ends the connection.", "quantifier": "all texts, all states of the preview, any number of pages", "why_tests_cant": "Texts from the page are arbitrary.", "anchors": ["crates/typst-preview/src/actor/webview.rs: WebviewActor::run", "crates/tinymist/src/tool/preview.rs: frontend"]}
{"id": "C83", "title": "A preview page shows the latest accepted document", "statement": "When a page has been told of a document and nothing is left to be done for it, the last document it was sent is the last that was compiled successfully and taken by the refresh style; only such a compilation changes what is shown.", "quantifier": "all interleavings of compilations, pages, renderers and lagging broadcast receivers", "why_tests_cant": "Depends on the order of independent tasks and on messages merged in a batch.", "anchors": ["crates/typst-preview/src/actor/render.rs: RenderActor::run", "crates/typst-preview/src/lib.rs: CompileWatcher::notify_compile"]}
{"id": "C84", "title": "The data plane shuts itself down exactly when idle", "statement": "The data plane with a shutdown channel stops by itself only if no page is connected and none arrived in the last five seconds, and it does stop if that is so.", "quantifier": "all histories of connections, handshakes, reports and time", "why_tests_cant": "Time and failed handshakes.", "anchors": ["crates/typst-preview/src/lib.rs: DataPlane::spawn"]}
{"id": "C85", "title": "A pinned main file stays", "statement": "Once the user has pinned a file, it is the main file of the primary project and of all queries until the user pins another or unpins; a file pinned by a preview stays until the preview ends.", "quantifier": "all histories of opening, requests, focusing, previews and settings", "why_tests_cant": "Combinations of flags over histories.", "anchors": ["crates/tinymist/src/input.rs: pin_main_file, focus_main_file, change_main_file", "crates/tinymist/src/server.rs: is_pinning", "crates/tinymist/src/tool/preview.rs: start_preview"]}
{"id": "C86", "title": "Without pins the main file is the focused one", "statement": "The focused file is that of the last focus command, else of the last activity, else the last opened; while nothing pins and there is no default entry, it is the main file; a default entry is the main file unless pinned otherwise.", "quantifier": "all histories", "why_tests_cant": "Combinations of flags over histories.", "anchors": ["crates/tinymist/src/input.rs: implicit_focus_entry, focus_main_file", "crates/tinymist/src/lsp.rs: on_changed_configuration", "crates/tinymist/src/project.rs: reload_projects"]}
{"id": "C87", "title": "The cursor told to previews is in the focused file", "statement": "The position scrolled to without arguments was last asked for in the file it is told with, since that file is focused.", "quantifier": "all histories of requests and focusing", "why_tests_cant": "Needs requests in two files.", "anchors": ["crates/tinymist/src/server.rs: infer_pos", "crates/tinymist/src/lsp/query.rs: hover, completion, signature_help", "crates/tinymist/src/input.rs: focus_main_file"]}
{"id": "C88", "title": "Interned values are equal exactly when their contents are", "statement": "Whatever threads intern, clone and drop, two handles in use are equal exactly if their contents are; the content of a handle never changes and its memory is not freed while it is held; the table has one entry per content, interning gives a handle on the content asked for, and no thread waits for a shard whose holder waits.", "quantifier": "all interleavings of any number of threads, all assignments of contents to shards", "why_tests_cant": "Races between the last drop and a new interning.", "anchors": ["crates/tinymist-analysis/src/adt/interner.rs: Interned::new, new_str, drop, drop_slow, clone, eq"]}
{"id": "C89", "title": "The table of interned values keeps nothing unused", "statement": "When no handle on a content is left, its entry is gone from the table.", "quantifier": "all interleavings", "why_tests_cant": "Needs two drops at the same time.", "anchors": ["crates/tinymist-analysis/src/adt/interner.rs: drop, drop_slow"]}
{"id": "C90", "title": "A compilation tells why it was made", "statement": "The reasons a compilation is started with, and which the export and lint tasks are decided by, are exactly the kinds of events that touched its project since the scheduler last decided to compile or to skip it; the result that is announced carries them, so an export on save runs for a document exactly if a file or the entry changed since then.", "quantifier": "all tame histories of interrupts, ends of compilations, deliveries and queries", "why_tests_cant": "Needs saves, edits and queries while compilations run.", "anchors": ["crates/tinymist-project/src/compiler.rs: snapshot, make_snapshot, process_inner", "crates/tinymist-world/src/snapshot.rs: should_run_task", "crates/tinymist/src/task/export.rs: signal_export", "crates/tinymist/src/project.rs: on_any_compile_reason"]}
{"id": "C91", "title": "The reason of a harmless change is announced with the last document", "statement": "When files change that the last document does not depend on, it is not compiled again but announced again with the new reason.", "quantifier": "all tame histories", "why_tests_cant": "The code path is never taken, so no test sees it fail.", "anchors": ["crates/tinymist/src/project.rs: emit_pending_reasons, on_any_compile_reason"]}
{"id": "C92", "title": "What is computed of a world is computed once, and is the same for all who ask", "statement": "All answers to the same computation on the same graph are equal and never change; a fork made once the entry exists gives the same answer; each graph compiles each kind at most once, unless the compiler panics; threads that wait for each other's results never wait in a circle, every schedule makes only finitely many steps, and who asked is answered.", "quantifier": "all histories of new graphs, forks, provided flags, calls and interleaved steps of any number of threads, with panics of the compiler", "why_tests_cant": "Needs all interleavings of threads on shared cells.", "anchors": ["crates/tinymist-world/src/compute.rs: WorldComputeGraph"]}
{"id": "C93", "title": "The document and the diagnostics of an artefact are of one compilation", "statement": "When the kinds to compile are provided before anything is asked of a graph, and it is forked only with the entries its entries need, the document and the diagnostics answered for it are those of one compilation of the provided kind on its snapshot, the document being absent exactly if the errors are present; the other kind is not compiled and has no diagnostics; no answer is an error.", "quantifier": "all histories as in C92 in which flags are provided first", "why_tests_cant": "Needs all interleavings, and forks at all times.", "anchors": ["crates/tinymist-world/src/compute.rs: CompilationTask, OptionDocumentTask, DiagnosticsTask", "crates/tinymist-project/src/compiler.rs: from_graph"]}
{"id": "C94", "title": "A package that is resolved is whole", "statement": "Whenever `resolve` answers with a directory of the cache, all files of the package are in it, and they stay there.", "quantifier": "all histories of calls of `resolve` by any number of threads and processes, replies of the registry, failures and kills", "why_tests_cant": "Needs downloads that overlap, fail or are killed at every point.", "anchors": ["crates/tinymist-package/src/registry/http.rs: PackageStorage::prepare_package, download_package"]}
{"id": "C95", "title": "Packages are taken from the data directory, then from the cache, then from the registry", "statement": "A package that is in the data directory is resolved to that directory, one that is only in the cache to that one, both without a request; a package of another namespace than `preview` is never asked for; a package of `preview` that is nowhere is asked for once per call, and with a proper archive the call ends with exactly its files.  Nothing but the directories of packages that were asked for is written, all below the root of the cache, and packages with different specs have different directories.", "quantifier": "all specs whose names are names of the language; all histories as in C94", "why_tests_cant": "Needs all states of the directories and all interleavings.", "anchors": ["crates/tinymist-package/src/registry/http.rs: PackageStorage::prepare_package, download_package"]}
{"id": "C96", "title": "The packages that are listed are those that can be resolved", "statement": "Listing the packages of a namespace gives exactly the directories two levels below it in the data directory and the cache whose names are versions and do not start with a dot, and each of them can be resolved to the path that is listed.", "quantifier": "all contents of both directories", "why_tests_cant": "Needs all names of directories.", "anchors": ["crates/tinymist-query/src/package.rs: list_package_by_namespace", "crates/tinymist-package/src/registry/http.rs: PackageStorage::prepare_package"]}
{"id": "C97", "title": "The latest version of a package is the greatest there is", "statement": "For `preview` the answer is the greatest version in the index, for other namespaces the greatest in the data directory, which can then be resolved; there is no answer exactly if there is none.  A failure to fetch the index is not remembered.", "quantifier": "all indices, all contents of the data directory, all failures", "why_tests_cant": "Needs all orders of versions and a failure before a success.", "anchors": ["crates/tinymist-package/src/registry/http.rs: PackageStorage::determine_latest_version, download_index"]}
{"id": "C98", "title": "Only pages of known origins get a websocket of the previewer", "statement": "A request with an `Origin` header is served exactly if the origin is that of the server itself (its host and port), one of the editor (`vscode-webview`), an HTTP page of `localhost` or `127.0.0.1`, or the proxy of the gitpod workspace; any other header closes the connection, whatever is asked for, and no request makes the server crash.", "quantifier": "all origins that browsers send, all hosts and ports of the server, all parsers of URLs that read the parts of origins", "why_tests_cant": "Needs all origins, not those of a list.", "anchors": ["crates/tinymist/src/tool/preview/http.rs: make_http_server, is_valid_origin_impl"]}
{"id": "C99", "title": "Timings are sent to the editor only", "statement": "The server of timings answers a request exactly if its `Origin` has the scheme `vscode-webview`, and then allows exactly that origin to read the answer.", "quantifier": "all origins, methods and paths", "why_tests_cant": "Needs all headers.", "anchors": ["crates/tinymist/src/task/user_action.rs: make_http_server"]}
{"id": "C100", "title": "Misplaced statements are reported", "statement": "The linter reports a `break` or `continue` exactly if no loop is around it in its function, naming the function and the loop around that one, and a `return` exactly if no function is around it, at the places it looks at; evaluation of a file or function that ends with such a stray event has a warning; the linter does not panic.", "quantifier": "all syntax trees, all evaluations", "why_tests_cant": "Needs all trees and all ways through them.", "anchors": ["crates/tinymist-lint/src/lib.rs: Linter, with_loop_info, with_func_info, bad_branch_stmt"]}
{"id": "C101", "title": "Values reported as discarded are discarded", "statement": "A value or rule which the linter reports as discarded by a `return` is discarded: an evaluation of the function in which it is joined ends with `return` of another value.", "quantifier": "all functions, all evaluations of them", "why_tests_cant": "Needs all ways through the function.", "anchors": ["crates/tinymist-lint/src/lib.rs: LateFuncLinter, late_func_return"]}
{"id": "C102", "title": "Rules reported as without effect have none", "statement": "The linter reports the rules of a body of a conditional or loop, or of what a show rule puts in place, exactly if the body is a block of nothing but rules (up to the first `break` or `continue`), and evaluation of such a block shows nothing.", "quantifier": "all syntax trees, all evaluations of the block", "why_tests_cant": "Needs all blocks.", "anchors": ["crates/tinymist-lint/src/lib.rs: buggy_block, only_show"]}
{"id": "C103", "title": "Names resolve to what Typst binds them to", "statement": "For each name in a file, the table of resolved names says what Typst's rules of scoping say: the definition, module or library value in force at that place.", "quantifier": "all files, all libraries, all projects without cyclic imports", "why_tests_cant": "Scoping is a property of all programs; tests hold a few.", "anchors": ["crates/tinymist-query/src/syntax/expr.rs: ExprWorker, eval_ident, resolve_ident, check_module_import, import_decls, check_pattern, with_scope"]}
{"id": "C104", "title": "A file exports what it binds at its end", "statement": "The exports of a file are the bindings in force at its end, and a definition counts as exported exactly if it is the one bound to its name then.", "quantifier": "all files and names", "why_tests_cant": "Needs all orders of definitions and imports.", "anchors": ["crates/tinymist-query/src/syntax/expr.rs: summarize_scope, push_scope", "crates/tinymist-analysis/src/syntax/def.rs: is_exported, merge_into"]}
{"id": "C105", "title": "References to a definition are found, and nothing else", "statement": "The names of a file found to refer to a variable or function defined in it or imported are exactly those that do by Typst's rules.", "quantifier": "all files, all definitions", "why_tests_cant": "Needs all programs.", "anchors": ["crates/tinymist-analysis/src/syntax/def.rs: get_refs", "crates/tinymist-query/src/syntax/expr.rs: resolve_ident, resolve_as"]}
{"id": "C106", "title": "The analysis of names ends and keeps its scopes", "statement": "The analysis of a file never closes a scope that is not open, a block leaves the scopes as it found them, and following the source of an import comes to an end.", "quantifier": "all files, both stages", "why_tests_cant": "Termination on all inputs cannot be tested.", "anchors": ["crates/tinymist-query/src/syntax/expr.rs: with_scope, fold_expr, check_import"]}
{"id": "C107", "title": "References are found in all files of the workspace", "statement": "Asked for the references to a variable or function, the server reports every name in every file of the workspace that means it, no other name, and each once; the search ends.", "quantifier": "all workspaces, all import graphs, all definitions", "why_tests_cant": "The search follows imports from file to file; tests hold projects of two or three files.", "anchors": ["crates/tinymist-query/src/references.rs: ReferencesWorker", "crates/tinymist-query/src/analysis/global.rs: SearchCtx", "crates/tinymist-query/src/syntax/module.rs: construct_module_dependencies", "crates/tinymist-query/src/syntax/index.rs: get_index_info", "crates/tinymist-analysis/src/syntax/def.rs: get_refs, is_exported"]}
{"id": "C108", "title": "Renaming keeps the meaning of every name", "statement": "After the edits of a rename have been applied, every name in every file of the workspace means what it meant before, the renamed definition under its new name.", "quantifier": "all workspaces, all import graphs, all definitions, all new names", "why_tests_cant": "Whether another name is captured or left behind depends on all the scopes of all the files; tests compare the edits of small projects with snapshots.", "anchors": ["crates/tinymist-query/src/rename.rs: RenameRequest::request", "crates/tinymist-query/src/prepare_rename.rs: prepare_renaming", "crates/tinymist-query/src/references.rs: ReferencesWorker"]}
{"id": "C109", "title": "Each argument is given the name of the parameter it is passed to", "statement": "The parameter that the analysis of a call gives to an argument, and that an inlay hint shows before it, is the one Typst passes the argument to; a hint is shown exactly for the arguments the settings ask for; the analysis never panics.", "quantifier": "all parameter lists, all `with` calls, all argument lists", "why_tests_cant": "The pairing depends on the number of parameters of each kind, on the bindings and on all the arguments before; tests are snapshots of a few calls, one of which holds a wrong name.", "anchors": ["crates/tinymist-query/src/analysis/call.rs: analyze_call_no_cache", "crates/tinymist-analysis/src/sig.rs: func_signature, PrimarySignature", "crates/tinymist-query/src/inlay_hint.rs: InlayHintWorker::analyze_node"]}
{"id": "C110", "title": "Signature help marks the parameter of the argument", "statement": "With the cursor at an argument, signature help lists all the parameters of the function, in a set rule the settable ones, and marks the one the argument is passed to.", "quantifier": "all parameter lists, all `with` calls, all argument lists, all cursors at an argument", "why_tests_cant": "The mark is an index into a list built from another list; tests are snapshots of single cursors.", "anchors": ["crates/tinymist-query/src/signature_help.rs: SignatureHelpRequest::request", "crates/tinymist-analysis/src/syntax/matcher.rs: arg_context", "crates/tinymist-analysis/src/sig.rs: param_shift"]}
{"id": "C111", "title": "Types of arguments are matched with those of their parameters", "statement": "Matching a function type with the types of arguments pairs the type of each positional argument, those applied by `with` first, with that of the positional or rest parameter at its position, and nothing else; the parts of a function type are those it was made of.", "quantifier": "all function types, all argument types, all `with` calls", "why_tests_cant": "The streams and their common length are computed from four lists; no test compares the pairs.", "anchors": ["crates/tinymist-analysis/src/ty/def.rs: SigTy::matches, SigTy::new, NameBone::find"]}
{"id": "C112", "title": "Highlighting a loop marks its keyword and its jumps", "statement": "With the cursor at the keyword of a loop, or at a `break` or `continue`, what is highlighted is the keyword of the nearest loop and exactly the breaks and continues that belong to it, each once, the same from all of them; those of nested loops, closures and `context` are not; a jump outside any loop highlights nothing.", "quantifier": "all parsed trees, all cursors", "why_tests_cant": "The answer depends on all the nodes between the loop and each jump; tests are snapshots of single loops.", "anchors": ["crates/tinymist-query/src/analysis/doc_highlight.rs: DocumentHighlightWorker", "crates/tinymist-query/src/document_highlight.rs: DocumentHighlightRequest::request"]}
{"id": "C113", "title": "Code actions change what they say and nothing else", "statement": "Applying a code action to the text gives: the selection in a content block; the heading one level deeper or less deep; the equation inline, as a block, or as a block on several lines, with the mark that follows it moved in; all other text is kept. They are offered for the nearest heading and equation, and not for equations that are not closed.", "quantifier": "all texts, headings, equations and selections", "why_tests_cant": "The result depends on the text around the equation and on what is between its body and the dollar signs; tests are snapshots of the edits, not of the text they make.", "anchors": ["crates/tinymist-query/src/analysis/code_action.rs: CodeActionWorker::work, wrap_actions, heading_actions, equation_actions"]}
{"id": "C114", "title": "Enter continues comments and opens equations at the right column", "statement": "Enter in a line comment opens a line on which a comment with the same prefix starts at the same column, unless it is a plain comment on its own; in a blank equation it opens a line indented by two from the column of the equation and puts what follows on a line at that column; elsewhere it does what the editor does.", "quantifier": "all texts, all cursors", "why_tests_cant": "The column is computed from the text before the node and the group from the siblings on both sides; tests are snapshots of single cursors.", "anchors": ["crates/tinymist-query/src/on_enter.rs: OnEnterRequest::request, OnEnterWorker"]}
{"id": "C115", "title": "Instrumenting a file for coverage only adds to it", "statement": "The text given to the compiler for a file is the text of the file with additions only, apart from white space after `context`; the calls that are added are numbered in order, each is followed by one entry of the table, and each entry lies at a place of the file or at none. No line break is added where the file has none that matters to markup.", "quantifier": "all parsed trees", "why_tests_cant": "The text is put together during a walk that changes its mode at every kind of expression; tests are snapshots of small files.", "anchors": ["crates/tinymist-debug/src/cov.rs: InstrumentWorker::instrument, visit_node, visit_node_fallback, instrument_block, instrument_functor, make_cov"]}
{"id": "C116", "title": "A program runs the same with coverage, and exactly the bodies entered are reported", "statement": "The instrumented text is that of a program that has the same results, effects on variables and control flow as the original, for every meaning of literals and operators, every input and every bound on the number of steps; the calls it makes stand, in order, for the bodies the original enters and leaves.", "quantifier": "all programs of the language of code blocks, content, variables, closures, calls, conditionals, loops, jumps", "why_tests_cant": "Agreement of two runs over all programs; a test runs one.", "anchors": ["crates/tinymist-debug/src/cov.rs: InstrumentWorker"]}
{"id": "C117", "title": "The counts of coverage are the numbers of calls", "statement": "A run that reads files and makes the calls of the files it read never panics; afterwards each count is the number of calls of that place, at most 255; the report has every place executed iff its call was made, the summary the number of them, and every file is instrumented once.", "quantifier": "all files, all sequences of reads and calls", "why_tests_cant": "The counts live in shared memory behind a cache of the last file; the result depends on the whole sequence.", "anchors": ["crates/tinymist-debug/src/cov.rs: CoverageMap, __cov_pc, CoverageResult::to_json, summarize, CovInstr::instrument", "crates/tinymist-debug/src/instrument.rs: InstrumentWorld::source"]}
{"id": "C118", "title": "A debug session that is started runs and is ended", "statement": "Starting a session when none runs installs it, compiles, and ends it; starting one while another runs ends at once and leaves the other alone.", "quantifier": "all sequences of sessions", "why_tests_cant": "No test starts a session.", "anchors": ["crates/tinymist-debug/src/debugger.rs: set_debug_session", "crates/tinymist-dap/src/lib.rs: start_session"]}
{"id": "C119", "title": "Simplifying a type ends and leaves no variable", "statement": "If every variable of a type and of the bounds of variables has bounds, `simplify` returns, in both modes and also when variables are bounded by each other, and no variable is left in the result; if it returns, every variable that is met has bounds.", "quantifier": "all types, all variables with their bounds", "why_tests_cant": "Variables may be bounded by each other; ending depends on the cache that is filled on the way.", "anchors": ["crates/tinymist-analysis/src/ty/simplify.rs: TypeInfo::simplify, TypeSimplifier::analyze, transform"]}
{"id": "C120", "title": "Simplifying a type neither loses nor invents types", "statement": "What the simplified type tells (builtins, values, composite types, signatures) is exactly what the type, the bounds of its variables, the bounds of their variables and so on tell; the principal type tells only such things.", "quantifier": "all types, all variables with their bounds, bounded by each other or not", "why_tests_cant": "The cache cuts off variables that are being simplified; that nothing is lost altogether depends on the order of the whole walk.", "anchors": ["crates/tinymist-analysis/src/ty/simplify.rs: TypeSimplifier::transform, transform_let, transform_sig"]}
{"id": "C121", "title": "A type is simplified by replacing each variable by its bounds", "statement": "If no variable is bounded by itself over others, the result of `simplify` is the type with every variable replaced by its bounds, those simplified; this determines the result, and it does not depend on the order of bounds or on bounds given twice.", "quantifier": "all types, all variables with bounds without cycles", "why_tests_cant": "The result comes from a cache shared by all places; tests simplify few types.", "anchors": ["crates/tinymist-analysis/src/ty/simplify.rs: TypeSimplifier::transform, transform_let"]}
{"id": "C122", "title": "A simplified type is simplified to itself", "statement": "The result of `simplify` has no bounds or unions that could be made smaller: bounds are sorted sets of at least two, unions are sorted, have at least two types and none that is any; simplifying it again gives it again.", "quantifier": "all types, all variables", "why_tests_cant": "A statement about every result.", "anchors": ["crates/tinymist-analysis/src/ty/simplify.rs: TypeSimplifier::transform, transform_let", "crates/tinymist-analysis/src/ty/def.rs: Ty::from_types"]}
{"id": "C123", "title": "The type of a call is the body with what was passed", "statement": "`Sig::call` gives the body of the signature with every variable among the parameters replaced by the last argument passed to it (by position, with spreads on both sides and arguments given before by `with`, or by name), other variables by what they were bound to; there is a result just if there is a body, and the bindings outside are as before.", "quantifier": "all signatures, arguments, earlier arguments, bindings and bodies", "why_tests_cant": "Spreads, names and earlier arguments combine without bound.", "anchors": ["crates/tinymist-analysis/src/ty/subst.rs: Sig::call, SubstituteChecker::ty", "crates/tinymist-analysis/src/ty/mutate.rs: TyMutator", "crates/tinymist-analysis/src/ty/def.rs: SigTy::matches"]}
{"id": "C124", "title": "Constraints between types add exactly the bounds they ask for", "statement": "From any variables, any sequence of constraints and calls ends without panic if all variables are known, and adds to each variable exactly the upper and lower bounds that follow from the types compared (through unions, fields, builtin dictionaries, operators, parameters), values as their types if the variable is weak; order and repetition make no difference, nor does the memory of calls.", "quantifier": "all sequences of constraints and calls on all types", "why_tests_cant": "The memory of calls cuts recursion; that nothing is lost by it is a statement about all sequences.", "anchors": ["crates/tinymist-query/src/analysis/tyck.rs: constrain, constrain_sig_inputs, check_containing, possible_ever_be", "crates/tinymist-analysis/src/ty/def.rs: SigTy::matches, RecordTy::common_iface_fields"]}
{"id": "C125", "title": "Weakening marks exactly the variables it reaches and loses no bound", "statement": "`weaken` marks the variables that occur in the type outside of bodies of signatures and changes nothing else; in any sequence with weakenings each bound asked for is there as asked or as the type of the value, as asked if the variable is never weak, as the type if it was weak from the start; no other bound is.", "quantifier": "all types, all sequences of constraints, calls and weakenings", "why_tests_cant": "A statement about all sequences and states.", "anchors": ["crates/tinymist-query/src/analysis/tyck.rs: weaken, weaken_constraint"]}
{"id": "C126", "title": "The type of a block is that of its only expression with a value", "statement": "A block of expressions without value has the type none; with one such expression that one's type; with several an undefined type; a variable among them is the result, and several variables give any. What says nothing may be left out anywhere.", "quantifier": "all lists of types", "why_tests_cant": "All sequences of expressions.", "anchors": ["crates/tinymist-query/src/analysis/tyck.rs: Joiner::join, finalize", "crates/tinymist-query/src/analysis/tyck/syntax.rs: check_in_mode"]}
{"id": "C127", "title": "A definition is documented by the comments right before it", "statement": "A `let` or closure gets as documentation the comments of the group directly before the expression it is first in (no paragraph break, no two line breaks, nothing else between), and no others.", "quantifier": "all trees of expressions, sequences and comments", "why_tests_cant": "Groups and nesting are unbounded; a matcher shared by all levels carries comments between them.", "anchors": ["crates/tinymist-analysis/src/syntax/comment.rs: CommentGroupMatcher, DocCommentMatcher", "crates/tinymist-query/src/syntax/expr.rs: check_in_mode, check_let, check_closure, check_docstring"]}
{"id": "C128", "title": "The text of documentation is what the comments say, without common indentation", "statement": "`DocCommentMatcher::collect` gives what each comment says (without slashes, or without the marks of a block), as lines, without the indentation they have in common.", "quantifier": "all groups of comments", "why_tests_cant": "All texts.", "anchors": ["crates/tinymist-analysis/src/syntax/comment.rs: DocCommentMatcher::collect"]}
{"id": "C129", "title": "The documentation of a module is the first group of `///` comments", "statement": "`find_module_level_docs` gives the text of the `///` comments in the group at the very start of the file, or nothing.", "quantifier": "all files", "why_tests_cant": "All sequences of tokens.", "anchors": ["crates/tinymist-analysis/src/syntax/comment.rs: find_module_level_docs, extract_mod_docs_between"]}
{"id": "C130", "title": "Parameters are read off the end of the documentation", "statement": "`identify_pat_docs` splits the lines of a documentation into documentation, items that describe parameters, and the type of the result; it gives the parameters in order with names, types and texts, and the documentation without them.", "quantifier": "all texts, all marks of items", "why_tests_cant": "Items of any number of lines, with nested brackets.", "anchors": ["crates/tinymist-analysis/src/docs/tidy.rs: identify_pat_docs, match_brace"]}
{"id": "C131", "title": "Documentation that cannot be converted is shown inside fences it cannot close", "statement": "`fallback_docs` shows the error and the documentation in code blocks: the fence is longer than any run of backticks in the documentation, and the error has no two backticks in a row.", "quantifier": "all texts and errors", "why_tests_cant": "All texts.", "anchors": ["crates/tinymist-query/src/syntax/docs.rs: DocsChecker::fallback_docs"]}
{"id": "C132", "title": "The entries of a YAML bibliography are its named mappings, at their bytes", "statement": "For the events of any documents `YamlBib::from_content` gives an entry for each mapping right inside the outermost one whose key came before it, in order, with the bytes of the key and of the mapping; a file that cannot be parsed to its end has the entries before the fault; it does not panic.", "quantifier": "all YAML documents, all cuts of their events, all texts", "why_tests_cant": "Documents of any nesting; characters of one to four bytes.", "anchors": ["crates/tinymist-query/src/analysis/bib.rs: YamlBibLoader::on_event, YamlBib::from_content"]}
{"id": "C133", "title": "Several bibliography files are merged by key", "statement": "`bib_info` gives each key once, in the order the keys are first defined, with the place of the last definition, and with the last entry of hayagriva after that definition; files of other extensions or that cannot be decoded add nothing; it does not panic.", "quantifier": "all lists of files", "why_tests_cant": "All lists, all extensions in all spellings.", "anchors": ["crates/tinymist-query/src/analysis/bib.rs: bib_info, BibWorker::analyze_path, yaml_bib, tex_bib"]}
{"id": "C134", "title": "A click finds what is drawn on top at that place", "statement": "`jump_from_click` gives the span of the topmost glyph, rectangle or image under the click (for text behind the glyph if its right half is clicked), nothing if a link is there; it finds something whenever something with a source is there.", "quantifier": "all frames, all nestings of groups, all clicks", "why_tests_cant": "Frames of any depth; coordinates in nested groups.", "anchors": ["crates/tinymist-query/src/jump.rs: jump_from_click, is_in_rect"]}
{"id": "C135", "title": "A cursor in text finds its places in the document", "statement": "`jump_from_cursor` gives for every page the place of the first glyph of the text at the cursor; if there is none, the place of the first of the closest glyphs of the same file; nothing outside text.", "quantifier": "all documents, all spans", "why_tests_cant": "Pages and groups of any number; the search carries the closest over pages.", "anchors": ["crates/tinymist-query/src/jump.rs: jump_from_cursor, find_in_frame"]}
{"id": "C136", "title": "Placeholders of completions are numbered", "statement": "`to_lsp_snippet` gives the placeholders `${...}` of a text (on one line, shortest, from left to right) the numbers 1, 2, ... and leaves all else as it is; a text without placeholders is unchanged.", "quantifier": "all texts", "why_tests_cant": "Texts of any length with openings that do not end, nested openings, line breaks.", "anchors": ["crates/tinymist-query/src/analysis/completion.rs: to_lsp_snippet"]}
{"id": "C137", "title": "A completion replaces the identifier, label or reference under the cursor", "statement": "Applying the edit of an item replaces the whole identifier (within arguments with the cursor inside it: the part before the cursor, with a comma after), keeps the delimiters of labels and references, and changes nothing else; the range contains the cursor.", "quantifier": "all sources, cursors and snippets", "why_tests_cant": "All positions of the cursor in all nestings.", "anchors": ["crates/tinymist-query/src/analysis/completion.rs: CompletionCursor::lsp_item_of, selected_node, is_arg_like_context"]}
{"id": "C138", "title": "Completions are filtered by what was typed and ordered types first", "statement": "After an identifier the items are those whose label contains the typed characters in order; the sort texts order the items of the expected type first, then the others, both sorted; a missing parenthesis, blank or the rest of a show rule is put around every item.", "quantifier": "all lists of items, all typed texts", "why_tests_cant": "Lists of any length: the order breaks at a thousand.", "anchors": ["crates/tinymist-query/src/analysis/completion.rs: CompletionWorker::work, CompletionPair::complete_cursor, enrich"]}
{"id": "C139", "title": "Postfix completions wrap the expression before the dot", "statement": "The edits of a postfix completion together put the snippet with the expression in place of the expression, the dot and the word typed; the same for the calls with the expression as argument; nothing else of the source changes.", "quantifier": "all sources, expressions, snippets and functions", "why_tests_cant": "Several edits at once on any source.", "anchors": ["crates/tinymist-query/src/analysis/completion/snippet.rs: postfix_completions, ufcs_completions"]}
{"id": "C140", "title": "Slices of sources never panic", "statement": "`slice_at` gives for every range the characters of the text that are wholly in the range.", "quantifier": "all texts, all ranges", "why_tests_cant": "All ranges, also within characters and beyond the end.", "anchors": ["crates/tinymist-query/src/analysis/completion.rs: slice_at"]}
{"id": "C141", "title": "A prefix snippet is offered exactly where one of its contexts matches", "statement": "A snippet is offered iff one of its contexts allows the mode and the surrounding syntax of the cursor (nothing given: any; negative: any but these); a request triggered by a parenthesis, comma or colon is answered only if configured.", "quantifier": "all contexts, modes and syntaxes", "why_tests_cant": "All combinations of selectors.", "anchors": ["crates/tinymist-query/src/analysis/completion/snippet.rs: snippet_completions", "crates/tinymist-query/src/completion/snippet.rs: CompletionContext, PrefixSnippet", "crates/tinymist-query/src/completion.rs: CompletionRequest::request"]}
{"id": "C142", "title": "Code in Markdown is fenced so that it cannot end early", "statement": "The conversion to Markdown puts raw text between fences longer than any run of backticks in it, and no longer than needed; inline raw text is kept between backticks; errors shown in a block have no two backticks next to each other.", "quantifier": "all raw texts, errors and documents", "why_tests_cant": "Runs of any length at any place, also at the end.", "anchors": ["crates/typlite/src/library.rs: raw", "crates/typlite/src/lib.rs: raw, to_raw_block, render_code"]}
{"id": "C143", "title": "Boxes become quotes line by line", "statement": "A note, tip, important, warning or caution box is the line `> [!TITLE]` and every line of its converted body after `> `.", "quantifier": "all bodies", "why_tests_cant": "All line ends in all bodies.", "anchors": ["crates/typlite/src/library.rs: note_box"]}
{"id": "C144", "title": "Tables have all cells in rows of as many cells as columns", "statement": "The cells of a table or grid are converted in order, each once, in rows of exactly the number of columns but for the last; headers are separate; the conversion never panics.", "quantifier": "all lists of cells, all numbers of columns", "why_tests_cant": "All lengths and numbers, zero and negative ones too.", "anchors": ["crates/typlite/src/library.rs: table_eval"]}
{"id": "C145", "title": "Contexts are compiled with the code before them", "statement": "A context expression is compiled with exactly the code statements of the document before it, each with its hash on its own line.", "quantifier": "all sequences of text and code", "why_tests_cant": "Sequences of any length.", "anchors": ["crates/typlite/src/lib.rs: eval, contextual"]}
{"id": "C146", "title": "Images of a document have files of their own", "statement": "Every rendered expression has its own number, its files are written once and hold the image the compiler gave for the theme; the document refers to just these files.", "quantifier": "all documents, all results of the compiler", "why_tests_cant": "Documents of any size and nesting.", "anchors": ["crates/typlite/src/lib.rs: render, render_code, render_inner"]}
{"id": "C147", "title": "Includes end and leave the including file as it was", "statement": "The conversion of a file ends if its includes are well founded; an include changes neither the list depth nor the kept code; the two marks of a list item name the same depth, also around nested lists and includes.", "quantifier": "all documents and worlds", "why_tests_cant": "Graphs of includes of any depth.", "anchors": ["crates/typlite/src/lib.rs: include, sub_file, list_item"]}
{"id": "C148", "title": "Documents are converted piece by piece", "statement": "Converting a document is converting its pieces one after the other and putting the texts together; markup becomes its Markdown marks around the converted body; examples show the lines not marked `>>>` and compile the lines not marked `<<< `.", "quantifier": "all documents, all examples", "why_tests_cant": "All splits of all documents.", "anchors": ["crates/typlite/src/lib.rs: reduce, strong, emph, heading, list_item, enum_item", "crates/typlite/src/library/docstring.rs: example", "crates/typlite/src/library.rs: link, strike, md_alter"]}
{"id": "C149", "title": "Messages are said with their arguments", "statement": "A message is its translation with each placeholder `{name}` replaced by the argument of that name; all other text of it is kept.", "quantifier": "all messages, translations and arguments", "why_tests_cant": "Any number of placeholders at any place.", "anchors": ["crates/tinymist-l10n/src/lib.rs: t_with_args, find_message"]}
{"id": "C150", "title": "The locale chosen is that of the user, or its language", "statement": "Setting a locale chooses the translations of exactly that locale, or else of the language before a hyphen; a locale without translations changes nothing; translations are set once; a message without translation is said as it is.", "quantifier": "all locales and sets of translations", "why_tests_cant": "Any order of the hash map.", "anchors": ["crates/tinymist-l10n/src/lib.rs: set_translations, set_locale, find_message"]}
{"id": "C151", "title": "Files of translations are read as they are written", "statement": "Each line `language = message` gives the message of that language for the section it is in, the last one counts, and both views of the file (by key and by language) agree; messages in quotes are decoded when loaded; no file makes the reader panic.", "quantifier": "all files", "why_tests_cant": "All texts.", "anchors": ["crates/tinymist-l10n/src/lib.rs: deserialize, load_translations"]}
{"id": "C152", "title": "Updating the translations keeps what is translated", "statement": "After an update the file has exactly the keys of the program, their English messages are those of the program, and the translations of these keys to other languages are as before; what is written can be read again.", "quantifier": "all files and lists of messages", "why_tests_cant": "All files, keys and messages.", "anchors": ["crates/tinymist-l10n/src/lib.rs: update_disk_translations, update_translations, serialize_translations"]}
{"id": "C153", "title": "All messages of the program are found", "statement": "The tool finds exactly the calls of the translation macros and functions with literal arguments, with the text of the literals as written; a literal ends at its first quote without a backslash.", "quantifier": "all source texts", "why_tests_cant": "Literals with any escapes at any place.", "anchors": ["crates/tinymist-l10n/src/main.rs: check_calls, parse_char, parse_str"]}
{"id": "C154", "title": "The id of a workspace means its root", "statement": "A workspace id leads to the root it was made for, and does so for ever; different roots never share an id; the same root gets the same id.", "quantifier": "all sequences of requests, all roots", "why_tests_cant": "Any order and number of requests in one process.", "anchors": ["crates/tinymist-vfs/src/path_mapper.rs: WorkspaceInterner, WorkspaceResolver::workspace_id, path"]}
{"id": "C155", "title": "A file id leads to its path below its root", "statement": "The path of a file is its virtual path below the root of its workspace or package; untitled files and files without a root have none; no virtual path leads out of the root; files with the same id are the same path of the same root.", "quantifier": "all files, roots and virtual paths", "why_tests_cant": "All virtual paths, with any number of dots and parents.", "anchors": ["crates/tinymist-vfs/src/path_mapper.rs: WorkspaceResolver::{path_for_id, resolve_root, workspace_file, rooted_untitled, rootless_file, file_with_parent_root}"]}
{"id": "C156", "title": "References of tests change only when they may", "statement": "An example without a stored hash, or with other output when updating is on, makes its output the reference; other output without updating fails, is kept in a temporary file and leaves the reference; equal output removes only the temporary file; the same output then passes and changes nothing. No file of another example is touched.", "quantifier": "all examples, outputs and files", "why_tests_cant": "All histories of outputs and file systems.", "anchors": ["crates/tinymist/src/tool/testing.rs: TestRunner::update_example"]}
{"id": "C157", "title": "A test run succeeds exactly if every case does", "statement": "With distinct plain names of examples, a run succeeds if and only if each case is fine by itself on the files before the run; the order does not matter; a repeated name fails; each example leaves its files as if it had run alone.", "quantifier": "all lists of cases, in any order, all files", "why_tests_cant": "Any number of cases in any order.", "anchors": ["crates/tinymist/src/tool/testing.rs: TestRunner::{run, run_example, build_example, update_example}, test_once"]}
{"id": "C158", "title": "A diagnostic is shown where it belongs, with all it says", "statement": "A diagnostic of the compiler is shown in the file of its first span that has one, or else in the main file; with its severity, its message, every hint and each point of its trace that can be found; notes on outdated code and on files out of the root are added exactly for those messages; it is lost only if that file has no address or cannot be read.", "quantifier": "all diagnostics and worlds", "why_tests_cant": "All combinations of spans, traces and hints.", "anchors": ["crates/tinymist-query/src/diagnostics.rs: convert_diagnostic, diagnostic_span_id, diagnostic_range, diagnostic_message, to_related_info, refiners"]}
{"id": "C159", "title": "Each file gets its diagnostics and lints, in order, once", "statement": "The map of diagnostics has for each file exactly the diagnostics shown in it, in the order they were reported, lints before errors, and no lints of packages; files without any are not in it.", "quantifier": "all lists of diagnostics and files", "why_tests_cant": "Any number of files and diagnostics.", "anchors": ["crates/tinymist-query/src/diagnostics.rs: DiagWorker::{check, convert_all, handle}", "crates/tinymist-query/src/check.rs: CheckRequest"]}
{"id": "C160", "title": "The links of a document are the paths it reads", "statement": "The links are exactly the strings that are a path in an include or in a call of a function that reads files (by name or in `std`), as the first argument, by name or in an array; each is a part of the text between quotes; it leads to the file the compiler loads.", "quantifier": "all documents", "why_tests_cant": "All syntax trees.", "anchors": ["crates/tinymist-query/src/analysis/link_expr.rs: get_link_exprs, LinkStrWorker, LinkTarget::resolve", "crates/tinymist-query/src/document_link.rs"]}
{"id": "C161", "title": "Renaming a file changes the links to it and no others", "statement": "When a file is renamed the strings that lead to it are changed, and strings that lead elsewhere are not.", "quantifier": "all documents and files", "why_tests_cant": "All documents and paths.", "anchors": ["crates/tinymist-query/src/rename.rs: RenameFileWorker::links_in_file", "crates/tinymist-query/src/analysis/link_expr.rs: LinkTarget::Path"]}
{"id": "C162", "title": "The build script runs one command per export task, with the words it asks for", "statement": "A shell reads the generated script as one `tinymist compile` command for each task of the lock file that exports a known document; each path, name and value reaches the command as one word, unchanged, whatever characters it has; the script runs nothing else.", "quantifier": "all lock files and directories", "why_tests_cant": "All texts in names and paths.", "anchors": ["crates/tinymist/src/tool/project.rs: shell_build_script, quote, path_of, CmdBuilder"]}
{"id": "C163", "title": "Running the build script does not change the lock file", "statement": "Each command of the generated script is accepted and saves the document and the task it was made from as they are.", "quantifier": "all lock files and directories", "why_tests_cant": "All tasks and documents.", "anchors": ["crates/tinymist/src/tool/project.rs: compile_main, shell_build_script", "crates/tinymist-project/src/args.rs: DocNewArgs::to_input, TaskCompileArgs::to_task", "crates/tinymist-world/src/args.rs", "crates/tinymist-project/src/lock.rs: replace_document, replace_task"]}
{"id": "C164", "title": "A file has one content for all worlds of a session", "statement": "Worlds derived from one snapshot read the same content of a file, the one the first of them saw, whatever is mapped or changed later and in whatever order they read; a world that gives up its table reads what it sees itself and disturbs no other world.", "quantifier": "all executions of any number of worlds", "why_tests_cant": "All interleavings of reads, tasks and remappings.", "anchors": ["crates/tinymist-world/src/source.rs: SourceDb::{source, file, slot, take_state}", "crates/tinymist-world/src/world.rs: snapshot_with, task, take_db", "crates/tinymist-std/src/concepts/query.rs: compute"]}
{"id": "C165", "title": "Dependencies are the files read while compiling", "statement": "The dependencies a world reports are exactly the files that worlds of its session read while their flag for compiling was on, each once; a compilation adds exactly the files it reads.", "quantifier": "all executions of any number of worlds", "why_tests_cant": "All interleavings.", "anchors": ["crates/tinymist-world/src/source.rs: slot, iter_dependencies_dyn", "crates/tinymist-world/src/compute.rs: CompilationTask::execute"]}
{"id": "C166", "title": "One date for all worlds of a snapshot", "statement": "All worlds that descend from one snapshot show the same date, however long they live and whichever is asked first.", "quantifier": "all executions and clocks", "why_tests_cant": "All interleavings.", "anchors": ["crates/tinymist-world/src/world.rs: task, today"]}
{"id": "C167", "title": "Document metrics count every font exactly", "statement": "The answer has one row for each font used in the document, with the number of all its glyphs and the place of the first text in it that can be found in a source; rows point to the files of their fonts, and each file is listed once; there is no answer only for other documents and if a count does not fit.", "quantifier": "all documents, sources and orders of the map of fonts", "why_tests_cant": "All trees of frames; all orders of the hash map.", "anchors": ["crates/tinymist-query/src/document_metrics.rs: DocumentMetricsRequest, DocumentMetricsWorker"]}
{"id": "C168", "title": "A project started from a template is a copy of the template", "statement": "When initialization succeeds, the project directory did not exist or was empty, and afterwards has exactly the files of the template directory with the contents the package shows; a directory with files is left as it is; whatever goes wrong, nothing else than copies of files of the template is written; a template path that leaves the package writes nothing.", "quantifier": "all packages, manifests, project directories and failures of writes", "why_tests_cant": "All trees of files, all paths with parents and dots.", "anchors": ["crates/tinymist/src/tool/package/init.rs: init, get_entry, scaffold_project"]}
{"id": "C169", "title": "The text the debugger runs is the file with numbered tests around blocks", "statement": "The text given to the compiler in a debugging session is the text of the file with tests added in whole frames; the tests are numbered in the order of the text and place i is that of test i; every code block that is not the transform of a show rule has a test at its start with the place of its first token and one at its end with the place of its last; so have the bodies of loops, conditionals and functions that are not bodies or transforms themselves; all places are detached or in the file.", "quantifier": "all syntax trees", "why_tests_cant": "All trees.", "anchors": ["crates/tinymist-debug/src/debugger/instr.rs: instrument_breakpoints, InstrumentWorker", "crates/tinymist-debug/src/debugger.rs: BreakpointKind"]}
{"id": "C170", "title": "A pack gives the same files to every reader", "statement": "Each pack stands for one stream of files that comes to an end or an error; reading it calls the reader on each file in order until the stream ends or the reader fails, and answers how that ended; a directory gives exactly its files that are not hidden, each once; a filtered pack gives exactly the files that are accepted.", "quantifier": "all packs, filters and readers", "why_tests_cant": "All trees, archives, failures and readers.", "anchors": ["crates/tinymist-package/src/pack.rs: PackFs, PackExt::filter", "crates/tinymist-package/src/pack/fs.rs: FilterDirPack", "crates/tinymist-package/src/pack/tarball.rs", "crates/tinymist-package/src/pack/http.rs", "crates/tinymist-package/src/pack/memory.rs", "crates/tinymist-package/src/pack/ops.rs"]}
{"id": "C171", "title": "Copying a pack copies its files and nothing else", "statement": "A copy of a pack into memory has exactly the files of the pack, the last for each path, over those that were there; a copy into a directory, of a pack whose paths stay below, leaves everything as it was but files with paths of the pack, adds only files of the pack and directories on the way, and if it succeeds has all of them.", "quantifier": "all packs, targets, file systems and failures", "why_tests_cant": "All paths and contents and states of the disk.", "anchors": ["crates/tinymist-package/src/pack/fs.rs: DirPack::clone_into_pack", "crates/tinymist-package/src/pack/memory.rs: MapPack::clone_into_pack"]}
{"id": "C172", "title": "The symbols of a workspace are those of its files that match", "statement": "The request for the symbols of the workspace answers, for every file that the compilation depends on, with exactly its symbols whose name contains the pattern, in order, each once and with the address of its file; it always answers.", "quantifier": "all documents, sets of files and patterns", "why_tests_cant": "All syntax trees at any depth and all patterns.", "anchors": ["crates/tinymist-query/src/symbol.rs: SymbolRequest::request, filter_document_symbols", "crates/tinymist-query/src/syntax/lexical_hierarchy.rs: TryFrom<LexicalKind> for SymbolKind"]}
{"id": "C173", "title": "A debug session lasts from a launch to its end and every request is answered", "statement": "Every request to the debug adapter gets exactly one response, to its number; a session is there exactly from a launch or attach that succeeds until a request ends it, and expressions evaluate in the project as it was at the start; a failed launch leaves the session as it was; events are sent for launches, terminations and the initialization only, in order and numbered without gaps; the commands that the capabilities announce are known; before the initialization and after the end there are only errors.", "quantifier": "all sequences of requests, arguments and projects", "why_tests_cant": "All histories of requests of any length.", "anchors": ["crates/tinymist/src/dap/request.rs", "crates/tinymist/src/dap/init.rs", "crates/tinymist/src/dap.rs: DebugState", "crates/tinymist/src/server.rs: install_dap", "crates/sync-lsp/src/server/dap_srv.rs: on_request", "crates/sync-lsp/src/req_queue.rs"]}
{"id": "C174", "title": "The colors of a document are its calls of color functions", "statement": "The answer to a request for the colors of a document lists exactly the calls, wherever they stand, of `rgb` with one string that is a color in hexadecimal digits, of `rgb` with more arguments, and of the other functions of colors, by their names or as fields of `color`, that evaluate to colors, each with the range of the call; in the order of the text, an outer call before those within it, and no range twice. There is no answer exactly without a source. The presentations of a color are its digits and nine notations.", "quantifier": "all syntax trees of the parser, values of strings and of calls, and colors", "why_tests_cant": "Nesting of calls of any depth.", "anchors": ["crates/tinymist-query/src/analysis/color_expr.rs", "crates/tinymist-query/src/document_color.rs", "crates/tinymist-query/src/color_presentation.rs"]}
{"id": "C175", "title": "Fonts are listed in order, loaded once, and described by where they are from", "statement": "The options give a book with the fonts of the paths of the user, then those of the system, then the embedded ones, each at the index of the slot that loads it, as the files were at the search; searching with options does not panic, and adding fonts of memory panics exactly before files are flushed. A font is read when it is first asked for; from then on it is the same through every resolver that shares the slot, whatever happens to the files, and is not read again. Asking for an index panics exactly beyond the book. The loaded fonts are exactly those asked for with success, and a font is described as the first of the loaded ones that equals it. A substitute covers the first character of the wanted font, and there is a panic exactly without one.", "quantifier": "all options, contents of files at all times, histories of requests, and resolvers that share slots", "why_tests_cant": "All histories, with files that change between the search and the load.", "anchors": ["crates/tinymist-world/src/font/system.rs", "crates/tinymist-world/src/font/memory.rs", "crates/tinymist-world/src/font/slot.rs", "crates/tinymist-world/src/font/loader.rs", "crates/tinymist-world/src/font/resolver.rs", "crates/tinymist-std/src/concepts/query.rs"]}
{"id": "C176", "title": "Addresses and paths lead to each other", "statement": "The address that is made for the absolute path of a file leads back to that path, and so do those of documents without a file and of files without a root; different paths have different addresses; addresses are refused exactly for relative paths. An address is turned to a path unless it is neither of a document without a file nor of the local host with parts.", "quantifier": "all absolute Unix paths, by bytes, and all addresses", "why_tests_cant": "All names.", "anchors": ["crates/tinymist-query/src/lsp_typst_boundary.rs: untitled_url", "crates/tinymist-query/src/lsp_typst_boundary.rs: path_to_url", "crates/tinymist-query/src/lsp_typst_boundary.rs: path_res_to_url", "crates/tinymist-query/src/lsp_typst_boundary.rs: url_to_path"]}
{"id": "C177", "title": "Ranges to select are those around the position", "statement": "For each position of a request the answer has the range of the leaf with the byte after the position, then the ranges of all the nodes this leaf is in up to the whole document, each contained in the next. There is an answer for all positions of the document.", "quantifier": "all trees and all lists of positions", "why_tests_cant": "All trees.", "anchors": ["crates/tinymist-query/src/selection_range.rs: SelectionRangeRequest::request", "crates/tinymist-query/src/selection_range.rs: range_for_node"]}
{"id": "C178", "title": "The labels of a workspace are listed", "statement": "The request for the labels of a workspace is always answered. The answer has the labels of the files that can be read and have an address, and nothing else; files and labels are in order, each label once, with the address of its file.", "quantifier": "all lists of files and all documents", "why_tests_cant": "All documents.", "anchors": ["crates/tinymist-query/src/workspace_label.rs: WorkspaceLabelRequest::request", "crates/tinymist-query/src/workspace_label.rs: filter_document_labels"]}
{"id": "C179", "title": "Statistics count what happened", "statement": "A report of the statistics has one row for each file and name of a query that was asked for, the slowest first; a row has how many queries ended, how often something was missing, the sums of their times in all and until the first snapshot, and the shortest and longest time. The report on allocations has the tables by the number of objects alive, and sizes in a unit in which they are below 768.", "quantifier": "all sequences of beginnings, misses, snapshots and ends of queries with any times, also of a clock that goes back; all sizes", "why_tests_cant": "All sequences.", "anchors": ["crates/tinymist/src/stats.rs: QueryStatGuard, CompilerQueryStats", "crates/tinymist-query/src/analysis/stats.rs: QueryStatGuard, AnalysisStats", "crates/tinymist-analysis/src/stats.rs: AllocStats::report, human_size"]}
{"id": "C180", "title": "Tooltips show the values of an expression", "statement": "The tooltip of the innermost expression at the cursor, if it may be shown, is the documentation of its only value, or this value as a length, or its values in order with runs of equal ones shown once with how often they occur, and an ellipsis if there are more than nine; there is none for literals, without values, or for a single function. The documentation of a string in a parameter is that of the first alternative that is this string.", "quantifier": "all expressions and values, all casts", "why_tests_cant": "All sequences of values.", "anchors": ["crates/tinymist-analysis/src/upstream/tooltip.rs: expr_tooltip", "crates/tinymist-analysis/src/upstream/tooltip.rs: find_string_doc"]}
{"id": "C181", "title": "Hovering shows what is at the position", "statement": "What hovering shows has the range of the leaf with the byte after the position, and in this order the definition (else what a star imports, else links), the tooltip, the preview of the nearest place in the document less than 100 bytes away, the documentation, and links in one line; nothing is shown exactly if there is none of these.", "quantifier": "all documents, positions and previews", "why_tests_cant": "All documents.", "anchors": ["crates/tinymist-query/src/hover.rs: HoverRequest::request", "crates/tinymist-query/src/hover.rs: HoverWorker::work, preview"]}
{"id": "C182", "title": "Descriptions of types are in order", "statement": "The description of a type is its own text, or the texts of its alternatives in order, each once, with bars between; functions have their parameters and result described the same way. It depends neither on what was described before nor on how unions and bounds are nested, nor on the order of alternatives.", "quantifier": "all types", "why_tests_cant": "All types.", "anchors": ["crates/tinymist-analysis/src/ty/describe.rs: TypeDescriber::describe_root", "crates/tinymist-analysis/src/ty/describe.rs: TypeDescriber::describe"]}
{"id": "C183", "title": "Families of fonts have no styles", "statement": "The family of a font is its name without white space around it, leading dots, and any number of styles at the end: words for styles after a separator, or after a modifier that has a separator before it; letters may be large or small. It always exists, a style added to a name makes no difference unless the name ends in a modifier, other names are their own family, and a few names are written in another way.", "quantifier": "all names, all classes of white characters", "why_tests_cant": "All names; the lists of words interact.", "anchors": ["crates/tinymist-world/src/font/info.rs: typst_typographic_family"]}
{"id": "C184", "title": "Bounds of types are collected with their polarity", "statement": "The bounds of a type are those of its alternatives, of its upper bounds with the same polarity and of its lower bounds with the other one, through variables, in this order, and each occurs if it is reached so; with the other polarity they are the same with all polarities swapped. The search ends if bounds have no cycles. A type is content, a string or a type if one of its bounds is; its sources are the types, functions and variables in it, upper bounds first.", "quantifier": "all types and bounds of variables", "why_tests_cant": "All types; bounds may refer to one another.", "anchors": ["crates/tinymist-analysis/src/ty/bound.rs: Ty::bounds, Ty::sources", "crates/tinymist-analysis/src/ty/def.rs: Ty::is_content, is_str, is_type"]}
{"id": "C185", "title": "Completions of names and functions follow their types", "statement": "Names are completed each for itself, in order and without regard to the names before: nothing for the empty name, in strings and in lists of imports and parameters; in set rules only elements with a parameter to set; otherwise a symbol, a function or a name of the kind all alternatives of its type are of (a variable if they differ). Of a function the least number of parameters left after arguments given, and whether it takes more arguments, takes content next or is an element, decide exactly which ways of writing it are offered, none twice. All functions among the bounds of a type are considered, and a type is called with its constructor's parameters.", "quantifier": "all types, names, modes and surroundings", "why_tests_cant": "Types nest without bound, and the ways to write a function depend on the combination of many features.", "anchors": ["crates/tinymist-query/src/analysis/completion/kind.rs: CompletionKindChecker, FnCompletionFeat, type_to_completion_kind", "crates/tinymist-query/src/analysis/completion/func.rs: func_completion", "crates/tinymist-query/src/analysis/completion/scope.rs: def_completions"]}
{"id": "C186", "title": "Documentation is shown as it is written, with links and fonts in short", "statement": "Documentation is shown with the tags of examples replaced, braces and brackets directly in raw text removed and the destinations of links resolved, everything else unchanged, whatever is left unclosed. A fragment or an address leads where it says; any other link leads to a known destination or a name of the library below the base, followed by the rest of the link, and ends in a slash unless there is a fragment or query; links to other files are kept. Titles become fragments of the same length with small letters, digits and hyphens. A family of fonts is summarized by the number of variants, the least and the greatest weight and whether there are italics.", "quantifier": "all texts, links, libraries and families of fonts", "why_tests_cant": "All texts, with any nesting and missing ends; all orders of variants.", "anchors": ["crates/tinymist-analysis/src/upstream/mod.rs: plain_docs_sentence", "crates/tinymist-analysis/src/upstream/mod.rs: resolve, split_link, resolve_known", "crates/tinymist-analysis/src/upstream/mod.rs: urlify", "crates/tinymist-analysis/src/upstream/mod.rs: summarize_font_family"]}
{"id": "C187", "title": "Fonts, packages, languages, labels and values are offered once, in order, and put in as they must be written", "statement": "Families of fonts are all offered, and in rules for equations only those for math. Packages of the registry and local ones are offered in order, the newest first, none twice, each with its first description; with all versions each of them, otherwise exactly the newest of each name. For raw text exactly the tags that are identifiers are offered, or else the name of the language. Labels are offered each once, for references all, for citations those of bibliographies and otherwise those of the document, with the signs around them that are not there yet. A string is put in between exactly two quotes, and a field that is not a name as a call.", "quantifier": "all texts around the cursor, families, packages, languages, labels and values", "why_tests_cant": "All lists with any repetition, and all texts on both sides of the cursor.", "anchors": ["crates/tinymist-query/src/analysis/completion/typst_specific.rs: font_completions", "crates/tinymist-query/src/analysis/completion/typst_specific.rs: package_completions", "crates/tinymist-query/src/analysis/completion/typst_specific.rs: raw_completions", "crates/tinymist-query/src/analysis/completion/typst_specific.rs: label_completions_", "crates/tinymist-query/src/analysis/completion/typst_specific.rs: value_completion_"]}
{"id": "C188", "title": "A name leads to the declaration behind its imports, and only names of the workspace are renamed", "statement": "The definition of a name is the declaration that its references come to through imports, with the last type seen, or an import if there is nothing behind it; a name that has only a value stands for the function or module of that name, or a constant. The search ends if imports are in some order, and it never panics. A field is defined by the first of its sources. Renaming is prepared at the cursor exactly for variables, for functions that are not native and for paths of modules, all defined in files outside of packages, and never for fields; and exactly what is prepared is renamed.", "quantifier": "all tables of what names lead to, all declarations, values and places", "why_tests_cant": "All chains of references and imports of any length, and all functions with arguments given any number of times.", "anchors": ["crates/tinymist-query/src/analysis/definition.rs: DefResolver::of_span, of_expr, of_term, of_decl", "crates/tinymist-query/src/analysis/definition.rs: field_definition, value_to_def", "crates/tinymist-query/src/prepare_rename.rs: PrepareRenameRequest::request, prepare_renaming, validate_fn_renaming"]}
{"id": "C189", "title": "The mode at a position is that of the innermost syntax that has one, and completion follows it", "statement": "The mode at a position is that of the first node from the leaf up whose kind has a mode, or code if a hash stands directly before a node that is no blank, and markup otherwise. In code names are offered after a hash, for a name from its start, after context, in blanks and comments and after what opens; in math names and snippets are offered for words and, if asked for, anywhere, never after signs; in raw text languages are offered exactly where a tag ends. The snippet for documenting a function has each of its stops once and in order and a line for each parameter. As parameters exactly the captured names are offered that the function does not bind. In math only names and their fields have fields, and only text without signs is put into functions.", "quantifier": "all chains of syntax, texts, parameters and captured names", "why_tests_cant": "All chains of any length of all kinds of syntax; functions with any number of parameters.", "anchors": ["crates/tinymist-analysis/src/syntax/matcher.rs: interpret_mode_at, interpret_mode_at_kind", "crates/tinymist-query/src/code_context.rs: mode_at", "crates/tinymist-query/src/analysis/completion/mode.rs: complete_comments, complete_markup, complete_math, complete_code", "crates/tinymist-query/src/analysis/completion/param.rs: complete_params", "crates/tinymist-query/src/analysis/completion/field_access.rs: is_valid_math_field_access, is_valid_math_postfix"]}
{"id": "C190", "title": "Imports lead to one file, and exactly the names not yet imported are offered in them", "statement": "A relative path of an import leads from the folder of the file and an absolute one from the root, both within the package of the file; a package leads to the entrypoint of its manifest; the path found has no needless steps. In the items of an import exactly the names are offered that are in the scope that the names before lead to and that are not imported from it, each once and in the order there; everything is offered exactly if there are no items. Items are offered at the colon, behind the list on the same line, at a comma and for a name or a dot; a name is replaced from its start, and what has to stand between is added.", "quantifier": "all files, paths, manifests, nestings of modules, lists of items and positions", "why_tests_cant": "All paths of any length with any steps up and all nestings of modules.", "anchors": ["crates/tinymist-analysis/src/syntax/import.rs: resolve_id_by_path, find_source_by_expr", "crates/tinymist-query/src/analysis/completion/import.rs: complete_imports, import_item_completions"]}
{"id": "C191", "title": "The nearest declaration of a name is in scope, and the fields of a type are those of its interfaces", "statement": "What completion holds to be in scope are exactly the names declared before the position, with the nearest declaration of each, then the names of the library, those of math in math, and then std; sorted, each once, none empty. Importing everything brings what modules export, or their scopes if their types are not known, and the scopes of functions, types and elements, and nothing from arrays, dictionaries and values. The fields of a type are those of all its interfaces, of the same name those of the first: fields of dictionaries, parameters of elements, and fields and methods of types, bound to the value where they take it. The documentation of the fields of an element is that of its parameters.", "quantifier": "all declarations, interfaces, scopes, fields and modules", "why_tests_cant": "Any number of declarations that shadow each other, and all combinations of interfaces and what they bring.", "anchors": ["crates/tinymist-query/src/analysis/completion/scope.rs: Defines, scope_defs, CompletionScopeChecker", "crates/tinymist-query/src/analysis/completion/field_access.rs: type_field_access_completions"]}
{"id": "C192", "title": "The documentation of a package shows every module once", "statement": "The scan of the definitions of a package ends, also if its modules export each other, and its result does not depend on the number of steps allowed. Every file of the package that can be reached by what is exported, as a module or by a definition in it, stands in the documentation with its definitions exactly once, and no other file does; and exactly these files have names. A module shows what it exports by name and in order, and a definition is external exactly if it is of another file.", "quantifier": "all packages, with any files, exports and references between them", "why_tests_cant": "All graphs of modules with any cycles.", "anchors": ["crates/tinymist-query/src/docs/module.rs: module_docs, ScanDefCtx::defs, ScanDefCtx::expr, ScanDefCtx::def"]}
{"id": "C193", "title": "Completion by types offers exactly what the type gives", "statement": "For the type at the cursor exactly the items are offered that some part of it gives: the members of unions, the bounds, the types of positional parameters, the names of named ones, and values; that a type is completed only once loses none of them. A named parameter is offered once. A length brings units and auto, a stroke colors and lengths, and margins, insets and radii lengths and a dictionary. In the text of a string only paths, fonts, features of fonts and strings are offered. While a label or reference is written no parameters are named.", "quantifier": "all types of any nesting, in strings and elsewhere", "why_tests_cant": "All nestings of unions, bounds and parameters in which the same type occurs any number of times.", "anchors": ["crates/tinymist-query/src/analysis/completion/type.rs: type_completion, builtin_type_completion, snippet_completion", "crates/tinymist-query/src/analysis/completion.rs: filter of completion by types"]}
{"id": "C194", "title": "Scopes give the innermost definition", "statement": "A name has the value of the innermost scope that defines it, and is an error exactly if none does. A definition changes its name alone and no outer scope. A write succeeds exactly for names that are there, changes that name alone and defines none. A new scope hides nothing. A block of steps that leaves what it enters gives back the scopes as they were if it writes to no name, and the same names in each scope otherwise. A panic comes exactly when more scopes are left than were entered.", "quantifier": "all scopes, names and sequences of steps of any length and nesting", "why_tests_cant": "All sequences of entering, leaving, defining and writing.", "anchors": ["crates/typlite/src/scopes.rs: Scope, Scopes"]}
