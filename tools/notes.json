{
 "C03": "False: columns count characters in UTF-8 mode (C03_utf8_columns_refuted); holds when the line prefix is ASCII.",
 "C05": "False for texts with VT/FF/NEL/U+2028/U+2029 (C05_documents_agree_refuted); proved for every history over texts with LF, CR and CRLF line ends.",
 "C06": "False: three kinds of ranges panic (C06_no_panic_refuted); proved that every convertible ordered range is applied.",
 "C53": "False except on the last line.",
 "C54": "False: tinymist.getResources with no arguments indexes args[0]; proved that nothing else in the dispatcher panics.",
 "C11": "The driver never calls Incoming::cancel; $/cancelRequest is an ordinary notification.",
 "C56": "False when the client offers UTF-8: the server then uses UTF-8 but announces nothing; holds for other clients.",
 "C59": "False for lint, which is read from the key preview; proved for all other settings.",
 "C60": "False for objects with a tinymist namespace; proved for all others.",
 "C61": "False for settings missing in CONFIG_ITEMS; proved for the listed ones.",
 "C62": "Precedence is proved; that unmentioned settings survive is false.",
 "C15": "Proved for orderly histories: reads not torn by revisions, no shadows by id, and every batch that changes the layers changes the view. Refuted without each of the three: a snapshot read in flight during a revision leaves the live system with a stale entry the editor can no longer replace; a watcher event about an unread file leaks the old content through a shared map; a removed shadow by id leaves an entry without a registered path.",
 "C16": "Proved as long as nothing is evicted. Refuted with eviction at the server's threshold (60).",
 "C17": "Monotonicity, the step of at most one and the increase for shadow changes and cache resets are proved for all histories; the increase for watcher notifications is proved in orderly histories for files the instance has read, and refuted for unread files.",
 "C18": "Proved when the compilation read its files before the live system was revised and nothing is evicted or reset in between; refuted otherwise (two counterexamples).",
 "C19": "All histories, including torn reads, evictions before, and the shared source cache. Source::replace is taken to install exactly the new text.",
 "C20": "Proved when no project is removed, restarted or reloaded during a compilation of it and every task change changes something. Refuted without each restriction: the scheduler waits for ever for a compilation that is not running.",
 "C21": "Proved without reloads: status revisions never decrease, result revisions strictly increase while the project is not removed. Refuted: diagnostics cleared by a suspension come back from an older compilation; a restarted project shows its predecessor's result after its own.",
 "C22": "Proved for histories without query snapshots and without entry changes during a compilation; refuted without each.",
 "C63": "False: a result that arrives after its project was settled or reloaded panics in find_project; proved for histories that do neither during a compilation.",
 "C64": "Proved when no project id is used twice (and without reloads); refuted for a project that is closed and opened again.",
 "C23": "Proved for histories in which no update bypasses the watcher while earlier ones are on their way through it. Refuted in general: the logical tick is never raised, so an update may overtake a delayed one, which then overwrites it.",
 "C24": "Proved for tracked paths that end readable and not empty. Refuted for files that end deleted or empty, and for a file replaced by deletion and creation within the recheck delay.",
 "C25": "Proved for paths that are readable and not empty all the time. Refuted in general by an unchanged file that is briefly empty, and by errors reported by the recheck.",
 "C65": "Both halves proved for all histories.",
 "C66": "Proved: the state right after a list of dependencies. Refuted for the time after: an update from the editor routed through the watcher ends the watch of all other dependencies.",
 "C49": "Proved for changes made through sessions of increment_revision. Refuted: EntryManager::mutate_entry, with_entry_file and reset change the universe without raising its revision; task worlds share the revision of the universe whatever their entry and inputs.",
 "C36": "Proved for all histories: slots from the estimated revision of a held lock on are kept until that lock is released or the caches are cleared explicitly; the unlock never panics; the last release leaves only the newest slot. Refuted for requests whose world is older than the estimate.",
 "C67": "Proved when a revision number stands for one state of the files and requests enter the cache in the order of their revisions. Refuted otherwise: projects share the cache and count revisions separately; slots without a base share the maps of the default slot.",
 "C68": "Proved without explicit cache clears: bases are the tokens answered under that id for that file, ids are unique, no panic; with clients that only name ids they were given, the newest id of a file can always be used. Refuted with a clear (panic, reuse of ids) and for unknown ids (later answers are forgotten).",
 "C34": "Proved with multi-line tokens for all sorted token lists (with gaps); with one line per token for token lists without gaps, which is what the tokenizer produces. Refuted for gaps: the subtraction of the length underflows.",
 "C35": "Proved: the edit applies, is empty exactly for equal lists, and replaces whole existing tokens.",
 "C69": "Proved for trees in which no typed node has an inner child with exactly one non-empty leaf. Refuted for headings whose body is a single leaf (two tokens at one place) and, for UTF-8, for non-ASCII text (lengths in bytes, columns in characters).",
 "C26": "Proved for routes, and for documents and tasks in lock files without duplicate identities, on the values and through the text of the file (read back, repeated update writes nothing). Refuted for files with duplicate identities: only the first entry is replaced.",
 "C27": "Refuted: the priorities are collected and never used; the last route wins. Partial: it is the best one when the list is ordered by priority.",
 "C28": "Exports: proved for all interleavings of writers, failures and killed processes; not for power loss (refuted, nothing is flushed before the rename). Missing: symbolic links. Lock file: refuted, it is truncated and written in place.",
 "C70": "Proved for file systems with locks (elsewhere the code goes on without one) and processes that do not die between truncating and writing (see C28 for those).",
 "C71": "Proved: nearest route for the states at the time of the request, for all histories. Refuted: a directory that was used keeps its first lock file, because nothing calls the update functions.",
 "C29": "Proved for the syntax (parse, print, round trip for every range that can be parsed). Refuted for the selection: '1-' exports the first page only, every other range all pages, and PDF exports ignore ranges. Partial: right when no ranges are given.",
 "C30": "Proved for all 128-bit values. Beyond the statement (C30_error_panics, C30_not_canonical): other strings end the thread instead of giving an error, and several strings are parsed to one fingerprint.",
 "C52": "Proved for up to 2^31 requested shards after any insertions; the shards behave as one map. Refuted: more than 2^31 shards panic.",
 "C72": "Partial: exactly the resource paths without further colons round trip. Refuted for paths with a colon.",
 "C73": "Proved for patterns whose dollar signs all start variables and for roots and directories without dollar signs, and for patterns without a complete variable. Refuted: variables in the root or the directory are replaced again. Missing: the final cleaning of the path.",
 "C74": "Proved for calls one after the other and every hash function. Refuted for overlapping calls: the lookup and the insertion are two steps.",
 "C31": "Proved: an id is reported as expired exactly from the 30th render after it was made, and is resolved to its span until the next render. Partial: older ids are right as long as no id at all has expired. Refuted: once an id expires the indices behind it shift, so an id within its lifetime resolves to another heading or to nothing.",
 "C32": "Proved for all 64-bit ids, in particular for every id the interner hands out; the forms of different ids differ. Beyond the statement (C32_other_strings_panic): other strings that the page may send end the task.",
 "C33": "Proved for all histories of insertions, removals and nested snapshots: the map behaves as a stack of maps, rolling back restores it and committing keeps it. Beyond the statement (C33_clear_panics, C33_order_panics): clearing inside of a snapshot and closing in another order fail assertions.",
 "C51": "Proved for the components of every text: idempotent, names only, absolute paths stay absolute and keep where they lead. Beyond the statement (C51_relative_changes): a relative path that starts with '..' loses it.",
 "C75": "Proved between absolute paths and for completion labels, unix_slash and clean. Partial for relative paths: the empty path and bases that go up further than the target are missing; both are refuted. Symbolic links are not modelled.",
 "C76": "Proved for references to the moved file, for every change between absolute paths. Partial for renames through a reference. Refuted: relative references inside of the moved file are not changed. Which references lead to the file is an input of the model.",
 "C77": "Proved when the process runs in the directory of the lock file. Refuted otherwise: paths are stored relative to the current directory and read relative to the lock file.",
 "C43": "Proved: no edit exactly if nothing changes; for all ASCII texts and for all insertions and deletions the edit gives the formatted text. Partial for other texts: proved unless the parts that differ end with characters that share their last UTF-8 byte; there it is refuted (edit lost, or panic). For the client with CR LF line breaks refuted as well.",
 "C39": "Proved: one job at a time, increasing submissions start in increasing order. Partial: the newest submission is not lost as long as no job panics; refuted with panics (nothing is ever started again) and for submissions out of order (the older one runs last).",
 "C40": "Refuted: the queue is shared by all projects and compares revisions of different worlds. Proved: what displaces a pending job, and that one project alone keeps its last submission.",
 "C50": "Proved for every cache state and any resolutions in between, unless the path ends with '..' (refuted there). Beyond the statement: `root` alone is not stable, which restarts projects on an unchanged configuration.",
 "C78": "Proved: the main file leads to the requested file; for absolute paths of names it always can be read and the root is above it. The choice of the root is partial: proved when nothing is cached for the path; refuted for answers cached from an older tree and for paths that leave a folder by '..'.",
 "C37": "The editor actor is proved for every sequence of requests. From the compilations on it is partial: proved if every compilation has sent its diagnostics before the next change of its project; refuted otherwise (diagnostics of a removed project stay).",
 "C38": "Partial: proved if diagnostics are sent before the next compilation is announced, in whatever order revisions are announced. Refuted when two deliveries overtake each other: the actor ignores the version.",
 "C79": "Proved while notifications are on from the start, and that nothing is sent while they are off. Refuted after switching them on later, and for a project that is removed and started again.",
 "C41": "Proved: every bookmarked heading once and in order, levels rise, the ancestors of every heading are determined exactly, and the items that the client gets show that tree with ids that lead to the source.",
 "C42": "Proved: ordered, within the element, exact for a selection within one element, and what is reported when the start or the end is unknown or elsewhere.",
 "C80": "Proved for positions with only characters of the basic plane before them in the line (and shown to be exactly those), for texts whose line ends editor and typst agree on; C80_astral_refuted shows the failure otherwise.",
 "C44": "Proved for all texts and documents, with the classes of characters (whitespace, CJK) as parameters; also that the text counted is what the document reads.  C44_joined shows that pages and frames without a hint are not separated.",
 "C45": "Proved: no panic, ranges in the document, start line before end line, what is kept and (under conditions) exactly what; distinctness is proved for documents without headings where no two hierarchies start on the same line (C45_distinct_partial) and refuted otherwise (C45_twice_refuted).",
 "C46": "Proved: no panic, everything is found once and in order, the answer is a subsequence, headings nest by level, items and blocks hold exactly what is inside them, and everything before the first comment or list item is listed (C46_all_partial).  The property itself fails: C46_comment_refuted and C46_item_refuted.",
 "C48": "Proved for all histories: one registration per project, a start gets a slot exactly if it is free (C48_start), a kill frees the slot (C48_kill, not for background previews).  In orderly histories slots are held by exactly the living previews (C48_owner_partial).  Refuted: after a reload two live previews share a project; failed starts and reused task ids leave a slot taken for ever; background previews cannot be killed.",
 "C81": "Proved for calm histories (C81_alive_partial); refuted with a reload, or with a task id used again before its project is settled.",
 "C47": "Proved for all histories of all the actors: the loop ends only by a stop, the loss of a connection, a click that asks for a source location, or a bad id (C47_serves_partial); what waits is answered in order (C47_answers), requests are carried out (C47_request, C47_span), and a stop stops (C47_stop).  Refuted: the click and the bad id end it.",
 "C82": "Proved: the protocol is understood (C82_proper), foreign texts end the connection (C82_foreign) and that of no other page (C82_others), positions reach all pages (C82_viewport).  Partial: which texts panic.  Refuted: a request without argument panics, a ping ends the connection.",
 "C83": "Proved that what is shown changes exactly with a compilation that is taken (C83_taken, C83_taking).  Partial: the latest document is shown unless the last drawing answered a full render with an older document (C83_shows_partial), which happens (C83_stale_refuted).",
 "C84": "Proved that it stops only when idle (C84_idle), and that it stops if no handshake failed (C84_ends_partial).  Refuted: after one failed handshake it never does (C84_leak_refuted).",
 "C85": "Proved for all histories without previews that bring a file and without new settings (C85_pinned_partial, C85_preview_partial), and exactly which steps change the main file (C85_changes).  Refuted: a preview takes the pinned file away, a change of fonts or root forgets it, and a refused pin pins.",
 "C86": "Proved which file is focused (C86_command, C86_activity, C86_opened), that it is the main file without pins (C86_follows_partial), and what unpinning does (C86_unpin).  Refuted: after a preview, a change of fonts, or a new default entry the main file is another.",
 "C87": "Proved that the position was told since the file is focused (C87_position), and in that file if the client asks only there (C87_cursor_partial, C87_hover).  Refuted: completions, signature help, and hovers after a focus command in another file.",
 "C88": "Proved for all interleavings at the granularity of atomic operations and locked regions.",
 "C89": "Proved for histories in which no two handles of one cell are dropped at the same time (C89_clean_partial), in particular for one thread (C89_sequential_partial); what is left over is found and removed by the next use of the content (C89_recovers).  Refuted in general: two threads that drop the last two handles both see the other's and leave the entry.",
 "C90": "Proved for tame histories (see C20).  Refuted for a task change that changes nothing: it compiles the same revision again with the cached snapshot, which carries the old reasons.",
 "C91": "Refuted: a result is announced only by the end of the compilation that made it (C91_only_finish), for every tame history.",
 "C92": "Proved.  Beyond the statement: a fork made before the entry exists compiles the same snapshot again (C92_forked_twice), and after a panic the next one compiles again (C92_crash).",
 "C93": "Proved.  The conditions are needed: asked too early the error is kept for ever (C93_early), and a fork in the middle takes document and diagnostics from two compilations (C93_torn).  All callers in the code keep them.",
 "C94": "Partial: proved when a package is prepared by one call at a time, no process is killed while unpacking, and what is left of a malformed archive can be removed (C94_whole_partial, C94_stays_partial).  Otherwise false: a call that looks while another unpacks is given part of the package (C94_seen_refuted), a killed download leaves part of it for ever (C94_killed_refuted), a failing second download removes what the first was answered (C94_vanished_refuted), and so does a failing removal leave a part (C94_left_refuted).",
 "C95": "Proved.  Beyond the statement: names that a client sends in a PackageInfo are not checked and lead out of the root (C95_unchecked).",
 "C96": "Partial: which directories are listed is exact (C96_exactly, C96_all); they can be resolved if their names are versions as printed (C96_listed_partial).  A directory 01.0.0 is listed as 1.0.0, which is not found (C96_listed_refuted), and a package in both directories is listed twice (C96_twice_refuted).",
 "C97": "Partial: the index part is exact (C97_index); the local part holds if the names of directories are versions as printed (C97_local_partial), else false (C97_local_refuted).  A failure to fetch the index is remembered for ever (C97_once, C97_failed_refuted).",
 "C98": "Proved, for parsers of URLs that read the scheme, host and port of origins (assumed of the external parser, and proved of a simple one).  Beyond the statement: requests without the header are served (C98_absent), and at port 80 the server refuses its own page (C98_port80).",
 "C99": "Proved.",
 "C100": "Which places are reported is proved exactly, for all trees.  That evaluations which end with a stray event have a warning is proved for code with such statements as statements only (tame); it is refuted in arguments of calls, for functions passed as arguments, and in heads of loops.",
 "C101": "Proved: only functions with a `return` are looked at; a reported value that can be joined can be discarded; it always is, in functions that end with `return` on every way and have none in loops (C101_must_partial); the last value in front of `return v` is reported.  Refuted: conditional and looped returns that are not taken, rules in front of `return` without a value, all values but the last.",
 "C102": "Which rules are reported is proved exactly.  That such a block shows nothing is proved for blocks without show rules without a selector, and refuted for those; blocks elsewhere are not looked at (C102_unseen_refuted).",
 "C103": "Proved for all files of acyclic projects without the constructs refuted (C103_project_resolves_partial; `tame` in ScopeSpec.v lists them).  Refuted: the iterable of a loop over a variable of the same name, defaults that name an earlier parameter or the function, definitions in headings and list items used after them, destructuring assignment, paths in import items, plain imports of a module bound under another name, items imported from library values, fields of modules (`m.x`, never recorded).  Not modelled: dynamic analysis of import sources, labels, docstrings, cyclic imports.",
 "C104": "Proved for files without wildcard imports at top level (names and targets), and that the exported names are the bound names for all tame files.  Refuted: with wildcard imports older bindings win in the exports.",
 "C105": "Proved for tame files, except for names that are sources of imports, for which it is refuted (they are never recorded).",
 "C106": "That scopes are paired is proved for all files and both stages.  That following import sources ends is proved for tame files and refuted in general: `#import \"a.typ\" as x: x` and `#import x: y` where a.typ has no x recurses without end.",
 "C107": "Exactly the files reached over exports and imports are searched, and the search ends, for all workspaces (C107_finds, C107_ends); each reference once without cyclic imports (C107_once).  That this is every reference is proved for projects in which the definition is handed on under its own name by files that mention it (C107_tables_partial, and against Typst's scoping C107_project_partial).  Refuted: files that hand it on by a wildcard import without naming it, or under an alias; fields of modules (`m.x`); definitions in packages; duplicates with cyclic imports.  Labels and modules are not modelled.",
 "C108": "Proved for the projects of C107_project_partial without wildcard imports at the top level of a file, for new names that occur nowhere in them and definitions from which no import takes its items (C108_keeps_partial; the edits are exactly the names that mean the definition, C108_edits_partial).  Edits change nothing but names, for all files (C108_files).  Refuted: a new name that is taken, definitions used as sources of imports, fields of modules, definitions handed on under an alias.  The rename of files is not part of it.",
 "C109": "Proved for closures whose sink, if any, comes after the positional parameters and with bindings read off function values: positional arguments before the first spread (C109_passed_partial), named ones (C109_named), the mark of content blocks (C109_block), and the exact set of hints of calls without spreads (C109_hints_partial).  No panic, for all functions and all arguments: C109_total.  Refuted: sinks before a positional parameter, arguments after a spread, `with` calls found by static analysis.",
 "C110": "Proved for arguments that are passed to a positional parameter of a closure, the sink last, no spread before, only positional `with` arguments (C110_marks_partial), for named arguments of all functions and in set rules (C110_named), and for the list of parameters (C110_shown, C110_set).  Refuted: arguments of the sink, named `with` arguments.",
 "C111": "Proved for the positional part of the pairs; the pairs of named types are not modelled.",
 "C112": "Proved.",
 "C113": "Proved for wrapping, headings, the text of each conversion of an equation, which nodes are meant, and equations that are not closed.  That only white space is lost is proved for equations with only white space between the body and the dollar signs (C113_kept_partial); refuted for comments there.  The mark that is moved need not be one of the sentence (C113_bracket_refuted).",
 "C114": "Proved for the comment, equation and case analysis; list items are recognised and then left alone by the code, although its documentation says otherwise (finding).",
 "C115": "Proved: additions only, numbering, places.  Refuted for line breaks: after a show rule a line break is added before the `;` that ends it, so that the `;` becomes text (C115_break_refuted).",
 "C116": "C116_result_partial is for programs in which the condition of an `else if` binds no variable (refuted otherwise), C116_report_partial for programs whose bodies are all code blocks, or content not in an `else if` (refuted otherwise).  Show rules, set rules and `context` are in C115 only.",
 "C117": "Proved for runs that make only calls that were added (C117_counts_partial, C117_report_partial); refuted for documents that call `__cov_pc` themselves, which panic, and for the agreement of summary and report on marks that have no place.",
 "C118": "Refuted: the test in `set_debug_session` is of the new session and not of the running one, so no session is ever installed (C118_never); what holds is that ending works and that every start is followed by its end.",
 "C119": "Proved for closed sets of variables (each variable met has bounds).",
 "C120": "Exact for the mode that all features use (principal = false); for the principal type, which is only printed for debugging, the inclusion.",
 "C121": "Proved for bounds without cycles.  With cycles it fails (C121_cycle, a finding): a variable may stand for less at one place than at another.  The order of types is a parameter: total for C121_exact, linear for C121_unique and C121_sets.",
 "C122": "Proved for a total order of types.",
 "C123": "Proved if the names of signatures are in order (as the constructor sorts them).  Types in the bounds of a `Let` are not replaced (a finding).",
 "C124": "Proved for environments whose builtin dictionaries have no variables and do not occur inside dictionaries of their own fields (true of the six there are).",
 "C125": "Proved.  A call repeated after a weakening is not looked at again (C125_cached, a finding), which is why the lifted bound is not claimed there.",
 "C126": "Proved; C126_hidden shows that a variable hides the types of the other expressions (a finding).",
 "C127": "Exact description proved for all trees (C127_exact), with the comments at the end of an inner sequence that leak to a later definition in the same expression; that they do is C127_leak_refuted.",
 "C128": "Exact description proved; that the indentation common to all comments that say something is removed is refuted (C128_indent_refuted): an empty comment keeps it.",
 "C129": "Exact description proved; C129_own_refuted: the documentation of the first definition is given to the module too.",
 "C130": "Exact description proved for all marks with a nonempty end mark; C130_docs_refuted: with parameters only their lines are the documentation as well.",
 "C131": "Proved.",
 "C132": "Proved: exact for all documents (C132_entries), plain for ordinary bibliographies (C132_plain), cut files (C132_cut). C132_seq_taken shows that a key whose value is a sequence of mappings counts as an entry (a finding).",
 "C133": "Proved: exact (C133_last, C133_order), no panic and what each file gives (C133_total). C133_raw_elsewhere is a finding: the entry of hayagriva may be that of another file than the place.",
 "C134": "Exact description proved for all frames (C134_exact); the result is under the click (C134_inside) and there is one (C134_finds) in frames without transformations whose glyphs are of files; both conditions are needed (C134_transform_refuted, C134_detached_refuted). C134_group_link: a link inside a group hides the group only.",
 "C135": "Proved for glyphs of the span (C135_pages, C135_on_glyph) and for the choice of the closest (C135_closest); the place given for the closest is that in its group, not on the page: C135_closest_refuted.",
 "C136": "Proved for all texts; C136_numbered_twice: a placeholder that is numbered in the snippet keeps its number as text.",
 "C137": "The text after the edit is proved exactly for identifiers, arguments, labels, references and all else; the cursor is in the range (C137_cursor) but not behind a label with brackets: C137_label_end_refuted.",
 "C138": "Filter and texts around exactly; the order for at most 1000 items (C138_order), with more it is wrong: C138_order_refuted.",
 "C139": "The text after all edits is proved for all snippets with a placeholder; a snippet without one panics (C139_total_refuted); the text of the expression is not escaped (C139_escape_refuted).",
 "C142": "Fence proved for texts that do not end in a backtick (C142_fence_partial), errors for all (C142_error), inline text for one line; a run at the end, inline text of several lines or with backticks, and contexts shown as code are not fenced: C142_fence_refuted, C142_inline_refuted, C142_context_refuted.",
 "C144": "Rows, headers and default column for all cells that are not footers; no panic if no table has zero or fewer columns (and there is no include); footers give an empty cell, columns 0 or () panic: C144_footer_refuted, C144_total_refuted.",
 "C145": "Proved for documents of text, comments and code statements with one theme and inline images; a call that gives content leaves its hash: C145_hash_refuted.",
 "C146": "Own numbers without includes and examples, with two themes or without asset files; images are the compiler's for all; includes and examples overwrite files, with one theme the image file holds its path: C146_include_refuted, C146_example_refuted, C146_theme_refuted.",
 "C147": "Depth and includes for all; ends for ranked includes; a file that includes itself does not end: C147_cycle_refuted.",
 "C149": "The exact text is proved for all messages (C149_message): one character after each placeholder is lost, and a placeholder without argument loses its closing brace; as meant only for a placeholder at the end; C149_meant_refuted.",
 "C150": "For languages of ASCII letters, with one matching language; with several the order of the map decides, and a language written with capitals is never found: C150_order_refuted, C150_capital_refuted.",
 "C151": "Exact for all files that are read; a lone bracket panics: C151_panic_refuted.",
 "C152": "The maps for all; the file for messages of one line; a message with a line break makes a file that cannot be read: C152_line_refuted.",
 "C154": "Meaning, stability and distinctness for all roots; the same id again only for roots without detours (C154_same_partial), since the lookup uses the root as given and the table has the cleaned one: C154_detour_refuted, C154_plain_refuted, C154_exhausted_refuted.",
 "C155": "All proved; a document can name a package of the namespace of workspaces and so cause a panic or an alias: C155_panic_refuted, C155_alias_refuted.",
 "C156": "Proved for all; names with dots share a reference (C156_shared_refuted), and a reference without its hash is replaced without permission (C156_replaced_refuted).",
 "C157": "Cases run one after another, in any order; the verdict is exact, but an example with a mismatch is logged as failed and as passed: C157_both_refuted.",
 "C158": "Exact for all diagnostics; a diagnostic in a file that cannot be shown is lost even if its trace leads to the main file: C158_trace_refuted.",
 "C160": "Links exact; targets proved for relative paths; absolute ones lead out of the root: C160_absolute_refuted.",
 "C161": "Refuted: the id in a link is that of the document with the link, so no link of another file is changed (C161_other, C161_missed_refuted) and links of the renamed file that lead elsewhere are (C161_wrong_refuted).",
 "C162": "Exact for the shells of the Bourne family if names stay on one line; a name with a line break runs what follows it: C162_injection_refuted; a path that is not a file leaves its option without a value: C162_lost_path_refuted. PowerShell is not modelled.",
 "C163": "Proved for documents known by their path and tasks with defaults other than pages, standards, fonts, root and packages; refuted for the rest: C163_unsupported (commands that are refused), C163_{when,name,html,query,ppi,hyphen}_refuted.",
 "C165": "The flag is on in every snapshot and only the clone a compilation works on switches it off, so reads by queries count too: C165_queries_counted.",
 "C167": "For items of at most 2^32 - 1 glyphs.",
 "C168": "C168_undone_refuted: a failed start is not undone, and what it left makes the next start be refused. C168_no_entry: the entry point is not checked. Names of files of the package differ within a directory.",
 "C169": "For trees of a parser (inner nodes have no text). C169_nowhere: tests of bodies with one token have no place. C169_show_set and C169_else: texts that mean something else.",
 "C170": "C170_hidden_refuted: a directory whose own name begins with a dot (as `.`) is read as empty. C170_universe: other namespaces panic.",
 "C171": "For directories, paths must stay below: C171_outside_refuted and C171_absolute otherwise. C171_long_refuted: long paths in archives.",
 "C172": "C172_panic_refuted: comments and list items make requests without a pattern panic. C172_deep_refuted: only the first two levels are searched; C172_answer_partial is exact for those.",
 "C173": "C173_malformed_refuted: other arguments of a launch panic (exactly when: C173_crash). C173_wrap_refuted: numbers beyond an i32. C173_announced_refuted: breakpoints and step targets are announced without a handler. C173_silent: a finding.",
 "C174": "C174_shadowed and C174_first are findings.",
 "C175": "C175_stale is a finding.",
 "C176": "C176_untitled_partial, C176_rootless_partial and C176_distinct_partial ask for names without percent signs, question marks, hashes, tabs, ends of lines and trailing spaces; C176_percent_refuted, C176_hash_refuted: otherwise it is false. C176_root_refuted: the root of the file system.",
 "C177": "C177_answers_partial: not for the end of the document; C177_end_refuted: there the whole request has no answer.",
 "C178": "C178_answer_partial: labels of the first two levels of the hierarchy; C178_deep_refuted: the others are lost.",
 "C179": "C179_bounds_partial: once a query ended; C179_none_refuted: before that the shortest time is the largest duration. C179_size_partial: below 768 terabytes; C179_size_refuted: above that the report panics (C179_size_panics).",
 "C180": "C180_values_partial: a single function is recognised by the first nine values; C180_ninth_refuted: the tenth may be another value.",
 "C182": "C182_order_partial: without functions; C182_functions_refuted: with two functions the order matters, and the second is lost.",
 "C183": "C183_twice and C183_empty: findings beyond the statement.",
 "C184": "C184_ends_partial: without cycles; C184_cycle_refuted: with a variable that is directly in a bound of itself the recursion does not end.",
 "C185": "C185_last_partial: only the last bound counts; C185_bounds_refuted: a function bound before another bound is lost; C185_types_refuted: a type of values is completed as if its constructor had no parameters.",
 "C186": "C186_links_refuted: a link to another file leads to the page for missing pages; C186_summary_partial / C186_weights_refuted: the greatest weight shown is that of the last variant in order.",
 "C187": "C187_fonts_partial / C187_window_refuted: the word may be just outside of the 25 bytes looked at; C187_values_partial / C187_quotes_refuted: a quote only after the cursor; C187_labels_refuted: labels that cannot be written with signs; C187_fields_refuted: quotes in names of fields.",
 "C188": "C188_modules_refuted: a name that has only a module without a name as its value ends in a panic; C188_agree_partial / C188_agree_refuted: a field is renamed though not prepared; C188_cycles: the order of imports is needed as a hypothesis.",
 "C189": "C189_mode_at_partial / C189_ends_refuted: at the end of a document the mode is always markup; C189_raw_refuted: no languages are offered after the backticks of raw text after a hash.",
 "C190": "C190_typed_refuted: a name written in full counts as imported and is not offered at its own place.",
 "C191": "C191_docs_partial / C191_docs_refuted: of several elements a field has the type of the first and the documentation of the last; C191_dict_refuted: methods of dictionaries with known fields are never offered.",
 "C192": "C192_internal_refuted: an exported module stands without its definitions where it is exported if something of it is exported by a name before it.",
 "C193": "C193_langs_refuted: in strings no languages and regions are offered."
}