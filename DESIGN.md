# Formal model of tinymist: design

The model is written in Rocq (Coq 8.16.1), in `rocq/theories/`.  For every area
there are up to four files:

* `<Area>Model.v`  – Gallina transcription of the Rust code, function by
  function.  Each definition has a comment with the file and lines in `/repo`
  it models and says what is simplified.  No proofs.
* `<Area>Spec.v`   – small independent specification vocabulary (only when the
  statement needs more than standard-library notions).
* `<Area>Proof.v`  – lemmas.
* `<Area>Thm.v`    – only theorems, each closed by `exact lemma`, followed by
  `Print Assumptions`, and the non-vacuity examples (`..._nonvacuous`,
  `..._example`) that show a concrete case meeting the hypotheses.

Conventions: panics of the Rust code are explicit error values; loops are
structural recursion or folds; external calls (typst parser, file system,
clock, thread pool) are parameters, oracles or explicit events chosen by the
environment.  When the full statement of a property is false of the faithful
model, the counterexample is proved as `..._refuted` and the part that does
hold as `..._partial` (see "Findings").

## Trusted base

* Coq's kernel (coqc 8.16.1) and its standard library.
* Axioms: see the section "Assumptions per theorem" (from `Print Assumptions`).
* The transcription from Rust to Gallina (the comments cite the lines), and the
  description of external components listed per area below.

## Per-property plan

| Id | What is modelled | How it is proved |
|----|------------------|------------------|
| C01, C02, C04 | `location.rs`; typst's `Source` line index as a list of Unicode scalars with UTF-8/16 lengths and newline splitting | induction over the character list, prefix-sum lemmas |
| C03 | same model | counterexample with a two-byte character; equality proved for ASCII prefixes |
| C05, C06 | `edit_source` over the text model, client document as an independent splice of the text | induction over the list of changes; counterexample for a UTF-16 column past the end of file on a non-final line |
| C07–C09 | `read_msg_text`/`write_msg_text` as a byte-list parser/printer | round-trip by induction over messages; prefix argument for truncation |
| C10–C13 | request queue, response routing, life-cycle state machine as `step : state -> event -> state * outputs` | invariants over event lists |
| C14 | capability flags and emitted requests | induction over configuration histories |
| C15–C19 | VFS layers, entry cache, revisions, snapshots | invariants over operation lists; counterexample for eviction |
| C20–C23 | project compiler + server handler state machine | invariants over event lists; counterexample for delayed memory events |
| C24, C25 | watcher entry state machine | invariants; counterexample for deletion |
| C26, C27 | lock file lists and route calculation | list lemmas; counterexample for priority |
| C28 | file-system steps with crash between any two | case analysis over prefixes of the step list |
| C29 | page range parser/printer on character lists | parser/printer lemmas; counterexample for `-` |
| C30, C32, C52 | hash/text conversions on N | arithmetic on N, radix lemmas |
| C31 | span interner with index-shifting retain | counterexample; partial theorem without collection |
| C33 | undo log | induction over operation lists |
| C34, C35 | token encoder, delta | induction |
| C36 | revision manager | invariant over histories |
| C37, C38 | editor actor diagnostics maps | invariant: last message per file = union; counterexample for order |
| C39, C40 | FutureFolder transition system | invariant over interleavings; counterexample for cross-project |
| C41 | outline insertion algorithm on trees | induction over heading list with right-spine invariant |
| C42 | range combination | case analysis + lia |
| C43 | calc_diff on bytes | list lemmas; counterexample with 2-byte characters |
| C44 | word count automaton | induction |
| C45 | post-processing loop of folding ranges | invariant over the loop; counterexample for duplicates |
| C46 | lexical hierarchy worker on abstract syntax trees | counterexample; partial theorem for comment-free trees |
| C47 | EditorActor loop | counterexample; partial theorem for the other messages |
| C48 | preview registration | invariant over histories |
| C49 | universe revision bookkeeping | invariant over histories |
| C50 | entry resolver with its cache | case analysis, idempotence |
| C51 | path component normalization | induction |

| C53 | columns past the end of a line | counterexample; bound for the others |
| C54, C55 | command dispatch, request life cycle | counterexample for empty arguments; invariants |
| C56–C62 | settings, registration, position encoding handshake | case analysis, induction over histories, counterexamples |
| C63, C64 | scheduler: panics, status reports | invariants over histories; counterexamples |
| C23, C65 | `MemThm.v` | C65 proved, C23 partial |
| C24, C25, C66 | `WatchThm.v` | partial, with refutations |
| C49 | `UnivThm.v` | partial, with refutations |
| C36, C67, C68 | `RevThm.v` | C36 proved, C67 and C68 partial, with refutations |
| C34, C35, C69 | `TokThm.v` | C35 proved, C34 and C69 partial, with refutations |
| C26, C27, C70, C71 | `LockThm.v` | C70 proved, the others partial, with refutations |
| C28 | `AtomThm.v`, `LockThm.v` | partial, with refutations |
| C29, C72, C73 | `PageThm.v` | partial, with refutations |
| C30, C52, C74 | `FpThm.v` | proved in the stated range, with refutations |
| C31, C32 | `SpanThm.v` | partial, with refutations |
| C33 | `SnapThm.v` | proved in the stated range, with refutations |
| C51, C75, C76, C77 | `PathThm.v` | proved in the stated range, with refutations |
| C43 | `FmtThm.v` | proved for ASCII, insertions and deletions; otherwise partial, with refutations |
| C39, C40 | `QueueThm.v` | proved in the stated range, with refutations |
| C50, C78 | `EntryThm.v` | proved in the stated range, with refutations |
| C37, C38, C79 | `DiagThm.v` | C37 proved for the actor, else partial, with refutations |
| C41 | `OutThm.v` | proved |
| C42 | `JumpThm.v` | proved |
| C80 | `JumpThm.v` | partial (refuted beyond the basic plane) |
| C44 | `WordThm.v` | proved |
| C45 | `FoldThm.v` | partial (distinctness refuted in general) |
| C46 | `LexThm.v` | partial (comments and list items hide symbols) |
| C48 | `PrevThm.v` | partial (reload, failures, reused ids and background previews refuted) |
| C81 | `PrevThm.v` | partial (refuted with a reload or early reuse) |
| C47 | `PlaneThm.v` | partial (a click and a bad id refuted) |
| C82 | `PlaneThm.v` | partial (panics and pings refuted) |
| C83 | `PlaneThm.v` | partial (full render of an old document refuted) |
| C84 | `PlaneThm.v` | partial (failed handshakes refuted) |
| C85 | `FocusThm.v` | partial (previews, settings and refused pins refuted) |
| C86 | `FocusThm.v` | partial (previews and settings refuted) |
| C87 | `FocusThm.v` | partial (positions in other files refuted) |
| C88 | `InternThm.v` | proved |
| C89 | `InternThm.v` | partial (concurrent drops refuted) |
| C90 | `SigThm.v` | partial (empty task change refuted) |
| C91 | `SigThm.v` | refuted; what holds is proved |
| C92 | `GraphThm.v` | proved |
| C93 | `GraphThm.v` | proved |
| C94 | `PkgThm.v` | partial, with refutations |
| C95 | `PkgThm.v` | proved |
| C96, C97 | `PkgThm.v` | partial, with refutations |
| C98, C99 | `OrigThm.v` | proved |
| C100, C101, C102 | `LintThm.v` | partial |
| C103, C104, C105, C106 | `ScopeThm.v` | partial |
| C107 | `RefsThm.v` | partial |
| C108 | `RenThm.v` | partial |
| C109 | `CallThm.v` | partial |
| C110 | `CallThm.v` | partial |
| C111 | `CallThm.v` | proved |
| C112 | `HlThm.v` | proved |
| C113 | `ActThm.v` | partial |
| C114 | `ActThm.v` | proved |
| C115 | `CovThm.v` | partial |
| C116 | `CovThm.v` | partial |
| C117 | `CovThm.v` | partial |
| C118 | `CovThm.v` | partial |
| C119 | `SimpThm.v` | proved |
| C120 | `SimpThm.v` | proved |
| C121 | `SimpThm.v` | proved |
| C122 | `SimpThm.v` | proved |
| C123 | `ConThm.v` | proved |
| C124 | `ConThm.v` | proved |
| C125 | `ConThm.v` | proved |
| C126 | `ConThm.v` | proved |
| C127 | `DocThm.v` | exact; comments leak: refuted |
| C128 | `DocThm.v` | exact; indentation with empty comments refuted |
| C129 | `DocThm.v` | exact; shared with the first definition: refuted |
| C130 | `DocThm.v` | exact; documentation without parameters refuted |
| C131 | `DocThm.v` | proved |
| C132 | `BibThm.v` | proved |
| C133 | `BibThm.v` | proved |
| C134 | `ClickThm.v` | exact; transformations and detached glyphs refuted |
| C135 | `ClickThm.v` | proved for exact glyphs; place of the closest refuted |
| C136 | `CompThm.v` | proved |
| C137 | `CompThm.v` | exact; the end of labels refuted |
| C138 | `CompThm.v` | proved up to 1000 items; refuted beyond |
| C139 | `CompThm.v` | exact; panic and missing escapes refuted |
| C140 | `CompThm.v` | proved |
| C141 | `CompThm.v` | proved |
| C142 | `MdThm.v` | partial: end, lines and contexts refuted |
| C143 | `MdThm.v` | proved |
| C144 | `MdThm.v` | exact without footers; footers and zero columns refuted |
| C145 | `MdThm.v` | partial: hash of calls refuted |
| C146 | `MdThm.v` | partial: includes, examples, one theme refuted |
| C147 | `MdThm.v` | proved; cycles refuted |
| C148 | `MdThm.v` | proved |
| C149 | `LocThm.v` | exact; lost characters refuted |
| C150 | `LocThm.v` | partial: order and capitals refuted |
| C151 | `LocThm.v` | proved; panic refuted |
| C152 | `LocThm.v` | proved for lines; line breaks refuted |
| C153 | `LocThm.v` | proved |
| C154 | `WsThm.v` | partial: detours refuted |
| C155 | `WsThm.v` | proved; panic and alias refuted |
| C156 | `TstThm.v` | proved; shared names refuted |
| C157 | `TstThm.v` | proved; log refuted |
| C158 | `ConvThm.v` | proved; lost trace refuted |
| C159 | `ConvThm.v` | proved |
| C160 | `LinkThm.v` | proved; absolute paths refuted |
| C161 | `LinkThm.v` | refuted |
| C162 | `ScrThm.v` | proved; line breaks in names refuted |
| C163 | `ScrThm.v` | partial; refuted in general |
| C164 | `SrcThm.v` | proved |
| C165 | `SrcThm.v` | proved |
| C166 | `SrcThm.v` | proved |
| C167 | `MetThm.v` | proved |
| C168 | `TmplThm.v` | proved; undoing refuted |
| C169 | `BrkThm.v` | proved |
| C170 | `PackThm.v` | proved; hidden roots refuted |
| C171 | `PackThm.v` | proved; outside paths and long paths refuted |
| C172 | `SymThm.v` | partial: first two levels; panics and depth refuted |
| C173 | `DbgThm.v` | proved; malformed launches, large numbers and announced commands refuted |
| C174 | `ColThm.v` | proved |
| C175 | `FontThm.v` | proved |
| C176 | `UrlThm.v` | proved for names an address can have; others refuted |
| C177 | `SelThm.v` | proved except at the end of the document, refuted there |
| C178 | `LabThm.v` | proved for the first two levels, refuted below |
| C179 | `StatThm.v` | proved; shortest time before the first end and very large sizes refuted |
| C180 | `TipThm.v` | proved for the first nine values, beyond refuted |
| C181 | `HovThm.v` | proved |
| C182 | `DescThm.v` | proved; order with functions refuted |
| C183 | `FamThm.v` | proved |
| C184 | `BndThm.v` | proved; ending for bounds with cycles refuted |
| C185 | `KindThm.v` | proved in part; the rest refuted |
| C186 | `UpThm.v` | proved in part; links to files and greatest weights refuted |
| C187 | `ValThm.v` | proved in part; far rules, lone quotes, labels with spaces and fields with quotes refuted |
| C188 | `SiteThm.v` | proved in part; modules without names and fields refuted |
| C189 | `ModeThm.v` | proved in part; ends of documents and raw text after a hash refuted |
| C190 | `ImpThm.v` | proved; names written in full refuted |
| C191 | `DefThm.v` | proved in part; documentation of several elements and methods of dictionaries refuted |
| C192 | `ScanThm.v` | proved; place of exported modules refuted |
| C193 | `InfThm.v` | proved; languages in strings refuted |
| C194 | `StkThm.v` | proved |

## Areas: what is modelled and what is not

### Text (`Text*.v`; C01–C06, C53)
Modelled: `crates/tinymist-analysis/src/location.rs` (position and range
conversion in both encodings), the parts of typst's line index it calls, the
document changes of `crates/tinymist/src/input.rs` (open, change, close, with
the text pushed to the compiler).  Texts are lists of Unicode scalar values.
Not modelled: incremental reparsing, the panic messages, `u32` overflow of
lines and columns beyond what the text can contain.

### Messages (`Num*.v`, `Msg*.v`; C07–C09)
Modelled: `crates/sync-lsp/src/msg.rs` framing on bytes (header loop, length,
body, UTF-8 validation, end of stream).  Not modelled: JSON itself (bodies are
byte strings), I/O errors other than end of input.

### Server driver (`Rpc*.v`; C10–C13, C54, C55)
Modelled: the life cycle and the request queue of `crates/sync-lsp` (`lsp.rs`,
`lsp_srv.rs`, `req_queue.rs`, `server.rs`), command dispatch, the scheduling of
responses.  Handlers are arbitrary (they answer now, later, or panic).
Not modelled: threads (a response computed elsewhere is an event), the
DAP flavour of the driver, timings.

### Settings (`Cfg*.v`; C14, C56–C62)
Modelled: `crates/tinymist/src/config.rs` (decoding of every setting, update,
rejection), dynamic registration in `lsp/init.rs` and `server.rs`, polling by
`workspace/configuration`, the encoding handshake.  Structured sub-objects
are decoded by an oracle.  Not modelled: fonts, export templates and
environment variables behind the compiler options.

### Virtual file system (`Assoc*.v`, `Vfs*.v`; C15–C19)
Modelled: `crates/tinymist-vfs/src/lib.rs`, `overlay.rs`, `notify.rs`,
`resolve.rs`: three layers, entries with shared once-cells, snapshots, forks,
revisions with copy-on-write maps, eviction, cache reset, the shared source
cache, `is_clean_compile`; reads by other threads are split in two steps.
Not modelled: `Source::replace` (assumed to install the new text), the
remaining interleavings inside `source`, revision overflow, metadata calls.

### Compile scheduler (`Sched*.v`; C20–C22, C63, C64)
Modelled: `crates/tinymist-project/src/compiler.rs` (`ProjectCompiler`,
`ProjectInsState`: interrupts, snapshots, `may_compile`, `run_compile`,
`process_compile`, restart and removal of dedicated projects) and the handler of
`crates/tinymist/src/project.rs` (`ProjectInsStateExt`, `on_any_compile_reason`,
`status`, `notify_compile`, `notify_removed`, `reload_projects`).  Compilations
end in any order; results wait in a FIFO channel.  Whether an event changes the
file system and whether a compilation is clean are free parameters.
Not modelled: the watcher's dependencies, cache eviction, lint and export
consumers, the two-step table update inside `status`/`notify_compile` (taken as
one step; the code holds the table's lock only for the comparison and update).

### Editor updates (`Mem*.v`, C23, C65)

Code: `crates/tinymist-project/src/compiler.rs` 603-733, the route of in-memory
contents from the editor to the compiler: directly, or through the file watcher
and back when the update closes files.  The state holds the estimate of open
files, the tick of the last delayed update, the updates on their way, and the
contents the compiler sees.  Left out: what the watcher does with the update in
between (it is modelled in `Watch*.v`); the reasons for compilation
(`Sched*.v`); contents are numbers.

### File watcher (`Watch*.v`, C24, C25, C66)

Code: `crates/tinymist-project/src/watch.rs` 34-503.  The disk is part of the
state and changes by itself; the operating system reports any paths at any time;
a recheck comes due at any time after it was scheduled.  Left out: the case that
the operating system's watcher cannot be created, paths for which reading the
file and its metadata disagree, and the delay of 50 ms itself (C24 speaks of
states in which no recheck is waiting).

### Compiler universe (`Univ*.v`, C49)

Code: `crates/tinymist-world/src/world.rs` 48-432 (universe, sessions of
`increment_revision`, snapshots) and the snapshot cache of
`crates/tinymist-project/src/compiler.rs`.  Entries, inputs, fonts and registries
are numbers; the contents of the file system are represented by its revision.
`honest` says that different font resolvers or registries report different
revisions or none.

### Revisioned caches (`Rev*.v`, C36, C67, C68)

Code: `crates/tinymist-query/src/adt/revision.rs`; the locks, slots and maps of
`crates/tinymist-query/src/analysis/global.rs` 88-180, 1035-1274; the token cache
of `crates/tinymist-query/src/analysis/semantic_tokens.rs` 40-115.  An analysis is
reduced to what its validity check compares: the exports of the imported files.
Requests are separate events for arriving, entering, asking and ending, in any
interleaving; collections run at any later time.  Left out: cyclic imports (the
check accepts them), the trimming of the global map, type checking and linting
(they use the same map type), and the slot data that is not cached by text.

### Semantic tokens (`Tok*.v`, C34, C35, C69)

Code: `crates/tinymist-query/src/analysis/semantic_tokens.rs` 28-38, 307-530 and
`crates/tinymist-query/src/semantic_tokens_delta.rs`.  The tokenizer runs on trees
whose nodes carry their type and modifiers; how these follow from the syntax kind
and the resolved names (`token_from_node`) is left out.  Subtractions that overflow
are panics (as in debug builds; a release build would wrap).  Positions come from
the model of the text (`Text*.v`).  Two of the repository's snapshots are replayed
as examples.

### Lock file, routes and atomic writes (`Lock*.v`, `Atom*.v`, C26-C28, C70, C71)

Code: `crates/tinymist-project/src/lock.rs`, `crates/tinymist-project/src/model.rs`
(the identities and the three tables), `crates/tinymist/src/route.rs`,
`crates/tinymist-std/src/fs/flock.rs` 195-230 and
`crates/tinymist-std/src/fs/paths.rs` 184-221.  Identities, the other fields of an
entry and TOML values are numbers; the text of the file is a list of lines with one
constructor per kind of line, so TOML quoting is left out.  Processes take the
steps open, lock, read, truncate, write (any number of pieces) in any order between
each other.  Advisory locks are taken to work; the network file systems on which
the code goes on without a lock are left out.  For `write_atomic` any number of
writers run, each may fail or be killed between any two steps, temporary files are
created exclusively under names that are not destinations, and rename is atomic.

### Page ranges, resource paths, output patterns (`Dig*.v`, `Page*.v`, C29, C72, C73)

Code: `crates/tinymist-task/src/primitives.rs` (Pages, ResourcePath,
PathPattern::substitute), the use of page ranges in `crates/tinymist/src/task/export.rs`
and `crates/tinymist-task/src/compute/pdf.rs`.  Strings are lists of code points,
numbers are printed and parsed digit by digit with the bound of `usize` (64 bits).
`str::split`, `trim` (Unicode white space) and `replace` are modelled; the cleaning
of paths is not.

### Fingerprints (`Fp*.v`, C30, C52, C74)

Code: `crates/tinymist-std/src/hash.rs` and `crates/tinymist-std/src/adt/fmap.rs`.
Base64 without padding is modelled from its specification.  The hash function is
arbitrary; a call of `resolve` takes two steps, the lookup and the insertion, and
other calls may run in between.  The variant with the feature `bi-hash` is left out,
and the locks of the shards are not modelled.

### Spans in the preview (`Span*.v`, C31, C32)

Code: `crates/typst-preview/src/debug_loc.rs`, called from `actor/render.rs` and
`outline.rs`.  A source span is an opaque number; an id has a lifetime and an index of 32
bits each.  A history is a list of `reset` and `intern` calls; locks are left out: every
call is one step.  Theorems about expiry assume fewer than 2^32 renders and entries.

### Snapshot maps (`Snap*.v`, C33)

Code: `crates/tinymist-analysis/src/adt/snapshot_map.rs`.  The map is a finite map, the
undo log a list (the crate ena is taken from its documentation); the assertions of the code are explicit failures.

### Paths (`Path*.v`, C51, C75, C76, C77)

Code: `crates/tinymist-std/src/path.rs`, `fs/paths.rs` (normalize_path, which has no
callers), the path part of `crates/tinymist-query/src/rename.rs`,
`will_rename_files.rs` and `completion/path.rs`, and `from_user_sys`, `to_abs_path` of
`crates/tinymist-task/src/primitives.rs`.  Unix paths only.  `std::path` (components,
push, pop, join), path-clean and pathdiff are modelled component by component.  Paths are
interpreted by walking through names; there are no symbolic links, and ".." at the root
stays there (typst reports an error for it in imports).  The search for references
and the text of the edit (`as` aliases, escapes) are not modelled.

### Formatting edits (`Fmt*.v`, C43)

Code: `crates/tinymist/src/task/format.rs` (calc_diff, and the task that returns no edit if
the formatter fails).  Texts are lists of characters; bytes are their UTF-8 encoding.
`calc_diff` returns `None` for the subtraction overflow (a panic with overflow checks, an
endless loop or a slice panic without).  The formatters are not modelled: old and new
text are arbitrary.  The effect of the edit is given by `apply_changes` (the server's own
reading) and by the position rules of the protocol (`client_edits`).

### Background queue (`Queue*.v`, C39, C40)

Code: `crates/tinymist/src/task/mod.rs` (FutureFolder), as used by
`crates/tinymist/src/task/export.rs` (signal_export, signal_count_word).  Every section
under the lock is one step; the returned futures are a list, each idle or awaiting a job.
Jobs may end or panic at any time (tokio drops the future of a panicking task).  What a
job does, the conditions under which it is submitted, and a shutdown of the executor are not modelled.

### Entry resolution (`Entry*.v`, C50, C78)

Code: `crates/tinymist-project/src/entry.rs` (root, resolve, resolve_with_root,
resolve_default), `crates/tinymist-world/src/entry.rs` (constructors of EntryState), and
the comparison of roots at `crates/tinymist/src/lsp.rs:152`.  typst's `VirtualPath` (new,
resolve) is modelled.  The tree is a predicate on directories: is there a `typst.toml`.
Concurrent use of the cache, untitled documents and the lock directory (resolve_lock) are not
modelled.

### Diagnostics and status at the client (`Diag*.v`, C37, C38, C79)

Code: `crates/tinymist/src/actor/editor.rs` (whole actor) and, of
`crates/tinymist/src/project.rs`, notify_diagnostics, status, notify_removed and notify_compile.
Diagnostics are numbers; a map of diagnostics has every file once.  That a compilation sends its
diagnostics some time after it was announced covers both the lint job in the thread pool and the
code between the unlocked revision and the send.  A lint job that gives up without an answer,
the preview and the conversion of diagnostics are not modelled.

### Outline of the preview (`Out*.v`, C41)

Code: `crates/typst-preview/src/outline.rs` (all of it) and the call in
`crates/typst-preview/src/actor/render.rs:364-372`, on top of the span interner (`Span*.v`).
Headings come from typst's introspector in document order; titles and positions are numbers.

### Jumps between preview and source (`Jump*.v`, C42, C80)

Code: `crates/typst-preview/src/actor/render.rs:182-247` (`resolve_span_range`),
`crates/tinymist/src/tool/preview/compile.rs:114-122,170,177-197` and
`crates/tinymist/src/tool/preview.rs:616-629`, on top of the model of texts and positions (`Text*.v`).
The range of a span is an oracle (typst's `Source::find`); what it gives is assumed to be a part of the
text (`nodes_ok`).  Not modelled: hit testing in frames (`jump_from_click`), search in frames
(`jump_from_cursor`), URIs.

### Word count (`Word*.v`, C44)

Code: `crates/tinymist/src/tool/word_count.rs:16-92` (`word_count`; not `map_back_spans`, which is unused)
and `crates/tinymist-task/src/compute/text.rs` (all of it).  Frames and HTML nodes are trees of groups,
texts and other items; `char::is_whitespace` and the scripts of characters are parameters.

### Folding ranges (`Fold*.v`, C45)

Code: `crates/tinymist-query/src/folding_range.rs` (all of it).  The hierarchy comes from the lexical
analysis, with its ranges already in lines and characters (the conversion is in `Text*.v`).  Indexing
out of bounds is an explicit panic, shown not to happen.

### Lexical hierarchy and document symbols (`Lex*.v`, C46)

Code: `crates/tinymist-query/src/syntax/lexical_hierarchy.rs` (all but the display and the iteration
over module imports' items, which is not used in these modes), `document_symbol.rs` (all of it; the
conversion of ranges is in `Text*.v`) and the comment groups of
`crates/tinymist-analysis/src/syntax/comment.rs:41-118`.  A syntax tree is a tree of kinds with ranges;
whether a node casts to an expression or a pattern is part of the node.  `unwrap` on an empty stack is
an explicit panic, shown not to happen.

### Registration of previews (`Prev*.v`, C48, C81)

Code: `crates/tinymist/src/tool/preview.rs:120-440` (starting, stopping and killing; not the content of
what the previewer does), `crates/tinymist/src/actor/preview.rs` (all but scrolling),
`crates/tinymist/src/project.rs:81-115,352-382`, `cmd.rs:308-367`, and of the compiler the dedicated
projects (`compiler.rs:456-511,526-534,551-553`).  The futures, the actor and the server thread are
interleaved arbitrarily; binding an address may fail.  Task ids are numbers, "primary" is 0.  Opening
the browser and the tasks that forward responses are left out.

### The actors of a preview (`Plane*.v`, C47, C82, C83, C84)

Code: `crates/typst-preview/src/actor/{editor,webview,render}.rs`, `crates/typst-preview/src/lib.rs` (the
watcher, the data plane and its idle check), the interner of `debug_loc.rs` (from `SpanModel.v`) and the
filter on frames in `crates/tinymist/src/tool/preview.rs:658-683`.  All actors of any number of pages are
interleaved arbitrarily, at the granularity of their awaits.  Broadcast channels have their capacities
(1024 and 32), overwrite the oldest message and report the lag.  Not modelled: the settings sent on
connection, the content of documents, outlines and jumps (numbers), the parsers of floats and JSON
(oracles, any function).  Assumed of `IncrSvgDocServer` (external): `pack_current` packs the document
packed last, `pack_delta` the one given.

### The main file (`Focus*.v`, C85, C86, C87)

Code: `crates/tinymist/src/input.rs:97-195`, `server.rs:150-165,340-384`, `lsp.rs:86-98,117-175`,
`lsp/query.rs:79-146,225-251,342-354`, `cmd.rs:280-307,368-376`, and of `tool/preview.rs:160-217` and
`project.rs:81-115` what changes the main file.  Paths and the default entry are those of `PathModel.v` and
`EntryModel.v`.  Simplified: the main file is the path it was asked for by (how a path becomes a root
and a main file is in `Entry*.v`; the lock database is not consulted); whether an entry is inactive and
which directories have a `typst.toml` are oracles; whether a preview is registered at the primary
project is part of the event (see `Prev*.v`).  The exception for `/untitled` is left out, as such a path
is absolute on Unix.

### The interner (`Intern*.v`, C88, C89)

Code: `crates/tinymist-analysis/src/adt/interner.rs:33-229,267-271,324-330,346-361`.  Threads are interleaved at the
granularity of atomic operations (the two counts and the changes of the count) and locked regions; memory is
sequentially consistent (`triomphe::Arc::count` loads with acquire order).  Contents are numbers and the
shard of a content is a parameter; equal contents have equal hashes.  Not modelled: the shrinking of a shard, the
order and hash of handles, contents that hold handles themselves (they are dropped after the lock is let go),
the overflow of a count, and the list of statistics.

### Why compilations are made (`Sig*.v`, C90, C91)

Code: `crates/tinymist-world/src/snapshot.rs:59-79`, `crates/tinymist/src/task/export.rs:63-82`,
`crates/tinymist/src/project.rs:445-449`, over the scheduler of `SchedModel.v`.  The specification (`SigSpec.v`) follows
the events and the decisions that are visible in the output; it does not look at the reasons the projects keep.
Not modelled: the export tasks after they are queued (see `Queue*.v`), and document titles, which are a flag.

### Computations of a world (`Graph*.v`, C92, C93)

Code: `crates/tinymist-world/src/compute.rs` and `from_graph` (`crates/tinymist-project/src/compiler.rs:86-105`).  A cell
(`OnceLock`) is empty, being filled by a thread, or full; a thread that finds it being filled waits (its step changes
nothing).  A step of a thread is one call of `get_or_init`, `get`, or the compiler; the mutex around the entries is held
only within one step.  What the compiler gives is an oracle by the number of the compilation, so two compilations may
differ.  Compilations are the computations of the code (flags, compilation, document, diagnostics); `ExportComputation`
and the other users of the graph outside of the compiler are not modelled.

### Packages (`Pkg*.v`, C94-C97)

Code: `crates/tinymist-package/src/registry/http.rs:163-306` and `list_package_by_namespace`
(`crates/tinymist-query/src/package.rs:80-150`).  `prepare_package` is cut at its tests of directories, the reply of the
registry, and each file that is unpacked, so that calls of several threads and processes interleave (there is no lock).  A directory
is the list of its files, each file being written in one step; a directory exists or not as a whole.  External: what
the registry replies, `tar` (creates the directory, then file by file, failing if the directory was removed meanwhile), the syntax
of versions, the file system.  The two roots are taken as different directories without links between them.  Not modelled: the proxy and
certificate of the client, notifications, `DirPack`/`TarballPack`, the browser registry.

### Who is served (`Orig*.v`, C98, C99)

Code: the services of `crates/tinymist/src/tool/preview/http.rs:46-106,171-233` and
`crates/tinymist/src/task/user_action.rs:242-285`.  `Url::parse` is a parameter; the theorems assume that it reads the scheme, host and port
back from the text of an origin (a simple parser for which this is proved shows that the assumption can be met).  What is not modelled: accepting
connections, graceful shutdown, the timer of the server of timings.

### The linter (`Lint*.v`, C100 to C102)

Code: `crates/tinymist-lint/src/lib.rs`: the two visitors (`Linter`, `LateFuncLinter`), the traversal they share (`DataFlowVisitor`), and the
checks of statements, discarded values and blocks of rules.  The model of `Expr` keeps what the visitors distinguish: a `Leaf` is any value
without parts they look at.  What is not modelled: the lints of comparisons of types and of variable fonts, the texts of hints, the order
and severity of warnings.

The theorems judge warnings by evaluation, which is Typst's (external): `LintSpec.v` writes down a relation for it (what is joined, which
`break`, `continue` or `return` is pending, styles and applied show rules), with conditions and iterations left open.  This relation is part of the trusted base of
C100_complete, C101_may, C101_must_partial and C102_invisible_partial.

### Names (`Scope*.v`, C103 to C106)

Code: `ExprWorker` in `crates/tinymist-query/src/syntax/expr.rs` with the scopes and declarations of `crates/tinymist-analysis/src/syntax/def.rs`.  The model keeps the stack
of scopes with all its operations (`with_scope`, `push_scope`, `scope_mut`, `summarize_scope`), the table of resolved names, both stages
(`init_stage` and `defer`), imports of files, of names and of fields with the three kinds of import lists, `fold_expr` and
`syntax_level_select`, patterns, closures, loops, rules, blocks and field accesses.  Of the built expressions only those kept in scopes are modelled.

Not modelled: the dynamic analysis of import sources (`analyze_expr`, `analyze_import`), so that a source which static analysis does not
understand imports nothing; labels and content references; docstrings; patterns that are arbitrary expressions; cyclic imports (the
`route`); the types of library values (a library value is a number with members and fields).  The red-black tree maps are association lists, newest first.

The theorems compare with `ScopeSpec.v`, which says what Typst binds a name to by a flat environment without scopes or stages.  Typst's
evaluator is not in the repository, so this semantics is part of the trusted base of C103, C104 and C105: blocks forget their bindings,
loops and function bodies see their parameters, defaults and iterables are evaluated before anything is bound, markup items do not open
scopes.  `tame` are the files outside the constructs refuted; `plain_world` says that the other files' exports are of the shape that such
files have (`file_plain` proves they do, which gives the theorem about projects).

### References across files (`Refs*.v`, C107)

Code: `ReferencesWorker` (`crates/tinymist-query/src/references.rs`), `SearchCtx` (`analysis/global.rs`), `construct_module_dependencies`
(`syntax/module.rs`), `get_index_info` (`syntax/index.rs`), over the tables of `Scope*.v` (for which the worker's import buffer was added: `deps`).
The search for variables and functions is modelled with its list of files, the set of files already put on it, the early return for files
that do not have the name, and the dependents of a file.  `C107_finds` is about arbitrary tables, exports and imports, cyclic ones too.

Not modelled: labels and modules as definitions, the translation of spans to ranges (a detached span has none), files that cannot be read.
`open_project` lists what the definition and the files must be like for the search to be complete; each condition but the one about
unknown selections has a refutation.

### Renaming (`Ren*.v`, C108)

Code: the branch of `RenameRequest::request` for definitions (`crates/tinymist-query/src/rename.rs:96-117`) over the references of `Refs*.v`; the
client's side, replacing the text at the edits, is modelled as replacing the names with those spans in the syntax of `Scope*.v` (`ren_files`).
The specification `means` follows the environments of `ScopeSpec.v` from file to file and uses neither the tables nor the exports of the
server; the theorem is about the meaning of the edited files.

Not modelled: the rename of files (`do_rename_file`), the check that a function is not native and the definition not in a package
(`prepare_rename.rs`), that the new name is an identifier (the server does not check), labels.

### Calls (`Call*.v`, C109-C111)

Code: `func_signature` and the accessors of `PrimarySignature` (`crates/tinymist-analysis/src/sig.rs:60-320`; slices and indexing that panic are
explicit), `SigTy::new`, `RecordTy::shape_fields`, `NameBone::find`, `SigTy::matches` (`crates/tinymist-analysis/src/ty/def.rs:367,731,880-1031`), the
walk over the arguments (`crates/tinymist-query/src/analysis/call.rs:77-226`), the hints (`crates/tinymist-query/src/inlay_hint.rs:123-265` with the
settings of `smart()`), `arg_context` for calls (`crates/tinymist-analysis/src/syntax/matcher.rs:1294-1347`) and the loop of signature help
(`crates/tinymist-query/src/signature_help.rs:45-124`), `wind_stack` (`crates/tinymist-query/src/analysis/signature.rs:190-226`).

Trusted: the specification `bind` is the evaluation of a closure call in the Typst compiler (a sink takes as many positional arguments as there
are more than positional parameters), written from its documented behaviour, not from code in the repository.  `binary_search_by` is a loop that
halves the range; the theorems do not depend on which of equal names it finds.

Not modelled: signatures made from types and doc comments (`sig_of_type`), element functions and methods (the accessors and the absence of panics
are proved for any list of parameters, the pairing for closures), the range of the request, the text of labels and documentation, cursors deeper
inside a named argument, the pairs of named types of `matches`.

### Highlights, code actions, Enter (`Hl*.v`, C112; `Act*.v`, C113-C114)

Code: the walk of `document_highlight` (`crates/tinymist-query/src/analysis/doc_highlight.rs:30-136`, `document_highlight.rs:19-29`); the actions
of `crates/tinymist-query/src/analysis/code_action.rs:50-259`; `crates/tinymist-query/src/on_enter.rs:30-175`.

The theorems on code actions apply the edits to the text: `apply` fails for edits that overlap, are out of order or reach beyond the text, so
that the edits are proper is part of each theorem.  The children of an equation after a conversion are given in the statement.

Trusted: the trees of the parser (a loop has its keyword as a child, below a break or continue there are only leaves; an equation is a dollar
sign, white space and comments, the body, white space and comments, a dollar sign; `Equation::block` of Typst is white space at both ends; the
depth of a heading is the length of its marker).  Which characters beyond ASCII are punctuation, or white space, is a parameter.

Not modelled: the conversion of ranges to those of the protocol (C01-C04 are about it), the titles of the actions, `interpret_mode_at` (its
answer is a parameter), `work_func` of highlights (it always answers nothing), that reading the text after the conversion gives the tree shown
(for the white space this needs that the body does not begin or end with a comment to the end of the line).

### Coverage (`Cov*.v`, C115-C118)

Code: `crates/tinymist-debug/src/cov.rs` (instrumenting a tree, counts, report, summary), `crates/tinymist-debug/src/instrument.rs:44-53` (the
world that instruments), `crates/tinymist-debug/src/debugger.rs:132-142` and `crates/tinymist-dap/src/lib.rs:62-93` (sessions).

A tree is a kind, a span, a text and children; span 0 is the detached span.  C116 relates trees to programs (`tree`, `code`, `markup`, `program`
in `CovSpec.v`): a small language with variables, blocks, content, closures, calls, conditionals, loops and jumps, whose meaning (`eval`) is
written down from the documentation of Typst with literals, operators, truth, joining and iteration as parameters and a bound on the depth.  Both
the program and the instrumented program are run by it; the instrumented program is one whose text is the text made.  That the parser of Typst
reads this text as that program is trusted; `program` may have trees that a parser would not make.

Not modelled: memoisation by comemo (`__cov_pc` is a function of the library without tracked effects: with a warm cache a second run may report
executed blocks as not executed); show rules, set rules and `context` below the level of text; the breakpoints of the debugger; the printing of
the report.  A call whose span has no file is ignored by the code and is not an event here.

### Simplification of types (`Simp*.v`, C119-C122)

Code: `crates/tinymist-analysis/src/ty/simplify.rs` (all of it that is used) and `from_types` in `crates/tinymist-analysis/src/ty/def.rs:153-169`.

A type is a tree (`SimpModel.ty`).  Dictionaries, tuples, arrays, selections, unary and binary operations, conditionals and parameters are
`TComp` with their kind, since they are simplified in the same way; functions, arguments and patterns are `TSig`, what `with` gives is `TWith`.
The parts that are only copied (names of fields, sources, where named parameters start) are numbers.  Variables have lists of lower and upper
bounds.  A hash set is a list without doubles; it is sorted before it gets out.  The order of types and the sort are an order and an
insertion sort; all theorems hold for any total (some: linear) order.  Panics (`unwrap` of a variable without bounds) are `None`; fuel is the
number of variables, which C119_total shows to be enough.  `SimpSpec.simp` states the result without cache as a relation.

Not modelled: the type check that makes the bounds; `TypeSource` of a `Let` (never read here).  `cano_cache` is never written, so that it is
always empty.

### Constraints, calls, weakening and blocks of the type checker (`Con*.v`, C123-C126)

Code: `constrain`, `constrain_sig_inputs`, `check_containing`, `possible_ever_be`, `weaken`, `weaken_constraint` and `Joiner` in
`crates/tinymist-query/src/analysis/tyck.rs:227-626`; `crates/tinymist-analysis/src/ty/subst.rs`; `mutate.rs` in the same directory;
`SigTy::matches`, `positional_params`, `rest_param`, `common_iface_fields`, `intersect_keys_enumerate` in its `def.rs`.

The types are those of `SimpModel`.  An environment tells what the numbers stand for: the names, the start of the named inputs and the spread
of a signature, and what a leaf is (one of the six builtins that stand for a dictionary, with it; a type; a value with its type; one that a
block leaves out).  A state has the variables with bounds and the calls remembered.  Going through the unbounded streams of `matches` is taking
as many as `max_len`; hash sets are lists without doubles.  `constrain` has fuel; C124_total shows that enough is enough for every state.
`ConSpec.wants` says what a comparison asks for as a relation without state, fuel or memory; `ConSpec.passed_at` which argument a parameter
gets.

Not modelled: how the walk over the syntax makes these constraints (`tyck/syntax.rs`, `tyck/apply.rs`), documentation types, the recording of
types at spans (`witness_at_least` etc.), the copying of variables for
documentation (`copy_doc_vars`).  `Ty::Boolean` and the like are leaves.

### Documentation of definitions and modules (`Doc*.v`, C127-C131)

Code: `crates/tinymist-analysis/src/syntax/comment.rs` (all but `extract_mod_docs_between` on other ranges),
`crates/tinymist-query/src/syntax/expr.rs:220-229,385-420,1002-1023`, `crates/tinymist-analysis/src/docs/tidy.rs:26-165`,
`crates/tinymist-query/src/syntax/docs.rs:107-134`.

A file is a tree of expressions (`let`, closure, sequence, other with parts in the order they are checked); sequences have tokens
between the expressions.  The walk carries the matcher as the checker does; definitions are numbers.  `strip_prefix`, `trim`, `lines`
are written out over code points (white space as of Unicode).  Not modelled: which expressions the checker visits in which order inside
one kind (the tree gives the order), the conversion of the text by typlite, the type expressions of parameters, the cache of docstrings,
`identify_tidy_module_docs`.  The marks typlite writes around items are a parameter.

Specification: the group at the end of a sequence is the longest end of it that goes on (`kept`, `goes_on`), the definition that gets
it the first in the expression (`taker`), the end that leaks is that of the last sequence of an earlier part (`last_seq`, `leaks`).
Parameters are a relation between lines and items (`item`, `items`, `reads`), brackets a grammar (`even`).

### Bibliographies (`Bib*.v`, C132-C133)

Code: `crates/tinymist-query/src/analysis/bib.rs` (all but the tests).

The events of yaml_rust2 with the character index of their marks, the entries of biblatex with their spans, and the entries hayagriva
gives are inputs; the loader, the conversion of character indices to bytes, and the merge are modelled.  A depth below zero (an
overflow of `usize`) is an explicit failure; the theorems show that no prefix of the events of documents reaches it.
Specification: documents are trees (`node`), `sent` the events of a tree; `named_maps` reads the parts of the stream at depth one;
`biblio` is the ordinary case; `placed` gives bytes by the sum of the widths of the characters before.
Not modelled: yaml_rust2, biblatex and hayagriva themselves; the completion items made of the entries.

### Jumps between document and source (`Click*.v`, C134-C135)

Code: `crates/tinymist-query/src/jump.rs` (all but the tests).

Frames are trees of items with positions; lengths are whole numbers (the code has floating point numbers: no rounding here).  A group
has its transformation as data that the code does not read.  The text of a span (`world.source`, `source.find`, the kind of the
node) is an oracle, and so is the leaf at the cursor (`leaf_at_compat`).  Spans are 64-bit numbers with the file in the upper 16 bits.
`?` in the loop over items leaves the frame without a result, `continue` in the loop over glyphs goes on without moving the position.
Specification: `answers` (items from the top, a relation over frames), `under` (what is at a point of the page, with
transformations), `glyphs_of` (all glyphs in order with their places), `hits`, `closest`.
Not modelled: the links of clicks to urls, the conversion of spans to ranges (see C66 area Jump), html documents.

### Completions (`Comp*.v`, C136-C141)

Code: `crates/tinymist-query/src/analysis/completion.rs` (`selected_node`, `lsp_item_of`, `enrich`, the end of `work` and of `complete_cursor`,
`slice_at`, `to_lsp_snippet`, `is_arg_like_context`), `analysis/completion/snippet.rs` (all), `completion/snippet.rs` (contexts and their
expansion), `completion.rs:46-50`.

Texts are lists of code points, offsets count them (one unit of length; `slice_at` is over bytes).  The cursor is a record: its
offsets, the leaf with offset and text, its class and the kinds of its parents.  `selected_node` is computed anew each time (the
code caches it; the cursor does not change in between).  The regular expression `\$\{(.*?)\}` is modelled as leftmost and
shortest match without line breaks.  Sorting is stable insertion.  What is known of a function's type (the least numbers of
arguments, whether its next argument takes content) is data.
Specification: `marked` (how a text is read, with a proof that there is one way), `renders`, `replaced` and `edited` (edits
applied to the source), `subsequence`, `text_lt`, `stably_sorted`, `chosen`, `wraps`, `calls`, `within` (characters in a range), `allows`.
Not modelled: where the items come from (scopes, types, fields, fonts, paths), the details and the kinds of items, commands.

### Conversion to Markdown (`Md*.v`, C142-C148)

Code: `crates/typlite/src/lib.rs:138-917` (the worker), `library.rs`, `library/docstring.rs`, `value.rs` (arguments).

A document is a tree of nodes classed by what `eval` does with their kind; the text of a node without a value is part of it.
Steps run over the state of the worker (list depth, kept code, asset number) and the list of files written in order; writing
always succeeds.  The compiler, base64 and `{:?}` of captions are oracles.  The arguments of calls are records of what evaluates
them (the code keeps the node and the worker).  `include` runs the converter on a copy, so only files remain; `convert k` bounds
the depth of includes, `Endless` stands for the stack that overflows.  Paths of includes are from the root.
Specification: `has_run`, `is_lines` (with a proof that it is a function), `in_rows`, `gathers`/`evals`, `html`, `chosen`,
`everywhere`, `includes_below`.
Not modelled: parsing, the messages of errors, the world given to the compiler, `scopes` of user functions, `Value::Func`.

### Translations (`Loc*.v`, C149-C153)

Code: `crates/tinymist-l10n/src/lib.rs` and `crates/tinymist-l10n/src/main.rs:66-130`.

Texts are lists of code points.  Hash maps are association lists in some order with the first entry of a key; the theorems about
the locale are for all orders.  `to_lowercase` and the JSON parser are oracles.  Arguments are as they are printed.
`OnceLock` and `RwLock` are the two fields of a state.  The search for the first letter of the prefix by `find` is a search at
every place.
Specification: `said` (an inductive description of what is printed), `meant`, `reads` (what lines say), `last_value`, `trimmed`,
`literal`, `is_call`.
Not modelled: the walk over the source files, reading and writing files, `update_disk` errors of the file system, the macros
that build the arguments (`DebugL10n`, `LspL10n`).

### Workspaces and file ids (`Ws*.v`, C154-C155)

Code: `crates/tinymist-vfs/src/path_mapper.rs:29-250`.

Built on the paths of `PathModel.v` and the entries of `EntryModel.v`.  The interner is a table from roots to ids and the list
of roots by id, of at most 65536; a panic is a value.  A file id is its package and virtual path (the interner of typst is a
bijection); the oracle `packages` gives the root of other packages.
Specification: `reached` (a table made by requests), `later`, `plain_root`, `path_ok`.
Not modelled: `PathResolution::{to_err, as_path, join}`, `display` and `Resolving`, locks.

### The runner of tests (`Tst*.v`, C156-C157)

Code: `crates/tinymist/src/tool/testing.rs:300-578`.

References are files of a kind (pages or HTML) and a name.  Hashing is any function.  Results of compilation are data of the
example (document or diagnostics, encoding, warnings), those of a test function are its errors, each with whether it is an error
and whether its message has the word panic.  File operations succeed.
Specification: `ref_ok`, `example_ok`, `case_ok` on the files before the run, `mild` (warnings are not errors), `plain_name`.
Not modelled: the compiler, coverage, the walk over tests, watching and retesting, printing; the interleaving of cases by the
thread pool inside of one case (the shared state is locked for each step, and with plain names no two cases touch the same file).

### Diagnostics in the editor (`Conv*.v`, C158-C159)

Code: `crates/tinymist-query/src/diagnostics.rs` and `crates/tinymist-query/src/check.rs`.

The world is a set of oracles: main file, address and readability of files, the range of a span, the lines of a range, the lints
of a file.  The patterns of the regular expressions have no special characters, so they are searched as text.  The hash map is an
association list.
Specification: `located`, `within`, `outdated`, `outside`, `hints_shown`, `point`, `picks` (chosen in order), `shows`, `at_file`.
Not modelled: the conversion of byte ranges to lines (see `Text*.v`), the lints (see `Lint*.v`).

### Links (`Link*.v`, C160-C161)

Code: `crates/tinymist-query/src/analysis/link_expr.rs`, `crates/tinymist-query/src/document_link.rs`,
`crates/tinymist-query/src/rename.rs:197-225`, `crates/tinymist-query/src/syntax/index.rs:29-53`.

Syntax trees have the kinds of nodes the code tells apart; the accessors of typst are the first or last child of a kind.  A span
is the place of the node.  The parser of package specifications is an oracle.  Files are in a workspace with a root.
Specification: `inside`, `first_child`, `last_child`, `calls`, `reads_path`, `path_arg`, `names`, `string_of`, `link_of`; `load` is
what typst does with a path.
Not modelled: links of rootless files, strings longer than 65536 bytes in the index, `hover` on links.

### The build script (`Scr*.v`, C162-C163)

Code: `crates/tinymist/src/tool/project.rs:115-363`, `crates/tinymist-project/src/args.rs`, `crates/tinymist-world/src/args.rs`,
`crates/tinymist-task/src/model.rs`, `crates/tinymist-project/src/lock.rs:20-46`.

The script is text.  The specification (`ScrSpec.v`) has a reader of shell scripts (`sh`) that gives up on anything but commands made
of words: any expansion, redirection or assignment.  The reader of arguments follows clap 4: long options, values that may not look
like options, options given once, value delimiters; variables of the environment are unset and of short options there is `-f`.
Resolutions are whole numbers.  A lock file has documents and tasks without the routes, and saving does not sort it.
Specification: `wanted` (the words), `task_ok` (texts without NUL, names without line breaks), `repeatable`.
Not modelled: PowerShell (its strings are quoted as for a Bourne shell), `--lockfile`, the compilation.

### What worlds remember (`Src*.v`, C164-C166)

Code: `crates/tinymist-world/src/source.rs`, `crates/tinymist-world/src/world.rs:155-173,464-535,690-769`,
`crates/tinymist-std/src/concepts/query.rs`, `crates/tinymist-world/src/compute.rs:258-282`.

The state has all tables of files and all worlds; an execution is any list of steps of any worlds, each step being done under the lock
of the table.  The specification (`SrcSpec.v`) has no tables: sessions, views, flags and times are read off the history.
Simplified: files and contents are numbers, what the file system of a world holds is an oracle that a step may replace (the layers below are
`Vfs*.v`), times are what the clock shows and not converted to dates.

### Metrics of documents (`Met*.v`, C167)

Code: `crates/tinymist-query/src/document_metrics.rs:99-260`.

Fonts, spans and files are numbers; lookups in sources are oracles; the order of the map of fonts is any rearrangement.
Left out: names and styles, copied from the font.  A span that ends at byte 0 would make `range.end - 1` panic in debug builds.

### Starting a project from a template (`Tmpl*.v`, C168)

Code: `crates/tinymist/src/tool/package/init.rs:30-173`.

The package directory is a tree, the project directory the list of its files; what the world reads and which files can be written are
oracles.  Paths in the manifest have names, parents, dots and roots; the specification (`TmplSpec.v`) follows them one component at a time and
gives the files of a tree by rules.  Left out: finding the package and reading its manifest (`Pkg*.v`), text of the error messages.

### The text the debugger runs (`Brk*.v`, C169)

Code: `crates/tinymist-debug/src/debugger/instr.rs:7-207`, `crates/tinymist-debug/src/debugger.rs:24-86`.

Trees, texts and numerals are those of `Cov*.v`; the session and the functions the tests call are C118.
The specification (`BrkSpec.v`) gives by rules how tests may be woven into the text of a tree and which places they have.
Left out: that the compiler runs the new text to the same effect (shown for coverage in C116), and the memoization.

### Packs (`Pack*.v`, C170-C171)

Code: `crates/tinymist-package/src/pack.rs`, `crates/tinymist-package/src/pack/{fs,gitcl,http,memory,ops,tarball,universe}.rs`.

The specification (`PackSpec.v`) says by rules which stream each pack gives and what it is to run a reader on a stream.
Walks follow links, so the tree is what is seen then; file systems are maps from paths; which operations fail is an oracle; the network
and `git` are given by what they return.  Left out: `release.rs` (a page, as `http.rs`), messages of errors, times between a check and a write.

### Symbols of the workspace (`Sym*.v`, C172)

Code: `crates/tinymist-query/src/symbol.rs`, on the hierarchy of `LexModel.v`.  The pattern is the set of names that contain it; files are
given by their source and address; the conversion of ranges is in `TextModel.v`.

### Debug adapter (`Dbg*.v`, C173)

Code: `crates/tinymist/src/dap.rs`, `crates/tinymist/src/dap/{request,init}.rs`, `crates/tinymist/src/server.rs:307-325`,
`crates/sync-lsp/src/server/dap_srv.rs`, `crates/sync-lsp/src/req_queue.rs`.

The specification (`DbgSpec.v`) says what holds of a history of requests; the theorems hold for all histories.  Snapshots are given by their
main file, what can be read and what expressions evaluate to.  Left out: events from the client and internal events, messages of errors, the
`seq` of responses (made in a dependency), the overflow of the counter of events, `to_dap_source` and `to_dap_position` (not called).

### Colors (`Col*.v`, C174)

Code: `crates/tinymist-query/src/analysis/color_expr.rs`, `document_color.rs`, `color_presentation.rs`.

Syntax trees have the kinds that the code tells apart, with tokens of bytes; `regular` says that identifiers and strings are tokens and that calls,
accesses and lists of arguments are not.  The accessors of typst's syntax (`callee`, `args`, `items`, `target`, `field`) are modelled; what a
string is as a color, what a call evaluates to, and the notations of a color are oracles.  Components of colors are uninterpreted (no floats).
Ranges are in bytes; the conversion is that of `TextModel.v`.

### Fonts (`Font*.v`, C175)

Code: `crates/tinymist-world/src/font/{system,memory,slot,loader,resolver}.rs`, `crates/tinymist-std/src/concepts/query.rs`.

Slots share cells (`Arc`) on a heap; a cell holds its loader until it is computed, and a loader its source until it reads, so that the panics of
`take().unwrap()` are in the model and shown not to occur.  The disk is a function that may change at any time.  What is in a font file
(`fontdb`, `ttf_parser`, `FontInfo::new`, `Font::new`) is given by oracles, and so is the choice of `select_fallback` among the fonts that cover a
character.  The parallel iterators keep the order of their items, as `rayon` says.  Left out: two threads that load one slot (`OnceLock` lets one of
them), the fonts of browsers (`web`), profiles and caches of fonts (`profile.rs`, `cache.rs`, `info.rs`), which nothing here uses.

### Addresses (`Url*.v`, C176)

Code: `crates/tinymist-query/src/lsp_typst_boundary.rs:15-77`.

Texts are bytes.  Of the crate `url` the model has what the code uses: `Url::parse` of addresses that begin with `untitled:` (trimming, tabs and ends of
lines, opaque paths, the two sets of encoded characters), `from_file_path` and `to_file_path` on Unix, and percent encoding and decoding.  Paths are lists of
names, so that repeated slashes in a path are not told apart.  `String::from_utf8_lossy` is an oracle; the theorems ask that it keep the paths in question,
which it does for valid UTF-8.  Left out: Windows, parts that are spelled `%2e`.

### Ranges to select (`Sel*.v`, C177)

Code: `crates/tinymist-query/src/selection_range.rs:27-59` and `leaf_at` of typst-syntax as called there.

Trees have lengths only.  Positions are offsets, if `to_typst_position` gives one; ranges are of bytes (both conversions are in `Text*.v`).

### Labels of a workspace (`Lab*.v`, C178)

Code: `crates/tinymist-query/src/workspace_label.rs:19-78`, on the hierarchy of `Lex*.v`.  Which files there are, and which of them can be read or have an
address, is given.

### Statistics (`Stat*.v`, C179)

Code: `crates/tinymist/src/stats.rs`, `crates/tinymist-query/src/analysis/stats.rs`, `crates/tinymist-analysis/src/stats.rs`.

The events of guards come with the time; the two kinds of buckets are one record with all fields.  Each event is atomic, as it is under the lock of the
bucket.  Overflow of sums of durations and the text of the reports are left out; sizes are exact rather than `f64`.

### Tooltips (`Tip*.v`, C180)

Code: `crates/tinymist-analysis/src/upstream/tooltip.rs:46-128,225-233`.

Values are numbers; whether they are functions, have documentation or are lengths is given, as are the values of `analyze_expr`.  The pretty-printing of the
list and of values is left out.  `Sink::MAX_VALUES` is 10.  Left out: closures, names of parameters, fonts.

### Hovering (`Hov*.v`, C181)

Code: `crates/tinymist-query/src/hover.rs:31-116,260-296`, on the trees of `Sel*.v`.

What the analyses find is given; the place in the preview for an offset is a function.  Left out: the texts themselves.

### Descriptions of types (`Desc*.v`, C182)

Code: `crates/tinymist-analysis/src/ty/describe.rs`.

Types are those that say nothing, those with a text of their own, unions, bounds, functions and functions with arguments; the mode of the worker and the text of
values are in the texts.  The map of described types is modelled, with types as keys (collisions of hashes are left out); that it never shows is part of
`C182_exact`.

### Families of fonts (`Fam*.v`, C183)

Code: `crates/tinymist-world/src/font/info.rs`.

Names are codes of characters; lengths are in characters, not bytes, which cuts at the same places as all words are ASCII.  Which characters beyond ASCII are white
is given.  The lists of words are those of the code; that no style ends in another one, and that the order of the modifiers finds the longer of two, is checked by
computation and used for the uniqueness in `C183_exact`.

### Bounds of types (`Bnd*.v`, C184)

Code: `crates/tinymist-analysis/src/ty/bound.rs`, `crates/tinymist-analysis/src/ty/def.rs:233-292,1244-1247`.

Types without parts have a kind and a number.  The bounds of variables are any function.  The recursion through variables has a depth as an argument, and `None`
for a recursion that is deeper; statements are about some depth.  Left out: the checkers that stop early or go on into functions with arguments
(`crates/tinymist-query/src/analysis/signature.rs:255-310`, `ty/sig.rs:254-330`, `ty/iface.rs:120-124`), and whether the checker of types ever makes bounds with cycles
(it makes none between two variables, `crates/tinymist-query/src/analysis/tyck.rs:270-279`, but any other type with the variable in it may become its bound, lines 280-302).

### Completions of names and functions (`Kind*.v`, C185)

Code: `crates/tinymist-query/src/analysis/completion/kind.rs`, `func.rs:6-87`, `scope.rs:110-194`.

Types are as these functions see them: a signature is the list of which positional parameters are content, the number of named ones and whether there is a rest.
Symbols are numbers ordered as `min_by_key` orders them.  The sets of symbols and functions are lists (they have at most one member, `C185_last_partial`).
Texts of snippets are left out: an item is which kind of snippet it is.  Left out: how types of names are found (`scope.rs:20-108`), labels and details of items, and the
texts and signatures for functions with arguments that are found by evaluating them.

### Plain documentation and fonts in short (`Up*.v`, C186)

Code: `crates/tinymist-analysis/src/upstream/mod.rs:24-82,126-171,349-358,373-400`.

Texts are lists of the codes of characters.  Names of the library (`resolve_definition`, lines 186-245) are any function from heads of links to routes; that the library
has no name for a given file is a hypothesis where it is used.  The summary of fonts is its numbers, not the text with them; weights are numbers up to 65535 as in the code.
The loop over a text has its length as an argument to end with; `C186_plain` is about all texts and so shows that this is enough.  Left out: the routes of all values
(`ROUTE_MAPS`, lines 271-345), which need the library, and texts that are cut (`truncated_repr_`).

### Fonts, packages, languages, labels and values (`Val*.v`, C187)

Code: `crates/tinymist-query/src/analysis/completion/typst_specific.rs:9-154,187-192,222-241`, `crates/tinymist-query/src/analysis/completion.rs:217-222,895-908`.

Texts are lists of the codes of characters, with any number of bytes for each.  Namespaces and names of packages are their places in the order of texts, versions numbers
in their order, and descriptions numbers.  Which tags are identifiers and what small letters are is any function.  What labels and bibliographies a document has is an input, with the place where those of
bibliographies begin.  Left out: details and kinds of completions, functions that are put in with parentheses, and symbols.

### Definitions and what can be renamed (`Site*.v`, C188)

Code: `crates/tinymist-query/src/analysis/definition.rs:138-163,324-412`, `crates/tinymist-query/src/prepare_rename.rs:37-126`, `crates/tinymist-query/src/rename.rs:39-47`.

What names lead to (`resolves`, made by the code of `Scope*.v`) is any table, so chains of references may be anything; the recursion through imports has a number of imports to follow, and
`Deep` if that is not enough.  That imports are in some order is a hypothesis of `C188_ends` alone; `C188_cycles` shows it is needed.  All spans are looked up in one table (the code takes the table of the file
where it is, and that of another file for fields).  Types of elements and of types have values in the code and are among the values here.  Which files are of packages is any function.  Left out: definitions of labels and
references (`Refs*.v`, `Bib*.v`), and how what is at the cursor is classified.

### Modes and what is completed in them (`Mode*.v`, C189)

Code: `crates/tinymist-analysis/src/syntax/matcher.rs:331-384`, `crates/tinymist-query/src/code_context.rs:141-151`, `crates/tinymist-query/src/analysis/completion/mode.rs:5-199`, `param.rs:11-59` and `field_access.rs:183-212` there,
`crates/tinymist-query/src/analysis/completion.rs:925-941`.

All 134 kinds of syntax are there.  A position is the chain of nodes from the leaf up, each with whether the leaf before it is a hash; leaves before and their parents are given.  What names and snippets are offered is in `Kind*.v`
and `Scope*.v`; here it is only where they are offered.  What a body captures is any list of names, and what characters of identifiers are any functions.  The branch of `complete_code` for an existing
identifier (`mode.rs:171-181`) is never reached, as an earlier one takes every identifier, and is left out.  Left out too: styles at a position (`style_at`), which need a compilation, and which function a comment stands before.

### Imports (`Imp*.v`, C190)

Code: `crates/tinymist-analysis/src/syntax/import.rs:6-47`, `crates/tinymist-query/src/analysis/completion/import.rs:6-133`.

Paths are lists of names and steps up; steps that stay are left out.  `VirtualPath::new` and `join` of typst are modelled by what their documentation says: steps up cancel names and stay where there are none.  Whether a specification
parses and what entrypoint a manifest names are any functions.  Values are trees of scopes; `Scope::get` takes the first with the name.  Where the cursor stands in the syntax of an import is given as a value, with the names before it as
`take_while` gives them: for a name those before it, for a dot all names of the path, also those behind the dot.  Left out: how a value is shown when it is offered (`Val*.v`), and `cast_include_expr`.

### Names in scope and fields (`Def*.v`, C191)

Code: `crates/tinymist-query/src/analysis/completion/scope.rs:15-107,197-361`, `crates/tinymist-query/src/analysis/completion/field_access.rs:36-47`.

The map of names is a list sorted by numbers, 0 being the empty name.  Which declarations stand before a position is given as a list, nearest first (`Scope*.v` has `previous_decls`), with the types that are known; sources of imports
as the interfaces that `iface_surface` goes through, in its order.  Scopes, fields of elements and types, exports and whether a function takes `self` are any functions.  Types are values, any, values bound to others, types that may be
none, and others by number; `Ty::from_types` and `simplify` are not modelled.  What is offered of the names gathered is in `Kind*.v`.

### The scan of a package (`Scan*.v`, C192)

Code: `crates/tinymist-query/src/docs/module.rs:30-63,105-252`, `crates/tinymist-analysis/src/syntax/def.rs:562-568`.

What a file exports is any function, with nothing if the file cannot be loaded; references are trees.  The recursion has fuel, and it is proved that twice the number of files and a little is enough and that more changes nothing.  The
package of the entry point is that of the scan (`module.rs:37`), so the entry point is in it.  The aliases of files are kept in the order found; that they are sorted by length afterwards (`module.rs:48-54`) and the empty entries
that files that cannot be loaded get are left out, as are documentation, kinds and the text of constants.

### Completion by types (`Inf*.v`, C193)

Code: `crates/tinymist-query/src/analysis/completion/type.rs:10-344`, `crates/tinymist-query/src/analysis/completion.rs:446-448,695-709`.

What is done for a type is given as a list of actions in order, and the recursion has fuel by the rank of types; it is proved that more fuel offers nothing else.  Types for which nothing is done are one case with a number, as are
tuples and arrays; `BuiltinTy::TypeType` is as `BuiltinTy::Type`.  Labels and texts of snippets are those of the code; lists made elsewhere (fonts, labels, languages, paths) are single items.  Left out: documentation of the items,
and what is shown of a value (`Val*.v`).  Comparison of types is equality of trees.

### Scopes of typlite (`Stk*.v`, C194)

Code: `crates/typlite/src/scopes.rs:8-99`.

Names and values are numbers, and the hash map of a scope is a list in which a name is put once; its order is not observed but by `C194_block`, where it does not change.  `get_mut` is modelled with the write to what it gives.  Left out:
the text of the error (`scopes.rs:103-105`).  In typlite itself only `new`, `define` and `get` are used, on the library of functions.

## Findings

Proved of the model (`..._refuted` or a theorem stating the panic):

1. C03: in UTF-8 mode columns count characters, not bytes, after a non-ASCII character.
2. C05: line terminators typst knows and the protocol does not (VT, FF, NEL, LS, PS) make editor and server texts diverge.
3. C06: three kinds of ranges make `edit_source` panic.
4. C53: a UTF-16 column past the end of a line addresses the following lines.
5. C54: `tinymist.getResources` with an empty argument list panics (and the release profile aborts on panic).
6. C10: two requests in flight with the same id lose a response; `$/cancelRequest` is ignored.
7. C56: UTF-8 is used but never announced in the server capabilities.
8. C59: `lint` is read from the key `preview`.
9. C60: `didChangeConfiguration` and polling disagree on the `tinymist` namespace.
10. C61: settings missing from `CONFIG_ITEMS` are reset by polling.
11. C62: a namespaced object resets the settings it does not mention.
12. C15: a snapshot's read in flight during a revision leaves an entry in the live maps whose path is not registered; later editor contents for this file are ignored by the live system.
13. C15: a watcher event about a file not yet read does not change the view, so a live snapshot can put the old content into the shared map.
14. C15: removing a shadow by id leaves an entry without a registered path.
15. C16: eviction counts from the first read of a file, so a snapshot that has just read an old file can lose it and read other content.
16. C17: watcher events about unread files change contents without raising the revision.
17. C18: a compilation that reads a file after the live system was revised is judged clean although the file changed; the same after a cache reset.
18. C20: a task change with neither inputs nor entry recompiles at the same revision; the result is dropped and the project waits for ever (`C20_empty_task_change_refuted`).
19. C20/C21: the compilation in flight of a project that is restarted is taken for the new one: its result is shown, the new result is dropped, and the project waits for ever.
20. C20: a result that arrives after `reload_projects` raises the revisions of the new primary project; its own results are then dropped.
21. C21: diagnostics cleared when the entry becomes inactive come back when an older compilation ends.
22. C22: a query's snapshot taken while an older compilation is in flight fixes an outdated last good document; a compilation in flight during an entry change makes the new entry serve the document of the old one.
23. C63: `Compiled` for a project that was settled or reloaded away panics (`find_project().unwrap()`).
24. C64: `status_revision` is not cleared when a project is removed, so the next project with the id reports nothing until it has caught up.
25. `emit_pending_reasons` calls `notify_compile` with a revision that was already notified, so it never emits anything (lemma `emit_pending_noop`).
26. C23 (`C23_overtaken_update_refuted`): `logical_tick` in `compiler.rs` is never incremented, so the test meant to recognise the last delayed update succeeds for the first one; a later direct update is then overwritten by a delayed older one. The compiler shows old text until the next edit.
27. C24 (`C24_deletion_refuted`, `C24_truncation_refuted`): when a watched file is deleted or emptied, `notify_entry_update` stores the new result in `prev` before the recheck; the recheck compares against that same `prev` and reports nothing. A permanent deletion or truncation never reaches the compiler.
28. C24 (`C24_replacement_refuted`): `recheck_notify_event` does not read the disk again. A file deleted and recreated within 50 ms has lost its watch and is reported neither by an event nor by the recheck.
29. C25 (`C25_save_unchanged_refuted`, `C25_error_repeats_refuted`): duplicates are reported after a brief truncation and after an error reported by the recheck (`prev` is not updated there).
30. C66 (`C66_upstream_unwatches_refuted`): `invalidate_upstream` calls `update_watches` with only the files to read again, which ends the watch of all other dependencies. If no compilation follows (the closed file was unmodified), changes on disk to the other dependencies go unnoticed.
31. C49 (`C49_entry_manager_refuted`, `C49_with_entry_file_refuted`, `C49_stale_snapshot_refuted`): `EntryManager::mutate_entry` and `with_entry_file` change the entry through private functions that do not mark the view as changed, so the revision stays and a project's cached snapshot keeps the old entry.
32. C49 (`C49_reset_refuted`): `CompilerUniverse::reset` changes the file-system revision and not the universe's.
33. C49 (`C49_task_world_refuted`): worlds made for tasks with other entries or inputs carry the revision of the universe, under which the analysis caches are looked up.
34. C36 (`C36_used_revision_refuted`): a lock protects the estimated revision, not the one used; a request on an older world loses its slot.
35. C67 (`C67_two_projects_refuted`): one `Analysis` serves all projects while each counts its own revisions; requests of two projects with the same number share a slot and the second gets the first's answers without any check.
36. C67 (`C67_default_slot_refuted`): `default_slot.clone()` shares the `next` maps, so two slots created without a base answer each other's requests.
37. C68 (`C68_clear_panic_refuted`): a token request running while `tinymist.doClearCache` is executed panics when it ends ("revision is not locked"), or takes the lock of another one.
38. C68 (`C68_clear_ids_refuted`): ids restart after a clear, so the id a client names may stand for other tokens.
39. C68 (`C68_unknown_id_refuted`): an unknown large id makes the server forget all later answers up to it (it then answers in full).
40. C34 (`C34_gap_refuted`): with one line per token, `Tokenizer::push` computes the rest of the line of the last token, not of the new one; after a gap with a line end the length underflows. The tokenizer itself leaves no gaps.
41. C69 (`C69_heading_refuted`): the body of `= Title` is answered twice at one position, as text and as heading, because an untyped child does not move the start of the heading's token and the offset check compares with `>`.
42. C69 (`C69_utf8_refuted`): with UTF-8 positions, token lengths count bytes while columns count characters, so tokens of non-ASCII text overlap their neighbours.
43. C26 (`C26_duplicates_refuted`): `replace_document` and `replace_task` replace the first entry only; a lock file with a repeated id keeps the stale one.
44. C27 (`C27_priority_refuted`): `calculate_routes` collects the priorities in a map and never reads it; the last route in the file wins.
45. C28 (`C28_power_refuted`): `write_atomic` renames without `sync_all`, so after a power loss the destination may be empty.
46. C28 (`C28_lock_refuted`, `C28_lock_torn_refuted`): `LockFile::update` truncates the file and writes in place. A process that dies in between leaves an empty file, which the next update takes for a new one (all documents, tasks and routes are lost), or a torn one, which no later call can read.
47. C71 (`C71_stale_refuted`): the route state of a directory is loaded once; `update_lock` and `update_existing_material` have no caller, so changes of the lock file are not seen until the server restarts.
48. C29 (`C29_selection_refuted`): the page range '1-' (meant as 'from the first page on') is taken for 'first page only'; every other range exports all pages, and PDF exports ignore ranges.
49. C29 (`C29_no_ends_refuted`): the range without ends and reversed ranges can be built and are printed in forms that cannot be parsed.
50. C72 (`C72_colon_unreadable`): a main file with a colon in its name is written to the lock file as `file:a:b.typ`, which cannot be parsed; the whole lock file is unreadable from then on.
51. C73 (`C73_nested_refuted`): `$root`, `$dir` and `$name` are replaced one after the other, so a directory named `$name` is replaced as well.
52. C30 (`C30_short_panics`, `C30_error_panics`): `Fingerprint::try_from_str` returns a `Result` but panics on every bad string; `Deserialize` uses it.
53. C52 (`C52_limit_refuted`): more than 2^31 shards overflow `next_power_of_two`.
54. C74 (`C74_overlap_refuted`): two threads that resolve colliding items at the same time both get the fingerprint; the conflict is not seen.
55. C31 (`C31_other_span_refuted`, `C31_lost_refuted`): `SpanInternerImpl::reset` removes expired entries with `retain` from the set whose positions are the indices of the ids, so every later entry gets another index; ids that the page still shows resolve to another heading or to nothing.
56. C32 (`C32_other_strings_panic`): `InternId::from_hex` unwraps the parse of a string that the page sends; a bad string ends the thread.
57. C33 (`C33_clear_panics`, `C33_order_panics`): clearing a snapshot map forgets the undo log but not the open snapshots, so the next rollback fails an assertion; so does closing snapshots in another order.
58. C51 (`C51_relative_changes`): `normalize_path` changes `../a` to `a`.
59. C75 (`C75_up_refuted`, `C75_empty_refuted`): the path from `../..` to `..` is given as `..`, and the empty path seen from `.` is `..`.
60. C76 (`C76_moved_file_refuted`): moving a file to another directory does not change the relative imports inside of it; they lead elsewhere or nowhere.
61. C76 (`C76_target_refuted`): renaming `../a.typ` through its import to `b.typ` is silently refused; absolute import paths as well (a todo in the code).
62. C77 (`C77_other_directory_refuted`): `LockFileUpdate::compiled` stores paths relative to the current directory of the process; `lsp.rs` and `input.rs` read them relative to the directory of the lock file. An editor that starts the server elsewhere writes lock files that point to other files.
63. C43 (`C43_lost_refuted`, `C43_panic_refuted`): `calc_diff` moves the common suffix to a character boundary by enlarging it (`suffix += 1`), so it grows over characters that differ but share their last byte. Replacing é (C3 A9) by ĩ (C4 A9) gives an empty edit; replacing é by U+3029 underflows.
64. C43 (`C43_crlf_refuted`): if a formatter changes CR LF to LF the edit ends between CR and LF, a position that the protocol does not have.
65. C39 (`C39_panic_refuted`): a panic inside an exported job leaves `running` set; no export (or word count) is started again until the server restarts.
66. C39 (`C39_disorder_refuted`): only the pending job is compared; an older revision submitted while a newer one runs is run afterwards and overwrites its output.
67. C40 (`C40_refuted`): one `export_folder` serves all projects and compares the revisions of different worlds; an export of one project discards the pending export of another.
68. C50 (`C50_settings_restart`): `EntryResolver::root` answers the parent directory the first time and `None` from the cache afterwards. `lsp.rs:152` compares both answers, so a change of settings that changes nothing reloads fonts and projects if the default entry lies outside of all folders and packages.
69. C50 (`C50_dots_refuted`): a path that ends with `..` has another root and main file the second time.
70. C78 (`C78_stale_refuted`): that a path has no typst.toml above it is cached for ever (a todo in the code).
71. C78 (`C78_escape_refuted`): `/a/../b/c` counts as a file of the folder `/a` although it lies in the folder `/b`; it cannot be read there.
72. C37 (`C37_removed_refuted`): a compilation that was announced before its project is removed sends its diagnostics afterwards; they stay at the client for ever (a todo in the code asks about it).
73. C38 (`C38_order_refuted`): the diagnostics of two compilations may overtake each other (lint jobs run in a thread pool); the editor actor does not look at the version, so the older stay.
74. C79 (`C79_late_refuted`): status reports are dropped while notifications are off; after they are switched on, a word count shows the status and path of the time before.
75. C80_astral_refuted: `resolve_span` reports columns in characters and `resolve_source_span` and
`resolve_document_position` read the client's column as characters, but the client counts UTF-16
units; after an emoji in the same line the selection shown is too far left and the cursor is taken too
far right (possibly in another word).
76. C45_twice_refuted: `line_folding_only` reports a range twice when three hierarchies start on the
same line and the inner two end on the same line (such as `#a(b(c[` … `]))` with the outer parenthesis
on a later line): both are moved down by a line, and the set of pairs already seen holds the moved
pair only.
77. C45_crossing: a heading inside a block that is the last item of the document folds to the end of the
document, beyond the end of the block (the repository's own fixture says "there is a bug").
78. C45_sub_heading: the last heading below a heading that is followed by a heading of the same or a higher
rank gets the end of its own title as the limit, so it cannot be folded ("== Heading 2" in
`fixtures/folding_range/base.typ`).
79. C44_joined: the text of a document has nothing between frames that have no content hint, so the last
word of a page and the first of the next count as one; spaces at the very beginning are not counted.
80. C46_comment_refuted: `check_nodes` pushes a comment group on the stack and never finishes it, so
that everything up to the end of the enclosing symbol (or the next heading) becomes a child of the
comment, and `symbols_in_hierarchy` drops a comment with all its children: a definition after a
comment is missing from the document symbols.
81. C46_item_refuted: list and enum items are blocks also in symbol mode, so definitions in them are
dropped with them.
82. C46_escaping: a heading in the body of a function ends the sections around the function, and what
follows the function is listed below that heading.
83. C48_reload_refuted: `reload_projects` (a change of some options) clears the registry at once but
kills the previews through the queue of the actor, and the kill unregisters by project: a preview
started in between loses its registration (and gets no more compilations), and another can be
registered besides it.
84. C48_leak_refuted: a start that fails after registering (the address cannot be bound, which panics in the
future, or `--static-file-host` is given) never unregisters: the project can have no other preview.
85. C48_same_id_refuted: two previews with the same task id (the default is "default_preview") replace each
other in the actor's table; the slot of the first (that of the primary project) is never freed, and the
first keeps running without a way to kill it.
86. C48_background_refuted: a background preview cannot be killed; the client gets the same answer as for a
preview that was killed.
87. C48_no_kill_all: `tinymist.doKillPreview` without arguments, meant to kill all previews, is an error, as
the argument is read before the check for none.
88. C48_refused_restart: a start refused because its task id is in use has already restarted the project of
the running preview, which then shows the new file.
89. C48_late_unpin: the unpinning that follows the kill of a primary preview can be handled after the
start of the next, which is then not pinned.
90. C81_reload_refuted: a dedicated preview asks for a compilation when its previewer is built; if the
projects were reloaded since it started, `find_project` panics on the server thread.
91. C81_settle_refuted: the same panic when a dedicated preview is killed and started again with the same
task id before the server thread has handled the settling of its former project, which then removes
the new one.
92. C47_srclocation_refuted: a page that sends `srclocation <id>` ends the loop of the editor actor: the arm
for `DocToSrcJumpResolve` yields `false`, "not sent" (`editor.rs:188-193`), so the preview
stops answering the editor; in standalone mode the whole program exits.
93. C47_bad_id_refuted: `sourceScrollBySpan` with a text that is not a hexadecimal number panics in the
editor actor (an unwrap of the parse).
94. C82_panic_refuted: `srclocation` without an argument, `outline-sync` with a page that is not a number or
without a comma, and `srcpath` without a space panic in the actor of the page.
95. C82_ping_refuted: a ping, a pong or any frame that is neither text nor binary is passed on as the text
"unsupported message", which is foreign and so ends the connection.
96. C83_stale_refuted: when the request "current" of a new page and the signal of a new compilation are in
one batch of a renderer, the full render wins and sends `pack_current`, the old document; the new one is
dropped until the next compilation.  "current" is broadcast to the renderers of all pages, so the pages
that were connected before are the ones left with the old document.
97. C84_leak_refuted: a failed websocket handshake panics before the guard that reports the end of the
connection is made, so the count of live pages never returns to zero and the data plane never shuts
itself down.  (`with_shutdown_tx` is not called in tinymist, so the idle shutdown is not used at
present.)
98. C85_taken_refuted: a preview of the primary project started with a file changes the main file although
the user has pinned another; when it ends, the server still counts the main file as pinned by the user.
99. C85_fonts_refuted: new settings that change the fonts or the root make the primary project anew at the
default entry; the pinned file is forgotten while `pinning_by_user` stays, so focusing does not set a
main file either.
100. C85_refused_refuted: `pinMain` with a relative path is an error, but sets `pinning_by_user` before: the
main file that happened to be focused stays pinned.
101. C86_preview_refuted: when a preview ends, its file stays the main file until the next focus.
102. C86_fonts_refuted: after a change of fonts or root the primary project has no main file until the next
focus.
103. C86_default_refuted: a default entry set by new settings that leave root and fonts alone does not become the
main file; but focusing is switched off, so the file that was focused stays the main file.
104. C87_other_refuted, C87_manual_refuted: completion and signature help record the position without the
file, and so does hover after a focus command; the preview is then scrolled to that position in the
focused file.
105. C89_leak_refuted: `drop` compares the count with 2 before the field is dropped.  Two threads that drop the last two
handles on a content at the same time both see 3, so neither removes the entry: it stays in the
table (and in the statistics) until the content is interned and dropped again (C89_recovers).
106. C91_refuted: `emit_pending_reasons` can never announce anything.  It announces the last compilation again only if that has the
current revision, and `notify_compile` drops results that are not newer than the last one announced; a
harmless change makes a new revision anyway.  So a save that is found harmless runs no export, and the
fields `pending_reasons` and `emitted_reasons` have no effect.
107. C90_empty_refuted: `ChangeTask` with neither inputs nor an entry adds a reason without a new revision.  The scheduler then starts a compilation of
the cached snapshot, which carries the reasons of the compilation before.
108. C92_forked_twice, C93_torn: `snapshot()` and `snapshot_unsafe()` copy the map of entries, so entries that are made later are not shared.  A fork made while a
document is being computed shares the document's cell but not the compilation's; it compiles again for its diagnostics.  No
caller forks a graph that is in use.
109. C93_early: an error of `must_get` (flag not provided) is stored in the cell of the computation, and later `provide` does not help.
110. C94: `download_package` unpacks into the final directory (`http.rs:298-299`), and `prepare_package` takes any existing directory for the package.  While one thread
unpacks, another (a second project, a query, another process sharing the cache) is answered with part of the package; a process killed
meanwhile leaves that part for ever, since nothing is ever fetched again.  Of two overlapping downloads, one that fails removes the directory that
the other one was answered.  Unpacking to a temporary directory and renaming it would avoid all three.
111. C95_unchecked: `get_manifest_id` (`crates/tinymist-query/src/package.rs:45`) makes a spec from namespace and name as the client sends them; with `..` the directory is outside of
the package roots.
112. C96_listed_refuted, C97_local_refuted: names such as `01.0.0` or `+1.0.0` are parsed as versions, but looked for as `1.0.0`.  `determine_latest_version` also counts plain files.
113. C96_twice_refuted: a package in both directories is listed twice, the second with a path that is never used.
114. C97_failed_refuted: a failed fetch of the index is stored as an empty list in a `OnceLock` (`http.rs:235-238,271`); until the server is restarted `@preview` packages are neither
completed nor initialised without a version.
115. `DirPack::clone_into_pack` (`pack/fs.rs:51`) joins the names of an archive as they are; absolute ones or `..` write outside of the directory.  It has no callers (not modelled).
116. C98_port80: browsers leave out port 80, but the expected origin always has a port (`http.rs:204`); a previewer at port 80 of another host than `localhost` and `127.0.0.1` refuses its own
page.  So does one bound to `0.0.0.0`, for pages that are opened by another address of the machine (an instance of C98_foreign).
117. C98_absent: a websocket without `Origin` is accepted with an error in the log (`http.rs:76-78`), by design.
118. The server of timings restarts its timer at every request, also those it refuses (`user_action.rs:244`; not modelled): any page can keep it running.
119. C100_hidden_refuted, C100_closure_refuted: arguments of calls are never looked at (`lib.rs:383-390` overrides the default without visiting them), so neither are closures and trailing content
blocks passed as arguments, where most functions of Typst documents are.  Named and spread items, operands of `include` and of `return` are passed over too.
120. C100_head_refuted: the head of a loop counts as inside (`lib.rs:76-89` is entered before the condition), but a `break` there leaves the loop around it, or is an error.
121. C101_fallthrough_refuted, C101_loop_refuted: a conditional without `else` and a loop count as always taken when the value in front of them is looked at: in `{ [a]; if c { return 1 } }` the value `[a]` is reported as
discarded (`lib.rs:555-567`: without an `else` the state stays that of the code after the conditional, and `join` takes the branch's if that is unknown).
122. C101_rules_refuted: in `{ set text(red); [a]; return }` the rule is reported, but `return` without a value gives back what was joined, styled.
123. C101_missed_refuted: one value is reported for each `return`, and results of calls and variables never.
124. C102_show_refuted: `if c { show: it => [x] }` is reported to have no effect but shows `[x]`.
125. C103_for_iterable_refuted: `#for x in x {}` resolves the iterable to the loop's own variable (`expr.rs:962-966` binds the pattern before checking the iterable).
126. C103_default_refuted: in `#let f(x, y: x) = …` the default is resolved to the parameter in front of it, and to the function itself if it has that name (`expr.rs:429-461` checks parameters inside the function's scope); Typst evaluates defaults outside.
127. C103_item_refuted: what is defined in a heading, a list, enumeration or term item is forgotten after it (a scope is opened for their bodies, `expr.rs:337-354`), while Typst keeps it.
128. C103_assign_refuted: `((x,) = (2,))` declares a new `x` instead of referring to the one assigned, so that references before and after it are split in two.
129. C103_item_path_refuted: `#import "m.typ": a.b` looks for `b` among the exports of `m.typ` (`expr.rs:785-789`, marked todo in the code).
130. C103_rebound_module_refuted: `#import "n.typ" as m` followed by `#import m` binds `n`, the name of the file, not `m`, and so hides an `n` defined by the user.
131. C103_library_item_refuted: after `#import calc: abs` uses of `abs` have neither definition nor value (`extract_ref`, `expr.rs:1238-1243`, drops the value of a reference).
132. C104_exports_refuted: `summarize_scope` (`expr.rs:231-237`) merges the scopes from the innermost and then from the outermost inwards, each overwriting: after `#import "a": *` followed by `#let x = 2` the file exports the `x` of `a` if it has one.
133. C105_import_source_refuted: names used as the source of an import are evaluated but never recorded, so renaming a variable misses `#import p: *`.  Also by `get_refs`: renaming `x` where another file has `#import "a": x as y` renames the alias `y` and all its uses, since they have the same root.
134. C106_follow_refuted: `#import "a.typ" as x: x` where `a.typ` does not define `x`, followed by `#import x: y`, recurses without end: the item's root is the selection of `x` from the alias `x`, whose name now means the item (`expr.rs:795-799`, `1178-1201`).  The language server overflows its stack on such a file.
135. C101_else_refuted: like C101_fallthrough_refuted for a `return` in the `else` branch only.
136. C107_star_refuted: a file that hands a definition on by `#import "a.typ": *` and does not itself contain the name is left by `ReferencesWorker::file` (`references.rs:104-106`) before its exports are looked at, so that the files importing from it are not searched.  A rename then breaks them.
137. C107_alias_refuted: `is_exported` looks for the definition under its own name only; a file that imports it `as y` hands it on as `y`, and the uses of `y` in files that import that file are not found.  A rename of `x` renames the alias `y` in the middle file (C105) but not in those files.
138. C107_package_refuted: the dependents are known only of the workspace's own files (`module.rs:27`, `56-60`); references to a definition in a package are found in the defining file only, although the files using it are in the workspace.
139. C107_cycle_refuted: the file of the definition is visited without being put into `searched` (`references.rs:90`), so that with cyclic imports it is visited twice and its references are reported twice; a rename then has two edits of the same range, which the protocol forbids.
140. C103_field_refuted, C107_field_refuted, C108_field_refuted: `check_field_access` (`expr.rs:920-925`) checks the target of `m.x` and records nothing for `x`; after `#import "a.typ" as m` the uses `#m.x` are not references to the `x` of `a.typ`, and renaming `x` leaves them with the old name.
141. C108_capture_refuted: the rename does not look whether the new name is taken, nor whether it is an identifier (`rename.rs:96-109`, `prepare_rename.rs`); renaming `x` to `y` where `y` is in scope makes uses mean the wrong definition without a warning.
142. C108_source_refuted: the name in `#import x: *` is evaluated but never recorded (C105); renaming `x` leaves it with the old name.
143. C108_alias_refuted: in `#import "a.typ": x as y` the alias is itself a reference to `x` and is renamed with it, here and in the rest of the file (one might expect it to stay); files that import `y` from this file are not searched and are left with a name that no longer exists.
144. C109_with_refuted: `wind_stack` (`signature.rs:206-214`) records the positional arguments of a `with` call under the names of the parameters they fill, and `analyze_call` (`call.rs:184-188`) counts as positional only those without a name, so none is skipped: after `#let g = f.with(1)` for `f(x, y)` the hint in `g(1)` says `x`.  The snapshot `fixtures/call_info/snaps/test@user_with.typ.snap` holds this wrong name.
145. C109_sink_refuted: a sink is kept apart from the positional parameters (`sig.rs:208-219`), so its place is lost; in `f(..r, a)` the arguments of `f(x, y)` get each other's names.
146. C109_spread_refuted: a spread ends the positional parameters whatever it holds (`call.rs:143-149`, marked as not precise); in `f(..(), x)` for `f(a, ..r)` the hint for `x` says `..r`.
147. C110_sink_refuted: the mark is cut at the last positional parameter (`signature_help.rs:108-111`) although the rest parameter is listed after the named ones, so an argument of the sink marks the last positional parameter; if there is none, it marks the first parameter shown, which may be a named one.
148. C110_with_refuted: `param_shift` (`sig.rs:60-69`) counts the named arguments of `with` calls as well; after `f.with(k: 1)` every positional argument marks the parameter after its own.
149. `wind_stack` skips as many positional parameters as there are `with` calls below, not as many as they have arguments (`signature.rs:200`).
150. C113_comment_refuted: the ranges between body and dollar signs are replaced as if they held white space only (`code_action.rs:174-179`); a comment there is removed.
151. C113_bracket_refuted: any ASCII punctuation not followed by another is moved into the equation (`code_action.rs:191-197`): in `#[$x$] y` the bracket that closes the block, in `*$x$* y` the star, in `$x$#f` the hash.
152. Enter in list items is documented (`on_enter.rs:14-15`) but switched off (`on_enter.rs:81-87`).
153. C115_break_refuted: `visit_node` adds the rest of a show rule with a line break at its end (`cov.rs:430-438`); in `#show: f;` the line break comes before the `;`, which is then text of the document.
154. C116_report_refuted: the `if` after an `else` is wrapped as one body, and its own first branch is visited without a mark when it is content: in `#if a [x] else if b [y]` that `[y]` is entered is never recorded.  Likewise the inner body of `x => y => z`.
155. C116_result_refuted: an `else if` is put into a code block, so a variable bound in its condition (`else if f(let z = 1) [..]`) is lost after it and a program that reads it fails under coverage.
156. C117_panic_refuted: `__cov_pc` is an ordinary function of the library; a document with `#__cov_pc(7)` indexes the counts out of bounds and panics.
157. C117_placeless_refuted: a closure without a block (`x => x`) gets marks with the detached span: they count in the summary and are never in the report.
158. C118_never: `set_debug_session` returns false if the *new* session is `Some` (`debugger.rs:136`), so no debug session can be started.
159. The text added to show rules and closures uses the names `type`, `function`, `__it`; a document that defines one of them changes what the added code does.  A show-set rule is turned into a function rule, which changes what it can override.
160. C121_cycle: while a variable is simplified, it counts as any; results of other variables made meanwhile lack its bounds but are cached and used at other places.  With `a` above `b` and `int` and `b` above `a` and `str`, the tuple `(a, b)` is simplified to one whose second part is `str` or any without `int`, while `b` alone has `int`.  What a type tells altogether is not affected (C120_labels).
161. The cache of simplified variables has the polarity `self.principal` in its key, the same for all, instead of the polarity of the place (`simplify.rs:164,175,180`); only the principal type depends on it, which is only printed (`tinymist-query/src/analysis.rs:422`).  `analyze` takes the bounds of a `Let` with the opposite polarity of `transform`, and the bodies of arguments, patterns and `with` are not analyzed at all.
162. C126_hidden: when a block joins a variable, the type of the other expressions is dropped: `{ 1; x }`-like blocks have the type of `x` alone, although typst would join both (`tyck.rs:546-563`, marked `todo: possibles`).
163. C125_cached: a call that was seen before its variables were weakened is not looked at again, so that the lifted bound is missing; the same constraint outside of a call is added (`tyck.rs:234`).
164. `constrain` never compares the bodies of functions, only their inputs (`tyck.rs:404-412`), and `weaken` skips the bodies of signatures (`tyck.rs:494-509`); `mutate` leaves the types in the bounds of a `Let` as they are (C123: `puts_let`).
165. `constrain` of a dictionary against a builtin that stands for a dictionary would not end if such a builtin occurred in a dictionary within its own fields (`good_env`); of the six only the font refers to such a builtin, directly in its field `name`, and is safe.
166. `BuiltinTy::from_builtin` maps `bool` to `BuiltinTy::None` (`builtin.rs:331-333`), and `SigTy::new` counts the named inputs from the wrong place when a left spread is given (`def.rs:892-901`; no caller gives one).
167. The order of types is not linear: `InsTy::cmp` (`def.rs:525-531`) says `Equal` for values that cannot be compared, so `1 = "a"`, `"a" = 2`, `1 < 2`.  A sort with such an order may depend on the input's order and may panic in recent versions of Rust; the hypothesis of C121_unique and C121_sets is not met by such values.
168. `BoundChecker::check_var_rec` has no guard against variables bounded by each other.
169. Preview: every request to scroll also triggers a render and an outline; each page's outline resets the interner shared by all pages.
170. Lock file: the id of a workspace changes when an unclean root is given again; `entry()` accepts `lock_dir/../x` as inside by `starts_with`; a `srcpath` with spaces is cut without notice.
171. `AliasStackChecker` (`signature.rs`) pops the inner `with` elements, so that only the outermost remains.
172. The comments at the end of an inner sequence stay in the matcher and are given to the next closure in the same expression: in `f({ 1 // note`⏎`}, x => x)` the closure is documented by `note` (`C127_leak_refuted`; `comment.rs:166-214`, `expr.rs:1002-1023`: `check_in_mode` resets the matcher at its start and after each expression but not at its end).
173. A comment after a definition on the same line documents the next definition: `#let x = 1 // about x`⏎`#let y = 2` gives `about x` to `y` (`C127_trailing`).  In code, where one space token holds several newlines, blank lines do not end a group (`C127_code_blank`), and every comment counts, also `//` and block comments.
174. One empty comment line (`///` alone) in a group has indentation 0, so the others keep theirs: `/// a`⏎`///`⏎`/// b` gives ` a`, empty, ` b` (`C128_indent_refuted`; `comment.rs:193-196`).
175. A module whose first group of comments documents its first definition has that text as documentation of the module too (`C129_own_refuted`); one whose file starts with a blank line or a shebang has none (`C129_nonvacuous`).
176. A documentation of parameters only is shown with the parameters repeated as its text, since the end of the documentation is not set when the search reaches the first line (`C130_docs_refuted`; `tidy.rs:29-32,126-130`).
177. A key whose value is a sequence of mappings counts as an entry of the bibliography, that ends where the first mapping of the sequence ends (`C132_seq_taken`; `bib.rs:114-145`: `SequenceStart` is not counted as depth).
178. A key keeps its value over the end of a mapping or document: an unnamed mapping later can be taken for an entry of that key (`C132_entries`, `named_maps`).
179. The name of an entry is taken to be as long as the value of the key, so for a quoted or escaped key the range of the name ends too early (`bib.rs:128-139`; depends on the marks of yaml_rust2, no theorem).
180. The entry of hayagriva shown for a key may be of another file than its place, when the later file names the key by an alias or a merge (`C133_raw_elsewhere`; `bib.rs:64-76`).  A later file that defines the key again but that hayagriva refuses leaves the entry without one (`C133_last`).
181. A click in a rotated, scaled or moved group finds what would be there without the transformation (`C134_transform_refuted`; `jump.rs:37`, the TODO there).
182. A click on a glyph of no file jumps to a glyph after it: `continue` skips `pos.x += width` (`C134_detached_refuted`; `jump.rs:53,70`).
183. A link inside a group stops the search in the group only: a click on it jumps to the source of what is below (`C134_group_link`; `jump.rs:24-31,38`).
184. When no glyph has the span of the cursor, the place of the closest glyph is not moved by the positions of the groups it is in: the preview scrolls to the wrong place of the page (`C135_closest_refuted`; `jump.rs:175,197`: the found point is shifted, `res` is not).
185. Snippets that are numbered already are numbered again: the default math snippets `${x}_${2:2}` and `${x}^${2:2}` insert `2:2` (`C136_numbered_twice`; `completion/snippet.rs:385,391`).
186. With the cursor behind a label `<a>` the range of the edit ends before the cursor, which the protocol does not allow (`C137_label_end_refuted`; `analysis/completion.rs:340`).
187. From a thousand items on the sort texts are not in order: `{idx:03}` gives `1000`, which is before `101` (`C138_order_refuted`; `analysis/completion.rs:806`).
188. A configured postfix snippet without a placeholder panics the request: `split[0]` (`C139_total_refuted`; `analysis/completion/snippet.rs:117`).
189. The text of the expression is put unescaped into the snippet: `${x}` within it becomes a placeholder (`C139_escape_refuted`; `analysis/completion/snippet.rs:151-156,271-283`).
190. The completion that puts the expression first in a call with more arguments leaves no comma: `f(node${})` (`C139_calls`; `analysis/completion/snippet.rs:288-301`).
191. The fence of `raw` does not count a run of backticks at the end of the text: `#raw("a````")` is fenced by three (`C142_fence_refuted`; `library.rs:68-78`).
192. Inline raw text of several lines loses its line breaks, and a backtick in it ends it; contexts shown as code are fenced by three backticks whatever they hold (`C142_inline_refuted`, `C142_context_refuted`; `lib.rs:346-372,758-763`).
193. `table.footer` adds an empty cell before its cells; `columns: 0` and `columns: ()` panic (`C144_footer_refuted`, `C144_total_refuted`; `library.rs:173-246`).
194. The hash before a call that gives content is kept, so the code statement after it becomes `##let ...` (`C145_hash_refuted`; `lib.rs:321-331`).
195. Included files number their images from the number of the including file, which then goes on with the same: files are overwritten (`C146_include_refuted`; `lib.rs:883-897`); examples never take a number (`C146_example_refuted`; `library/docstring.rs:40-59`).
196. With one color theme and an asset directory the image is overwritten by the text of its own path (`C146_theme_refuted`; `lib.rs:490-494` after `lib.rs:667-671`).
197. A file that includes itself overflows the stack (`C147_cycle_refuted`; `lib.rs:883-897`).
198. After each placeholder of a message one character is lost, because the loop that takes the name also takes the brace and then skips one more: `{p} not found` is said as `filenot found`; `{a}{b}` shows `b}` (`C149_meant_refuted`; `crates/tinymist-l10n/src/lib.rs:235-236`).
199. With translations for `zh` and `zh-hant` the locale `zh-hant-tw` gets whichever comes first in the hash map; keys with capital letters such as `zh-CN` are never found since the locale is lowered (`C150_order_refuted`, `C150_capital_refuted`; `lib.rs:35-50`).
200. A line `[` or a section line ending in a character of several bytes panics the reader of translations (`C151_panic_refuted`; `lib.rs:277-278`).
201. A message whose literal spans lines makes the update write a file that the next run cannot read (`C152_line_refuted`; `lib.rs:119-133`, `main.rs:112-130`).
202. A workspace root with `..` gets a new id on every request, changes the id of the plain root, and after 65536 requests panics: the lookup uses the root as given, the table gets the cleaned one (`C154_detour_refuted`, `C154_plain_refuted`, `C154_exhausted_refuted`; `crates/tinymist-vfs/src/path_mapper.rs:181-193`).
203. A document that names a package `@ws/p99:0.0.1` panics the resolver, and `@ws/p+0` is a second id of a file of the workspace (`C155_panic_refuted`, `C155_alias_refuted`; `path_mapper.rs:117-133,241`).
204. Examples `x.a` and `x.b` share the reference `x.png`, since the name is cut at its last dot a second time: both pass alone and fail together (`C156_shared_refuted`; `crates/tinymist/src/tool/testing.rs:443,523-525`).
205. A reference whose hash file is missing is overwritten without `--update`, and a matching hash passes even if the reference is missing (`C156_replaced_refuted`; `testing.rs:528-564`).
206. An example with a mismatch is logged as failed and then as passed (`C157_both_refuted`; `testing.rs:449-466,536-551`). A test that must panic passes with any error whose message contains `panic` (`testing.rs:396-405`).
207. An error in a file that has no address (e.g. of a package that is gone) is dropped with only a log entry, although its trace leads to the main file (`C158_trace_refuted`; `crates/tinymist-query/src/diagnostics.rs:112-114`).
208. A document link to an absolute path such as `/img/a.png` opens `/img/a.png` of the file system and not the file below the root that the compiler loads (`C160_absolute_refuted`; `crates/tinymist-query/src/analysis/link_expr.rs:60-64`).
209. A link keeps the id of the document it is in, and the rename of a file compares this id with the renamed file. So renaming an image or a data file changes no link to it, and renaming a document that has its own name in any string rewrites all its links, e.g. `image("a.png")` to `image("new.typ")` (`C161_missed_refuted`, `C161_wrong_refuted`; `crates/tinymist-query/src/rename.rs:212-217`, `link_expr.rs:196-201`).
210. The comment above each command of the build script has the names of the document and the task as they are: a name with a line break, which may come from a lock file or the name of a file, ends the comment and the rest is run by the shell (`C162_injection_refuted`; `crates/tinymist/src/tool/project.rs:353-357`).
211. The build script writes `--input=`, `--output`, `--pretty`, `--creation-timestamp` and `--format=md|txt|svg_html`, none of which `tinymist compile` accepts, so these commands always fail (`C163_unsupported`; `crates/tinymist/src/tool/project.rs:267-343`, `crates/tinymist-project/src/args.rs:118-161`).
212. `tinymist compile --format html` and outputs that end in `.html` make a task that exports SVG; no arguments make an HTML task, and the output path is always dropped (`C163_never_html`, `C163_html_refuted`; `crates/tinymist-project/src/args.rs:210,226`).
213. Running the build script rewrites the lock file: `when` becomes `never`, the resolution of images 144, a named document is added again under its path, and a query task becomes a PDF export (`C163_when_refuted`, `C163_ppi_refuted`, `C163_name_refuted`, `C163_query_refuted`).
214. A page range without a start, such as `-5`, is written as `--pages -5`, which is read as an unknown option (`C163_hyphen_refuted`; `crates/tinymist/src/tool/project.rs:306-307`).
215. A snapshot of the compiler counts the files it reads as dependencies from its creation on, and a compilation switches this off only in the clone it works on. Files that queries of the language server read afterwards through the snapshot become dependencies of the document; the project's own tests switch the flag off first and so do not see this (`C165_queries_counted`; `crates/tinymist-world/src/world.rs:165-168`, `crates/tinymist-world/src/compute.rs:280-282`, `crates/tinymist-query/src/tests.rs:72`).
216. A start from a template that fails in the middle leaves the files written so far, and a second attempt is then refused because the directory is not empty (`C168_undone_refuted`; `crates/tinymist/src/tool/package/init.rs:90-142`).
217. The entry point of a template is not checked against the template: an entry point with `..` shows a file that the project does not get (`C168_no_entry`; `crates/tinymist/src/tool/package/init.rs:30-80`).
218. The debugger wraps the transform of every show rule in `let __bp_functor = ...` and then calls it, also when it is a set rule, a string or content, which are no functions; the coverage tool handles these cases (`C169_show_set`; `crates/tinymist-debug/src/debugger/instr.rs:79-90,199-206`).
219. The blocks the debugger adds end with a line break. Between the first branch of a conditional and `else` in markup this ends the conditional, and `else` becomes text (`C169_else`; `crates/tinymist-debug/src/debugger/instr.rs:196`).
220. The breakpoints of a function whose body is one token have detached spans, so they cannot be set in an editor (`C169_nowhere`; `crates/tinymist-debug/src/debugger/instr.rs:179-191`).
221. Copying an archive into a directory joins the directory with the path in the archive without a check: entries with `..` or from the root write files anywhere, and an entry for `/` panics (`C171_outside_refuted`, `C171_absolute`; `crates/tinymist-package/src/pack/fs.rs:51-53`, `crates/tinymist-package/src/pack/tarball.rs:37-41`).
222. Archives are read with the path in the header of an entry, which does not have the long paths of the extensions of the format; such files arrive under a shortened path (`C171_long_refuted`; `crates/tinymist-package/src/pack/tarball.rs:30,37`).
223. The filter that skips hidden entries is also applied to the root of the walk, so that a package directory such as `.` or `.packages` reads as an empty package without an error (`C170_hidden_refuted`; `crates/tinymist-package/src/pack/fs.rs:90`).
224. The request for workspace symbols converts the kind of every item with `unwrap`, and comments and list items are items without such a kind: with no pattern or the empty one (what editors send first), any file with a comment before something or a list item in the first two levels makes it panic (`C172_panic_refuted`, exactly when: `C172_panics`; patterns that are not empty are safe: `C172_named`; `crates/tinymist-query/src/symbol.rs:86`; the request for document symbols filters them first).
225. The request for workspace symbols looks at items at the top and at their children only: a heading of the third level, or a definition below one of the second, is never found (`C172_deep_refuted`; `crates/tinymist-query/src/symbol.rs:73-77`).
226. The arguments of a debug launch or attach are deserialized with `unwrap`, and so is the snapshot: a launch configuration without `program` or `root` takes the debug adapter down without a response (`C173_malformed_refuted`, `C173_crash`; `crates/tinymist/src/dap/request.rs:94,107`).
227. The debug adapter announces data breakpoints, function breakpoints, locations of breakpoints, step targets and filters of exceptions, but has no handler for any command of these, and answers `method not found` (`C173_announced_refuted`; `crates/tinymist/src/dap/init.rs:78-131`, `crates/tinymist/src/server.rs:313-324`).
228. The event `initialized` of the debug adapter is sent before the response to the request `initialize`, while the protocol has it after; and events are numbered from 0 (`C173_welcome`; `crates/tinymist/src/dap/init.rs:140-144`).
229. Terminating the one thread ends the debug session without an event (`C173_silent`; `crates/tinymist/src/dap/request.rs:51-65`).
230. Numbers of requests to the debug adapter are cut to 32 bits, so that a larger one is answered under another number (`C173_wrap_refuted`; `crates/sync-lsp/src/server/dap_srv.rs:178`).
231. The first presentation of a color is its hexadecimal digits in quotes, without `rgb(...)`: picked in an editor, which puts it in place of the whole call, it leaves a string and no color (`C174_first`; `crates/tinymist-query/src/color_presentation.rs:44`). RGB is presented twice (`C174_presentations`).
232. Calls of functions that the document itself calls `rgb` or `luma` are listed as colors of the standard functions (`C174_shadowed`; `crates/tinymist-query/src/analysis/color_expr.rs:65-72`).
233. A font file is read once for the book and again when the font is first used: if it changes in between, the book tells about another font than is loaded, for as long as the process lives (`C175_stale`; `crates/tinymist-world/src/font/system.rs:87-91`, `loader.rs:37-43`).
234. `get_by_info` of a font resolver panics if no font covers the first character of the wanted one, for instance without any font, instead of giving `None` as its type allows (`C175_no_substitute`; `crates/tinymist-world/src/font/resolver.rs:54-57`).
235. `font` of a font resolver panics for an index beyond the book, where `slot` gives `None` (`C175_index`; `crates/tinymist-world/src/font/resolver.rs:195-197`).
236. Names of documents without a file are put into addresses without encoding: `untitled:100%25` stands for both `100%25` and `100%`, and everything from a hash or question mark is lost, so that `a#1` and `a#2` have one address (`C176_percent_refuted`, `C176_hash_refuted`; `crates/tinymist-query/src/lsp_typst_boundary.rs:19-21`).
237. A document whose address is on another host, or of a scheme without parts, takes the server down: every handler turns the address into a path with `unwrap` (`C176_panic`, `C176_panic_case`: `vscode-vfs://github/a/b.typ`; `crates/tinymist-query/src/lsp_typst_boundary.rs:57-59,76`).
238. The address of the root directory is taken for that of a buffer without a name (`C176_root_refuted`; `crates/tinymist-query/src/lsp_typst_boundary.rs:53-55`).
239. A request for ranges to select with a position at the end of the document, where the caret is while typing, has no answer for any of its positions (`C177_end_refuted`; `crates/tinymist-query/src/selection_range.rs:38`).
240. Labels below a heading of the second level that is below one of the first are not among the labels of the workspace (`C178_deep_refuted`; `crates/tinymist-query/src/workspace_label.rs:53-57`).
241. The report of statistics shows for a query that has not ended yet a shortest time of `u64::MAX` seconds (`C179_none_refuted`; `crates/tinymist/src/stats.rs:25`), and the report on allocations panics for 768 terabytes or more, as the loop of `human_size` runs once too often (`C179_size_refuted`; `crates/tinymist-analysis/src/stats.rs:75-79`).
242. A tooltip is left out if the first nine values are the same function, even if the tenth is another value (`C180_ninth_refuted`; `crates/tinymist-analysis/src/upstream/tooltip.rs:80,111`).
243. Of several functions among the alternatives of a type only the first is described; the others are lost without a trace, and the description depends on their order (`C182_functions_refuted`; `crates/tinymist-analysis/src/ty/describe.rs:78-81`).
244. The family of a name with two separators before its style keeps one of them: `Foo  Bold` is of the family `Foo ` with a space at the end, whose own family is `Foo` (`C183_twice`; `crates/tinymist-world/src/font/info.rs:28,52`: white space is only trimmed before the styles).
245. The family of `-Bold` is the empty name (`C183_empty`; `crates/tinymist-world/src/font/info.rs:52`).
246. Bounds of types are searched through variables without remembering which were visited: if a variable is directly in a bound of itself (in a union, say), the recursion does not end (`C184_cycle_refuted`; `crates/tinymist-analysis/src/ty/bound.rs:14-21`).  Whether the checker of types makes such bounds is not modelled.
247. Only the last bound of a variable decides how a name is completed: `check` resets the checker also when it calls itself for a bound, so a function bound is lost if another bound follows it (`C185_bounds_refuted`; `crates/tinymist-query/src/analysis/completion/kind.rs:20-21,44-48`).
248. A name whose type is the type of a type counts as a function (`kind.rs:38-40`), but its constructor's parameters are not looked at (`kind.rs:166`): it is completed with empty parentheses (`C185_types_refuted`).
249. The greatest weight of a family of fonts is computed from the least one (`max_weight = min_weight.max(weight)`), so what is shown is the weight of the last variant, and variants are ordered by style first: a family with a bold upright and a regular italic variant is shown as having the regular weight only (`C186_weights_refuted`; `crates/tinymist-analysis/src/upstream/mod.rs:384`).
250. Links in the documentation of a user's own functions are resolved as names of the library of Typst: a link to another file, or to an address that does not start with `http`, is replaced by the address of the page for missing pages (`C186_links_refuted`; `crates/tinymist-analysis/src/upstream/mod.rs:57-61`, used by `crates/tinymist-analysis/src/docs/def.rs:115,142,306`).
251. Whether a font is for equations is looked up in the last 25 bytes before the cursor, and in `#show math.equation: set text(font: "` with its quote the word `equation` is 26 bytes away, so all fonts are offered (`C187_window_refuted`; `crates/tinymist-query/src/analysis/completion/typst_specific.rs:10`).
252. A string put in directly before another string loses its closing quote, though it has an opening one (`C187_quotes_refuted`; `crates/tinymist-query/src/analysis/completion/typst_specific.rs:226`).
253. A label with characters that cannot be written between signs, made with the function `label`, is offered as if it could be (`C187_labels_refuted`; `crates/tinymist-query/src/analysis/completion/typst_specific.rs:118-128`).
254. The name of a field that is not an identifier is put in between quotes without escaping those in it (`C187_fields_refuted`; `crates/tinymist-query/src/analysis/completion/typst_specific.rs:223`).
255. A name or field that has only a module without a name as its value, such as the module of a plugin, would bring down the search for its definition (`module.name().unwrap()`; `C188_modules_refuted`; `crates/tinymist-query/src/analysis/definition.rs:337`). That such a value comes without a declaration needs an import of a value that is only known after evaluation.
256. Renaming a field is refused when it is prepared but done when it is asked for, as `rename.rs` does not look at whether the place is a field (`C188_agree_refuted`; `crates/tinymist-query/src/prepare_rename.rs:41-45`, `crates/tinymist-query/src/rename.rs:42-47`).
257. At the end of a document the mode is said to be markup, also if the document ends in a comment, an equation or code, for example while `#let x = ` is being written (`C189_ends_refuted`; `crates/tinymist-query/src/code_context.rs:142-145`).
258. Right after the backticks that open raw text after a hash the mode is code, as the hash before the delimiter is looked at before the raw text, and no languages are offered (`C189_raw_refuted`; `crates/tinymist-analysis/src/syntax/matcher.rs:340-345`).
259. The branch of `complete_code` for identifiers that are not in field accesses is never reached, as all identifiers are taken by the one before, which offers names in scope for fields as well (`crates/tinymist-query/src/analysis/completion/mode.rs:153-158,171-181`).
260. In the items of an import a name that has been written in full is not offered at its own place, as the item at the cursor counts among those already imported; so asking for completion again after the last letter takes the entry away (`C190_typed_refuted`; `crates/tinymist-query/src/analysis/completion/import.rs:103-121`).
261. After a dot in a path of an import all names of the path count as before the cursor, also those behind the dot, as no name has the span of the dot (`crates/tinymist-query/src/analysis/completion/import.rs:76`).
262. Methods are never offered by type for a dictionary whose fields are known: the arm of the match that would add them comes after one that takes all dictionaries, and is never reached (`C191_dict_refuted`; `crates/tinymist-query/src/analysis/completion/scope.rs:271-275,326-328`).
263. If a type can be one of several elements, a field that they share is offered with the type of the first and the documentation of the last, as types are kept and documentation is replaced (`C191_docs_refuted`; `crates/tinymist-query/src/analysis/completion/scope.rs:23-26,309-311`).
264. In the documentation of a package a module that is exported stands without its definitions where it is exported, and with them among the modules that are not exported under a name such as `a.-.a`, if the entry point also exports something of it by a name that sorts before that of the module, for example `#import "sub.typ": a` and `#import "sub.typ"` (`C192_internal_refuted`; `crates/tinymist-query/src/docs/module.rs:181-190,233-247`).
265. In the text of a string, as in `#set text(lang: "|")`, no languages and regions are offered, as the filter there takes only paths, fonts, features and values that are strings, although what is offered outside the quotes are strings (`C193_langs_refuted`; `crates/tinymist-query/src/analysis/completion.rs:696-702`).

## Seeded faults

`seeded/LOG.jsonl` lists edits of the model tried in a scratch copy.
`theorems_failed` names the theorems whose proofs no longer go through; this
over-approximates the theorems that became false, because a broken lemma
script takes every theorem using it along.

## Assumptions per theorem

Every theorem listed in `MANIFEST.json` prints "Closed under the global
context" (`Print Assumptions` follows each theorem in the `*Thm.v` files); no
axiom of the standard library is used so far.

## Line numbers cited in the model

A late check of the cited line numbers against `/repo` found many that were off by a few lines, and some past the end of the file.
They were corrected in `ClickModel.v`, `FmtModel.v`, `FocusModel.v` (`input.rs` only), `HlModel.v`, `InternModel.v`, `LabModel.v`, `LinkModel.v` (`link_expr.rs` only),
`LockModel.v` (one range), `MdModel.v` (tables), `OutModel.v`, `PageModel.v` (one range), `QueueModel.v`, `RenModel.v` (`rename.rs`), `SimpModel.v` (`simplify.rs`), `SnapModel.v`,
`SpanModel.v`, `StatModel.v` (`tinymist-analysis/src/stats.rs`), `StkModel.v`, `SymModel.v` and `UrlModel.v`.
The other files were only searched by script for ranges past the end of a file and for functions named outside the range cited.
By that search ranges that begin or end at blank lines or closing braces are frequent in `ConModel.v`, `DbgModel.v`, `DiagModel.v`, `DocModel.v`, `GraphModel.v`, `ImpModel.v`,
`InfModel.v`, `TextModel.v`, `UnivModel.v` and the rest of `LockModel.v`, so that lines cited there may be off by a few; the names of functions given with them are the surer guide.
Lines cited in this document were corrected only along with those files.
