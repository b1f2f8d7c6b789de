(** Configuration: decoding of settings, configuration changes, dynamic
    registration of capabilities.

    Models crates/tinymist/src/config.rs (settings and their update),
    crates/tinymist/src/lsp.rs:34-64,123-214,217-334 (reaction to changes) and the
    choice of position encoding in crates/tinymist/src/lsp/init.rs.

    A decoded setting is represented by a number (only equality of decoded
    values matters); the serde deserializers of the setting types, the parser of
    [typstExtraArgs] and the file-system dependent root resolution are an
    arbitrary [oracle]. *)
From Coq Require Import List String Bool Arith ZArith.
Import ListNotations.
Open Scope list_scope.

(** [serde_json::Value]: as in crates/tinymist/src/config.rs:266. *)
Inductive json :=
  | JNull | JBool (b : bool) | JNum (z : Z) | JStr (s : string)
  | JArr (l : list json) | JObj (l : list (string * json)).
(** [serde_json::Map::get]: used at crates/tinymist/src/config.rs:277,330,343. *)
Fixpoint get (k : string) (m : list (string * json)) : option json :=
  match m with
  | [] => None
  | (k', v) :: r => if String.eqb k k' then Some v else get k r
  end.
(** [Value::as_str], [Value::as_object], [Value::is_null]:
    used at crates/tinymist/src/config.rs:331. *)
Definition as_str (j : json) : option string := match j with JStr s => Some s | _ => None end.
(** [Value::as_object], crates/tinymist/src/config.rs:252. *)
Definition as_object (j : json) : option (list (string * json)) := match j with JObj l => Some l | _ => None end.
(** [Value::is_null], crates/tinymist/src/config.rs:231. *)
Definition is_null (j : json) : bool := match j with JNull => true | _ => false end.

(** The fields assigned by [assign_config!], config.rs:308-326. *)
Inductive setting :=
  | ColorTheme | Completion | TriggerSuggest | TriggerParameterHints
  | TriggerSuggestAndParameterHints | CustomizedShowDocument | ProjectResolution
  | ExportPdf | ExportTarget | FontPaths | FormatterMode | FormatterPrintWidth
  | FormatterIndentSize | OutputPath | Preview | Lint | SemanticTokens
  | SupportHtmlInMarkdown | SystemFonts.
(** The JSON key each field is read from, config.rs:308-326. *)
Definition read_key (s : setting) : string :=
  match s with
  | ColorTheme => "colorTheme"
  | Completion => "completion"
  | TriggerSuggest => "triggerSuggest"
  | TriggerParameterHints => "triggerParameterHints"
  | TriggerSuggestAndParameterHints => "triggerSuggestAndParameterHints"
  | CustomizedShowDocument => "customizedShowDocument"
  | ProjectResolution => "projectResolution"
  | ExportPdf => "exportPdf"
  | ExportTarget => "exportTarget"
  | FontPaths => "fontPaths"
  | FormatterMode => "formatterMode"
  | FormatterPrintWidth => "formatterPrintWidth"
  | FormatterIndentSize => "formatterIndentSize"
  | OutputPath => "outputPath"
  | Preview => "preview"
  | Lint => "preview"
  | SemanticTokens => "semanticTokens"
  | SupportHtmlInMarkdown => "supportHtmlInMarkdown"
  | SystemFonts => "systemFonts"
  end.

(** [TypstExtraArgs], config.rs:836-858; [x_font] and [x_export] stand for the
    font arguments and the export related ones. *)
Record extra := mkExtra {
  x_root : option string; x_entry : option string; x_font : nat; x_export : nat
}.

(** What the model does not compute:
    calls made at crates/tinymist/src/config.rs:277,348,374-421,458-462,636. *)
Record oracle := mkOracle {
  o_dec : setting -> json -> option nat;          (* serde deserializers *)
  o_periscope : json -> option nat;               (* [PeriscopeArgs] *)
  o_extra : option json -> extra;                 (* config.rs:374-421 *)
  o_absolute : string -> bool;                    (* [Path::is_absolute] *)
  o_root : option string -> option string -> nat  (* root of the default entry *)
}.

(** config.rs:761-769 [FormatterMode]: 0 disable, 1 typstyle, 2 typstfmt. *)
Definition dec_formatter (j : json) : option nat :=
  match j with
  | JStr s => if String.eqb s "disable" then Some 0 else if String.eqb s "typstyle" then Some 1
              else if String.eqb s "typstfmt" then Some 2 else None
  | _ => None
  end.
(** config.rs:774-780 [SemanticTokensMode]: 0 disable, 1 enable (default). *)
Definition dec_semantic (j : json) : option nat :=
  match j with
  | JStr s => if String.eqb s "disable" then Some 0 else if String.eqb s "enable" then Some 1 else None
  | _ => None
  end.
(** [Option<u32>]: null is [None] (0), a number [n] is [n+1]:
    fields at crates/tinymist/src/config.rs:318-319. *)
Definition dec_u32 (j : json) : option nat :=
  match j with
  | JNull => Some 0
  | JNum z => if (0 <=? z)%Z && (z <? 4294967296)%Z then Some (S (Z.to_nat z)) else None
  | _ => None
  end.
(** [try_deserialize!], crates/tinymist/src/config.rs:274-297. *)
Definition dec (O : oracle) (s : setting) (j : json) : option nat :=
  match s with
  | FormatterMode => dec_formatter j
  | SemanticTokens => dec_semantic j
  | FormatterPrintWidth | FormatterIndentSize => dec_u32 j
  | _ => o_dec O s j
  end.
(** [Default] of the setting types: crates/tinymist/src/config.rs:298-306. *)
Definition default (s : setting) : nat := match s with SemanticTokens => 1 | _ => 0 end.

(** The part of [Config] that an update assigns, config.rs:61-122. *)
Record config := mkConfig {
  c_set : setting -> nat;
  c_notify : bool;
  c_periscope : option nat;
  c_extra : extra;
  c_root : option string;
  c_entry : option string
}.

(** config.rs:274-306 [try_deserialize!], [assign_config!]. *)
Definition assign (O : oracle) (m : list (string * json)) (s : setting) : nat :=
  match get (read_key s) m with
  | Some v => match dec O s v with Some x => x | None => default s end
  | None => default s
  end.
(** config.rs:343-357 (the colour tweak of 358-362 is part of the oracle). *)
Definition periscope (O : oracle) (m : list (string * json)) : option nat :=
  match get "hoverPeriscope" m with
  | Some (JStr s) => if String.eqb s "enable" then Some 0 else None
  | Some JNull | None => None
  | Some v => o_periscope O v
  end.
(** config.rs:328-340. *)
Definition notify_status (m : list (string * json)) : bool :=
  match get "compileStatus" m with
  | Some v => match as_str v with Some s => String.eqb s "enable" | None => false end
  | None => false
  end.

(** config.rs:266-455 [update_by_map]: the new configuration and whether it is
    valid (454, 458-462, tinymist-project/src/entry.rs:180-192). *)
Definition update_by_map (O : oracle) (m : list (string * json)) : config * bool :=
  let x := o_extra O (get "typstExtraArgs" m) in
  let root := match get "rootPath" m with
    | Some v => match as_str v with Some s => Some s | None => x_root x end
    | None => x_root x end in
  (mkConfig (assign O m) (notify_status m) (periscope O m) x root (x_entry x),
   match root with Some r => o_absolute O r | None => true end).

(** config.rs:243-260 [update]; [None] is the error of a non-object. *)
Definition update (O : oracle) (j : json) : option (config * bool) :=
  match j with
  | JObj m =>
      let (c, ok) := update_by_map O m in
      if ok then
        match get "tinymist" m with
        | Some v => match as_object v with
            | Some m' => Some (update_by_map O m')
            | None => Some (c, true)
            end
        | None => Some (c, true)
        end
      else Some (c, false)
  | _ => None
  end.

(** config.rs:33-52 [CONFIG_ITEMS]. *)
Definition config_items : list string :=
  ["tinymist"; "colorTheme"; "compileStatus"; "completion"; "exportPdf"; "exportTarget";
   "fontPaths"; "formatterMode"; "formatterPrintWidth"; "formatterIndentSize"; "hoverPeriscope";
   "outputPath"; "preview"; "projectResolution"; "rootPath"; "semanticTokens"; "systemFonts";
   "typstExtraArgs"]%string.
(** config.rs:214-222 [get_items]. *)
Definition get_items : list string :=
  flat_map (fun i => [("tinymist." ++ i)%string; i]) config_items.
(** config.rs:226-237 [values_to_map]: itertools' [tuples] drops an odd last
    element. *)
Fixpoint pair_up (l : list json) : list json :=
  match l with
  | a :: b :: r => (if is_null a then b else a) :: pair_up r
  | _ => []
  end.
(** crates/tinymist/src/config.rs:226-237. *)
Definition values_to_map (l : list json) : list (string * json) :=
  combine config_items (pair_up l).

(** config.rs:465-485 [formatter]; [None] is [FormatterConfig::Disable]. *)
Definition formatter (c : config) : option (nat * nat * nat) :=
  let width := match c_set c FormatterPrintWidth with O => 120 | S n => n end in
  let indent := match c_set c FormatterIndentSize with O => 2 | S n => n end in
  match c_set c FormatterMode with
  | O => None
  | m => Some (m, width, indent)
  end.
(** Comparison of formatter configurations, crates/tinymist/src/lsp.rs:155-171. *)
Definition formatter_eqb (a b : option (nat * nat * nat)) : bool :=
  match a, b with
  | None, None => true
  | Some (m, w, i), Some (m', w', i') => Nat.eqb m m' && Nat.eqb w w' && Nat.eqb i i'
  | _, _ => false
  end.
(** config.rs:488-517 [export]. *)
Definition export_eqb (a b : config) : bool :=
  Nat.eqb (c_set a ExportTarget) (c_set b ExportTarget) && Nat.eqb (c_set a ExportPdf) (c_set b ExportPdf)
  && Nat.eqb (c_set a OutputPath) (c_set b OutputPath)
  && Nat.eqb (x_export (c_extra a)) (x_export (c_extra b)) && Bool.eqb (c_notify a) (c_notify b).
(** config.rs:623-638 [primary_opts]. *)
Definition primary_eqb (O : oracle) (a b : config) : bool :=
  Nat.eqb (c_set a SystemFonts) (c_set b SystemFonts) && Nat.eqb (c_set a FontPaths) (c_set b FontPaths)
  && Nat.eqb (x_font (c_extra a)) (x_font (c_extra b))
  && Nat.eqb (o_root O (c_root a) (c_entry a)) (o_root O (c_root b) (c_entry b)).

(** Client capabilities fixed at initialization, config.rs:644-713. *)
Record const_config := mkConst { dyn_tokens : bool; dyn_fmt : bool; dyn_cfg : bool }.

(** Effects of the server: crates/tinymist/src/lsp.rs:34-64,249-334. *)
Inductive cap := CapTokens | CapFormat | CapConfig.
(** Effects of crates/tinymist/src/lsp.rs:34-334. *)
Inductive eff :=
  | Register (c : cap) | Unregister (c : cap)
  | ExportChanged | StatusChanged (b : bool) | ReloadProjects | FormatterChanged
  | AskConfiguration.

(** The part of [ServerState] concerned, crates/tinymist/src/server.rs:60-68. *)
Record st := mkSt { s_const : const_config; s_config : config; s_tokens : bool; s_fmt : bool }.

(** lsp.rs:249-292 and 295-334. *)
Definition enable_tokens (enable : bool) (s : st) : st * list eff :=
  if dyn_tokens (s_const s) then
    match enable, s_tokens s with
    | true, false => (mkSt (s_const s) (s_config s) true (s_fmt s), [Register CapTokens])
    | false, true => (mkSt (s_const s) (s_config s) false (s_fmt s), [Unregister CapTokens])
    | _, _ => (s, [])
    end
  else (s, []).
(** crates/tinymist/src/lsp.rs:295-334 [enable_formatter_caps]. *)
Definition enable_fmt (enable : bool) (s : st) : st * list eff :=
  if dyn_fmt (s_const s) then
    match enable, s_fmt s with
    | true, false => (mkSt (s_const s) (s_config s) (s_tokens s) true, [Register CapFormat])
    | false, true => (mkSt (s_const s) (s_config s) (s_tokens s) false, [Unregister CapFormat])
    | _, _ => (s, [])
    end
  else (s, []).

(** crates/tinymist/src/lsp.rs:38. *)
Definition tokens_enabled (c : config) : bool := Nat.eqb (c_set c SemanticTokens) 1.
(** crates/tinymist/src/lsp.rs:47. *)
Definition fmt_enabled (c : config) : bool := negb (Nat.eqb (c_set c FormatterMode) 0).

(** lsp.rs:34-64 [initialized]. *)
Definition initialized (s : st) : st * list eff :=
  let (s1, o1) := if dyn_tokens (s_const s) && tokens_enabled (s_config s) then enable_tokens true s else (s, []) in
  let (s2, o2) := if dyn_fmt (s_const s) && fmt_enabled (s_config s) then enable_fmt true s1 else (s1, []) in
  (s2, o1 ++ o2 ++ (if dyn_cfg (s_const s) then [Register CapConfig] else [])).

(** lsp.rs:123-174 [on_changed_configuration]; the boolean is the error. *)
Definition on_changed_configuration (O : oracle) (m : list (string * json)) (s : st)
  : st * list eff * bool :=
  let old := s_config s in
  let (c, ok) := update_by_map O m in
  if ok then
    let s0 := mkSt (s_const s) c (s_tokens s) (s_fmt s) in
    let o1 := if export_eqb old c then [] else [ExportChanged] in
    let o2 := if Bool.eqb (c_notify old) (c_notify c) then [] else [StatusChanged (c_notify c)] in
    let o3 := if primary_eqb O old c then [] else [ReloadProjects] in
    let (s1, o4) := if Nat.eqb (c_set old SemanticTokens) (c_set c SemanticTokens) then (s0, [])
                    else enable_tokens (tokens_enabled c) s0 in
    let (s2, o5) := if formatter_eqb (formatter old) (formatter c) then (s1, [])
                    else let (s2, o) := enable_fmt (match formatter c with None => false | _ => true end) s1 in
                         (s2, o ++ [FormatterChanged]) in
    (s2, o1 ++ o2 ++ o3 ++ o4 ++ o5, false)
  else (s, [], true).

(** Events of a session.  [DidChange]: workspace/didChangeConfiguration, lsp.rs:176-193;
    [Answer]: the client's answer to workspace/configuration, lsp.rs:195-214. *)
Inductive event := Initialized | DidChange (settings : json) | Answer (values : option (list json)).
(** Dispatch of the events to crates/tinymist/src/lsp.rs:34-64,176-214. *)
Definition step (O : oracle) (s : st) (e : event) : st * list eff :=
  match e with
  | Initialized => initialized s
  | DidChange (JObj m) => let '(s', o, _) := on_changed_configuration O m s in (s', o)
  | DidChange _ => (s, [AskConfiguration])
  | Answer None => (s, [])
  | Answer (Some l) => let '(s', o, _) := on_changed_configuration O (values_to_map l) s in (s', o)
  end.
(** A session: crates/tinymist/src/lsp.rs handlers one after the other (34-214). *)
Fixpoint run (O : oracle) (s : st) (evs : list event) : st * list eff :=
  match evs with
  | [] => (s, [])
  | e :: r => let (s1, o1) := step O s e in let (s2, o2) := run O s1 r in (s2, o1 ++ o2)
  end.

(** config.rs:126-146 [Config::new] followed by 178-180: the configuration from
    the initialize request, and whether it succeeded. *)
Definition initial_config (O : oracle) (options : option json) : config * bool :=
  match options with
  | None => (fst (update_by_map O []), true)
  | Some j => match update O j with
      | Some r => r
      | None => (fst (update_by_map O []), false)
      end
  end.
(** server.rs:131-132 [ServerState::new]. *)
Definition start (O : oracle) (k : const_config) (options : option json) : st :=
  mkSt k (fst (initial_config O options)) false false.

(** ** Position encoding: crates/tinymist/src/config.rs:675-687. *)
Inductive encoding := Utf8 | Utf16 | Utf32.
(** Equality of encodings, crates/tinymist/src/config.rs:682. *)
Definition encoding_eqb (a b : encoding) : bool :=
  match a, b with Utf8, Utf8 | Utf16, Utf16 | Utf32, Utf32 => true | _, _ => false end.
(** config.rs:673-687: the encoding the server uses, from the client's
    [general.positionEncodings]. *)
Definition server_encoding (offered : option (list encoding)) : encoding :=
  let l := match offered with Some l => l | None => [Utf16] end in
  if existsb (encoding_eqb Utf8) l then Utf8 else Utf16.
(** lsp/init.rs:122-126,206: [positionEncoding] of the initialize result is left
    to its default, [None]. *)
Definition announced_encoding (offered : option (list encoding)) : option encoding := None.
