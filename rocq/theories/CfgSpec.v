(** Vocabulary for configuration properties. *)
From Coq Require Import List String Bool.
From Verif Require Import CfgModel.
Import ListNotations.

(** Reading a stream of effects as registrations of one capability: [None] when
    a registration is not followed by exactly one unregistration before the next
    registration. *)
Definition cap_eqb (a b : cap) : bool :=
  match a, b with CapTokens, CapTokens | CapFormat, CapFormat | CapConfig, CapConfig => true | _, _ => false end.
Fixpoint registered (c : cap) (on : bool) (l : list eff) : option bool :=
  match l with
  | [] => Some on
  | Register c' :: r => if cap_eqb c c' then (if on then None else registered c true r) else registered c on r
  | Unregister c' :: r => if cap_eqb c c' then (if on then registered c false r else None) else registered c on r
  | _ :: r => registered c on r
  end.

(** The documented key of every setting (editors/vscode/package.json, the
    configuration reference): the name of the field in camel case. *)
Definition own_key (s : setting) : string :=
  match s with
  | Lint => "lint"
  | ColorTheme => "colorTheme"
  | Completion => "completion"
  | TriggerSuggest => "triggerSuggest"
  | TriggerParameterHints => "triggerParameterHints"
  | TriggerSuggestAndParameterHints => "triggerSuggestAndParameterHints"
  | CustomizedShowDocument => "customizedShowDocument"
  | ProjectResolution => "projectResolution"
  | ExportPdf => "exportPdf"
  | ExportTarget => "exportTarget"
  | FontPaths => "fontPaths"
  | FormatterMode => "formatterMode"
  | FormatterPrintWidth => "formatterPrintWidth"
  | FormatterIndentSize => "formatterIndentSize"
  | OutputPath => "outputPath"
  | Preview => "preview"
  | SemanticTokens => "semanticTokens"
  | SupportHtmlInMarkdown => "supportHtmlInMarkdown"
  | SystemFonts => "systemFonts"
  end.

(** Two configurations with the same settings. *)
Definition same_config (a b : config) : Prop :=
  (forall s, c_set a s = c_set b s) /\ c_notify a = c_notify b /\ c_periscope a = c_periscope b /\
  c_extra a = c_extra b /\ c_root a = c_root b /\ c_entry a = c_entry b.

(** What a client configured with the object [m] answers for a section, when it
    supports plain sections only. *)
Definition answer_plain (m : list (string * json)) : list json :=
  map (fun k => match get k m with Some v => v | None => JNull end) get_items.
