(** Diagnostics of the compiler as diagnostics of the editor:
    crates/tinymist-query/src/diagnostics.rs and crates/tinymist-query/src/check.rs. *)
From Coq Require Import String.
From Coq Require Import List NArith Bool.
From Verif Require Import LocModel.
Import ListNotations.

(** [TypstSeverity], crates/tinymist-query/src/diagnostics.rs:15,180-185. *)
Inductive severity := Error | Warning.
(** A span: its file, none if it is detached, and its number in the file.
    crates/tinymist-query/src/diagnostics.rs:159-164. *)
Definition span := (option nat * nat)%type.
(** [Span::detached], crates/tinymist-query/src/diagnostics.rs:163. *)
Definition detached : span := (None, 0).
(** [TypstDiagnostic]; a trace point is its span and its text.
    crates/tinymist-query/src/diagnostics.rs:14,117-131,138-156. *)
Record diagnostic := { d_sev : severity; d_span : span; d_msg : text; d_trace : list (span * text); d_hints : list text }.
(** A range of bytes, crates/tinymist-query/src/diagnostics.rs:147. *)
Definition range := (nat * nat)%type.
(** A range of lines and characters, crates/tinymist-query/src/diagnostics.rs:166-176. *)
Definition lsp_range := ((nat * nat) * (nat * nat))%type.
(** What the world says: the main file, whether a file belongs to a package, its
    uri (a number), whether it can be read, where a span is, and the lines of a
    range; the files of the document and their lints.
    crates/tinymist-query/src/diagnostics.rs:51-60,112-115,142-148,163,173-174. *)
Record world := {
  main : nat; is_package : nat -> bool; uri : nat -> option nat; readable : nat -> bool;
  find_span : nat -> span -> option range; lines : nat -> range -> lsp_range;
  depended : list nat; lint : nat -> list diagnostic }.
(** [DiagnosticRelatedInformation], crates/tinymist-query/src/diagnostics.rs:150-156. *)
Definition related := (nat * lsp_range * text)%type.
(** [Diagnostic] of the protocol; the source is always typst.
    crates/tinymist-query/src/diagnostics.rs:120-133. *)
Record shown := { s_range : lsp_range; s_sev : severity; s_msg : text; s_related : option (list related) }.

(** [starts_with], for [contains] at crates/tinymist-query/src/diagnostics.rs:232-236. *)
Fixpoint starts (p s : text) : bool :=
  match p, s with
  | [], _ => true
  | a :: p', b :: s' => N.eqb a b && starts p' s'
  | _ :: _, [] => false
  end.
(** [str::contains]; the patterns of the set have no special characters, so a match is the same.
    crates/tinymist-query/src/diagnostics.rs:203-216,232-236. *)
Fixpoint contains (s p : text) : bool :=
  starts p s || match s with [] => false | _ :: s' => contains s' p end.
(** [DEPRECATION_PATTERNS], crates/tinymist-query/src/diagnostics.rs:203-211. *)
Definition deprecation_patterns : list text :=
  [lit "unknown variable: style"; lit "unexpected argument: fill"; lit "type state has no method `display`"; lit "only element functions can be used as selectors"].
(** crates/tinymist-query/src/diagnostics.rs:219-224 *)
Definition deprecation_hint : text :=
  lit "Typst 0.13 has introduced breaking changes. Try downgrading Tinymist to v0.12 to use a compatible version of Typst, or consider migrating your code according to [this guide](https://typst.app/blog/2025/typst-0.13/#migrating).".
(** [SourceDiagnostic::with_hint], crates/tinymist-query/src/diagnostics.rs:219,241. *)
Definition with_hint (h : text) (d : diagnostic) : diagnostic :=
  {| d_sev := d_sev d; d_span := d_span d; d_msg := d_msg d; d_trace := d_trace d; d_hints := d_hints d ++ [h] |}.
(** [raw.hints.clear], crates/tinymist-query/src/diagnostics.rs:240. *)
Definition clear_hints (d : diagnostic) : diagnostic :=
  {| d_sev := d_sev d; d_span := d_span d; d_msg := d_msg d; d_trace := d_trace d; d_hints := [] |}.
(** [DeprecationRefiner], crates/tinymist-query/src/diagnostics.rs:213-226. *)
Definition deprecation_matches (d : diagnostic) : bool := existsb (contains (d_msg d)) deprecation_patterns.
(** crates/tinymist-query/src/diagnostics.rs:218-225 *)
Definition deprecation_refine (d : diagnostic) : diagnostic := with_hint deprecation_hint d.
(** [OutOfRootHintRefiner], crates/tinymist-query/src/diagnostics.rs:231-237. *)
Definition out_of_root_matches (d : diagnostic) : bool :=
  contains (d_msg d) (lit "failed to load file (access denied)")
  && existsb (fun h => contains h (lit "cannot read file outside of project root")) (d_hints d).
(** crates/tinymist-query/src/diagnostics.rs:239-242 *)
Definition out_of_root_refine (d : diagnostic) : diagnostic :=
  with_hint (lit "Cannot read file outside of project root.") (clear_hints d).
(** The loop over the refiners, crates/tinymist-query/src/diagnostics.rs:96-110. *)
Definition refine (d : diagnostic) : diagnostic :=
  fold_left (fun (d : diagnostic) (r : (diagnostic -> bool) * (diagnostic -> diagnostic)) => if fst r d then snd r d else d)
    [(deprecation_matches, deprecation_refine); (out_of_root_matches, out_of_root_refine)] d.
(** The first span with a file, of the search at crates/tinymist-query/src/diagnostics.rs:160-162. *)
Fixpoint first_id (l : list span) : option (nat * span) :=
  match l with
  | [] => None
  | s :: l' => match fst s with Some i => Some (i, s) | None => first_id l' end
  end.
(** [diagnostic_span_id], crates/tinymist-query/src/diagnostics.rs:159-164. *)
Definition diagnostic_span_id (w : world) (d : diagnostic) : nat * span :=
  match first_id (d_span d :: map fst (d_trace d)) with Some x => x | None => (main w, detached) end.
(** [diagnostic_range], crates/tinymist-query/src/diagnostics.rs:166-177. *)
Definition diagnostic_range (w : world) (i : nat) (s : span) : lsp_range :=
  match find_span w i s with Some r => lines w i r | None => ((0, 0), (0, 0)) end.
(** [diagnostic_message], crates/tinymist-query/src/diagnostics.rs:187-194. *)
Definition diagnostic_message (d : diagnostic) : text :=
  fold_left (fun (m : text) (h : text) => m ++ (10%N :: lit "Hint: ") ++ h) (d_hints d) (d_msg d).
(** [to_related_info], crates/tinymist-query/src/diagnostics.rs:138-157. *)
Definition to_related_info (w : world) (t : span * text) : option related :=
  match fst (fst t) with
  | None => None
  | Some i =>
      match uri w i with
      | None => None
      | Some u =>
          if readable w i then
            match find_span w i (fst t) with
            | None => None
            | Some r => Some (u, lines w i r, snd t)
            end
          else None
      end
  end.
(** The related information, crates/tinymist-query/src/diagnostics.rs:125-131. *)
Definition related_information (w : world) (d : diagnostic) : option (list related) :=
  match d_trace d with
  | [] => None
  | ts => Some (flat_map (fun t => match to_related_info w t with Some r => [r] | None => [] end) ts)
  end.
(** [convert_diagnostic], crates/tinymist-query/src/diagnostics.rs:92-136. *)
Definition convert_diagnostic (w : world) (d : diagnostic) : option (nat * shown) :=
  let d := refine d in
  let '(i, s) := diagnostic_span_id w d in
  match uri w i with
  | None => None
  | Some u =>
      if readable w i then
        Some (u, {| s_range := diagnostic_range w i s; s_sev := d_sev d; s_msg := diagnostic_message d; s_related := related_information w d |})
      else None
  end.

(** [DiagnosticsMap], crates/tinymist-query/src/diagnostics.rs:12. *)
Definition dmap := list (nat * list shown).
(** [entry.or_default.push], crates/tinymist-query/src/diagnostics.rs:84. *)
Fixpoint push (u : nat) (x : shown) (m : dmap) : dmap :=
  match m with
  | [] => [(u, [x])]
  | (v, l) :: m' => if Nat.eqb v u then (v, l ++ [x]) :: m' else (v, l) :: push u x m'
  end.
(** [handle], crates/tinymist-query/src/diagnostics.rs:81-90. *)
Definition handle (w : world) (m : dmap) (d : diagnostic) : dmap :=
  match convert_diagnostic w d with Some (u, x) => push u x m | None => m end.
(** [check], crates/tinymist-query/src/diagnostics.rs:50-66. *)
Definition check (w : world) (m : dmap) : dmap :=
  fold_left (fun (m : dmap) (i : nat) =>
    if is_package w i then m else if readable w i then fold_left (handle w) (lint w i) m else m) (depended w) m.
(** [convert_all], crates/tinymist-query/src/diagnostics.rs:69-78. *)
Definition convert_all (w : world) (ds : list diagnostic) (m : dmap) : dmap := fold_left (handle w) ds m.
(** [convert_diagnostics], crates/tinymist-query/src/diagnostics.rs:19-30. *)
Definition convert_diagnostics (w : world) (ds : list diagnostic) : dmap := convert_all w ds [].
(** [CheckRequest], crates/tinymist-query/src/check.rs:15-18. *)
Definition check_request (w : world) (ds : list diagnostic) : dmap := convert_all w ds (check w []).
