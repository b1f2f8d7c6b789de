(** Model of completions of fonts, packages, tags of raw text, labels and values: crates/tinymist-query/src/analysis/completion/typst_specific.rs ("ts.rs" below), with the window and slices of crates/tinymist-query/src/analysis/completion.rs. *)
From Coq Require Import String Ascii List Arith Bool.
Import ListNotations.

(** A text, by the codes of its characters (&str, ts.rs:9-291). *)
Definition text := list nat.
(** String literals of ts.rs:10,13,223. *)
Definition lit (s : string) : text := List.map nat_of_ascii (list_ascii_of_string s).
(** Equality of texts, for ts.rs:63,120. *)
Fixpoint text_eqb (a b : text) : bool := match a, b with [], [] => true | x :: a, y :: b => (x =? y) && text_eqb a b | _, _ => false end.
(** [starts_with], ts.rs:102,226,232. *)
Fixpoint starts (p l : text) : bool := match p, l with [], _ => true | x :: p, y :: l => (x =? y) && starts p l | _, _ => false end.
(** [contains], ts.rs:10,13. *)
Fixpoint contains (p l : text) : bool := starts p l || match l with [] => false | _ :: r => contains p r end.
(** [ends_with] of a character, ts.rs:100-101,226,232. *)
Definition ends (c : nat) (l : text) : bool := match rev l with x :: _ => x =? c | [] => false end.
Section Width.
(** The number of bytes of a character, for completion.rs:217-222. *)
Variable width : nat -> nat.
(** The number of bytes of a text, for completion.rs:217-222. *)
Definition bytes (l : text) : nat := list_sum (List.map width l).
(** completion.rs:217-222 [before_window], with completion.rs:895-908 [slice_at]: the characters that begin at most so many bytes before the cursor. *)
Fixpoint window (size : nat) (before : text) : text :=
  match before with [] => [] | _ :: r => if bytes before <=? size then before else window size r end.
(** ts.rs:9-22 [font_completions]: the families offered. *)
Definition font_completions (before : text) (families : list text) : list text :=
  let equation := contains (lit "equation") (window 25 before) in
  filter (fun f => negb equation || contains (lit "Math") f) families.
End Width.

(** A package: its namespace and name, by their places in the order of texts, and its version (ts.rs:45). *)
Record spec := mkSpec { p_ns : nat; p_name : nat; p_version : nat }.
(** Equality of packages; values completed before are not completed again, ts.rs:187-189. *)
Definition spec_eqb (a b : spec) : bool := (p_ns a =? p_ns b) && (p_name a =? p_name b) && (p_version a =? p_version b).
(** The order of ts.rs:45, the newest version first. *)
Definition spec_leb (a b : spec) : bool :=
  (p_ns a <? p_ns b) || ((p_ns a =? p_ns b) && ((p_name a <? p_name b) || ((p_name a =? p_name b) && (p_version b <=? p_version a)))).
(** ts.rs:45 [sort_by_key], stable. *)
Fixpoint insert (p : spec * nat) (l : list (spec * nat)) : list (spec * nat) :=
  match l with [] => [p] | x :: r => if spec_leb (fst p) (fst x) then p :: l else x :: insert p r end.
(** ts.rs:45 [sort_by_key]. *)
Definition sort (l : list (spec * nat)) : list (spec * nat) := fold_right insert [] l.
(** ts.rs:47 [dedup_by_key]: after the one given, those that differ from the last one kept. *)
Fixpoint dedup (k : spec) (l : list (spec * nat)) : list (spec * nat) :=
  match l with [] => [] | x :: r => if (p_ns (fst x) =? p_ns k) && (p_name (fst x) =? p_name k) then dedup k r else x :: dedup (fst x) r end.
(** ts.rs:46-48. *)
Definition newest (all_versions : bool) (l : list (spec * nat)) : list (spec * nat) :=
  if all_versions then l else match l with [] => [] | x :: r => x :: dedup (fst x) r end.
(** ts.rs:49-56 with ts.rs:187-189: each value once. *)
Fixpoint once (seen : list spec) (l : list (spec * nat)) : list (spec * nat) :=
  match l with [] => [] | x :: r => if existsb (spec_eqb (fst x)) seen then once seen r else x :: once (fst x :: seen) r end.
(** ts.rs:30-57 [package_completions]: packages of the registry and local ones, with the numbers of their descriptions. *)
Definition package_completions (all_versions : bool) (registry local : list (spec * nat)) : list (spec * nat) :=
  once [] (newest all_versions (sort (registry ++ local))).

Section Tags.
(** [is_ident] of typst, ts.rs:67, and [to_lowercase], ts.rs:62. *)
Variables (is_ident : text -> bool) (lower : text -> text).
(** ts.rs:62-67: the tags of one language. *)
Definition tags_of (name : text) (tags : list text) : list text :=
  filter is_ident (if existsb (text_eqb (lower name)) tags then tags else tags ++ [lower name]).
(** ts.rs:60-80 [raw_completions]: names, what is put in, and all tags. *)
Definition raw_completions (languages : list (text * list text)) : list (text * text * list text) :=
  flat_map (fun l => match tags_of (fst l) (snd l) with [] => [] | t :: r => [(fst l, t, t :: r)] end) languages.
End Tags.

(** A completion of a label: what is shown, and what is put in (ts.rs:124-152). *)
Inductive shown := Title (t : text) | Name (t : text).
(** ts.rs:113-153: the labels, each once. *)
Fixpoint label_items (open close : bool) (seen : list text) (labels : list (text * option text)) : list (shown * text) :=
  match labels with
  | [] => []
  | (label, title) :: r =>
      if existsb (text_eqb label) seen then label_items open close seen r
      else
        let apply := (if open then [60] else []) ++ label ++ (if close then [62] else []) in
        (match title with Some t => [(Title t, apply)] | None => [] end) ++ (Name label, apply) :: label_items open close (label :: seen) r
  end.
(** ts.rs:92-154 [label_completions_]; labels are those of nodes, and then those of bibliographies from split on; before is the text before what is replaced, after the text after the cursor. *)
Definition label_completions (only_citation ref_label : bool) (before after : text) (labels : list (text * option text)) (split : nat) : list (shown * text) :=
  let at_ := ends 64 before in
  let open := negb at_ && negb (ends 60 before) in
  let close := negb at_ && negb (starts [62] after) in
  let citation := negb at_ && only_citation in
  label_items open close [] (if at_ || ref_label then labels else if citation then skipn split labels else firstn split labels).

(** ts.rs:191-192,222-241, for values that are not functions with parentheses: what is put in.  A label of its own comes with whether it is an identifier; before is the text before what is replaced, after the text after the cursor. *)
Definition value_apply (label : option (text * bool)) (repr before after : text) : text :=
  match label with
  | Some (field, false) => lit "at(""" ++ field ++ lit """)"
  | _ =>
      let l := match label with Some (field, _) => field | None => repr end in
      let l1 := if ends 34 l && starts [34] after then removelast l else l in
      if starts [34] l1 && ends 34 before then tl l1 else l1
  end.
