(** Model of the word count: crates/tinymist/src/tool/word_count.rs and the text export it counts,
    crates/tinymist-task/src/compute/text.rs. *)
From Coq Require Import List Arith NArith Bool.
Import ListNotations.

(** A string as characters, word_count.rs:60. *)
Definition str := list N.
(** typst's frames and their items, as text.rs:34-57 looks at them: groups, texts and all others, with
    the [content_hint] (0 if there is none). *)
Inductive frame := Frame (items : list fitem) (hint : N)
(** text.rs:50-57: the items. *)
with fitem := Group (f : frame) | Text (t : str) | Other.
(** typst's HTML nodes, text.rs:59-74. *)
Inductive hnode := HTag | HElem (cs : list hnode) | HText (t : str) | HFrame (f : frame).
(** [TypstDocument], text.rs:77-91: the frames of the pages, or the children of the root. *)
Inductive doc := Paged (pages : list frame) | Html (cs : list hnode).
(** text.rs:34-48 [export_frame], as what it writes. *)
Fixpoint export_frame (f : frame) : str :=
  match f with
  | Frame items hint =>
      (fix go l := match l with [] => [] | i :: r => export_item i ++ go r end) items ++ (if (hint =? 0)%N then [] else [hint])
  end
(** text.rs:50-57 [export_item]. *)
with export_item (i : fitem) : str := match i with Group f => export_frame f | Text t => t | Other => [] end.
(** text.rs:66-74 [export_html_node], and text.rs:59-64 [export_element] for its elements. *)
Fixpoint export_html (n : hnode) : str :=
  match n with HTag => [] | HElem cs => flat_map export_html cs | HText t => t | HFrame f => export_frame f end.
(** text.rs:77-92: the text of a document. *)
Definition export_doc (d : doc) : str := match d with Paged ps => flat_map export_frame ps | Html cs => flat_map export_html cs end.
(** word_count.rs:41-50 [CountState]. *)
Inductive cstate := InSpace | InNonCJK | InCJK.
(** Equality of states, word_count.rs:64,78. *)
Definition cs_eqb (a b : cstate) : bool := match a, b with InSpace, InSpace | InNonCJK, InNonCJK | InCJK, InCJK => true | _, _ => false end.
(** word_count.rs:16-26 [WordsCount]. *)
Record counts := mkCounts { words : nat; chars : nat; spaces : nat; cjk_chars : nat }.
(** word_count.rs:60-84, the body of the loop; [ws] is [char::is_whitespace], [cjk] is [is_cjk]
    (word_count.rs:52-57). *)
Definition cstep (ws cjk : N -> bool) (s : cstate * counts) (c : N) : cstate * counts :=
  let '(st, n) := s in
  let n := mkCounts (words n) (chars n + 1) (spaces n) (cjk_chars n) in
  if ws c then (InSpace, if negb (cs_eqb st InSpace) then mkCounts (words n) (chars n) (spaces n + 1) (cjk_chars n) else n)
  else if cjk c then (InCJK, mkCounts (words n + 1) (chars n) (spaces n) (cjk_chars n + 1))
  else (InNonCJK, if negb (cs_eqb st InNonCJK) then mkCounts (words n + 1) (chars n) (spaces n) (cjk_chars n) else n).
(** word_count.rs:59-91: the count of a text. *)
Definition count_text (ws cjk : N -> bool) (t : str) : counts := snd (fold_left (cstep ws cjk) t (InSpace, mkCounts 0 0 0 0)).
(** word_count.rs:29-92 [word_count]. *)
Definition word_count (ws cjk : N -> bool) (d : doc) : counts := count_text ws cjk (export_doc d).
