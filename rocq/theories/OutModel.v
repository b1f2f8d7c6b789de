(** Model of the outline of the preview: crates/typst-preview/src/outline.rs. *)
From Coq Require Import List Arith NArith Bool.
From Verif Require Import DigModel SpanModel.
Import ListNotations.
Open Scope nat_scope.

(** What [HeadingNode::leaf] takes from a heading, outline.rs:100-122: title and position are
    numbers; [None] is a detached span. *)
Record head := mkHead { h_level : nat; h_bm : bool; h_title : nat; h_pos : nat; h_span : option span; h_body : span }.
(** outline.rs:15-22 [HeadingNode]. *)
Inductive node := Node (h : head) (cs : list node).
(** The condition of the loop at outline.rs:71-73, on the level of the last node. *)
Definition deeper (sk : option nat) (leaf : head) (level : nat) : bool :=
  (match sk with None => true | Some l => level <? l end) && (level <? h_level leaf).
(** The loop of outline.rs:71-75 and the push of outline.rs:83, on a list of children; [f] puts the
    leaf below a node. *)
Definition push_last (f : node -> node) (sk : option nat) (leaf : head) : list node -> list node :=
  fix go cs :=
    match cs with
    | [] => [Node leaf []]
    | c :: r =>
        match r with
        | [] => match c with Node h _ => if deeper sk leaf (h_level h) then [f c] else [c; Node leaf []] end
        | _ => c :: go r
        end
    end.
(** See [push_last]; outline.rs:74. *)
Fixpoint push_node (sk : option nat) (leaf : head) (n : node) : node :=
  match n with Node h cs => Node h (push_last (push_node sk leaf) sk leaf cs) end.
(** See [push_last], on the tree; outline.rs:39,71-83. *)
Definition push (sk : option nat) (leaf : head) (ts : list node) : list node := push_last (push_node sk leaf) sk leaf ts.
(** The body of the loop, outline.rs:34-94, with [last_skipped_level]. *)
Definition ostep (s : list node * option nat) (h : head) : list node * option nat :=
  let '(ts, sk) := s in
  if h_bm h then (push sk h ts, None)
  else if match sk with None => true | Some l => h_level h <? l end then (ts, Some (h_level h)) else (ts, sk).
(** outline.rs:25-97 [get_outline]; [None] and the empty list are the same to its only caller
    (outline.rs:143-148). *)
Definition get_outline (hs : list head) : list node := fst (fold_left ostep hs ([], None)).
(** outline.rs:131-140 [OutlineItem]. *)
Inductive item := Item (title : nat) (span_ : list chr) (pos : nat) (cs : list item).
(** The loops of outline.rs:146-148,158-160. *)
Definition items_with (f : interner -> node -> interner * item) : interner -> list node -> interner * list item :=
  fix go s ns := match ns with [] => (s, []) | n :: r => let '(s1, i) := f s n in let '(s2, is) := go s1 r in (s2, i :: is) end.
(** outline.rs:153-178 [outline_item]. *)
Fixpoint outline_item (s : interner) (n : node) : interner * item :=
  match n with
  | Node h cs =>
      let '(s1, is) := items_with outline_item s cs in
      let '(s2, id) := intern s1 (match h_span h with Some sp => sp | None => h_body h end) in
      (s2, Item (h_title h) (to_hex id) (h_pos h) is)
  end.
(** outline.rs:142-151 [outline]. *)
Definition outline (s : interner) (hs : list head) : interner * list item := items_with outline_item s (get_outline hs).
(** crates/typst-preview/src/actor/render.rs:365-372 [OutlineRenderActor::outline]. *)
Definition render_outline (s : interner) (hs : list head) : interner * list item := outline (reset s) hs.
