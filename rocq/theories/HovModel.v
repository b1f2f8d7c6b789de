(** Model of what hovering shows: crates/tinymist-query/src/hover.rs, on the trees of [SelModel]. *)
From Coq Require Import List Arith Bool.
From Verif Require Import SelModel.
Import ListNotations.

Section Hov.
(** [jump_from_cursor(..).next()], hover.rs:264-268: the place in the preview for an offset, if there is one. *)
Variable jump : nat -> option nat.

(** hover.rs:271-286: the distances from [idx] on, [left_] of them. *)
Fixpoint around (left_ idx cursor len_ : nat) : option nat :=
  match left_ with
  | O => None
  | S l =>
      match (if cursor + idx <? len_ then jump (cursor + idx) else None) with
      | Some p => Some p
      | None =>
          match (if idx <=? cursor then jump (cursor - idx) else None) with
          | Some p => Some p
          | None => around l (idx + 1) cursor len_
          end
      end
  end.
(** hover.rs:269-289: the offset itself, then [1..100] around it. *)
Definition place (cursor len_ : nat) : option nat := match jump cursor with Some p => Some p | None => around 99 1 cursor len_ end.
End Hov.

(** hover.rs:79-89: what the worker collects: texts by their numbers, and the links to commands. *)
Record parts := mkParts { w_def : list nat; w_value : list nat; w_preview : list nat; w_docs : list nat; w_actions : list nat }.
(** What is joined: a text, or all links in one line (hover.rs:61-64). *)
Inductive content := Text (t : nat) | Links (ls : list nat).
(** hover.rs:55-68: the contents in order. *)
Definition contents (w : parts) : list content :=
  map Text (w_def w) ++ map Text (w_value w) ++ map Text (w_preview w) ++ map Text (w_docs w) ++ match w_actions w with [] => [] | ls => [Links ls] end.
(** What the three analyses of hover.rs:92-116 find: the definition if there is one (hover.rs:119-193), or a star, or links; all with a text of their own. *)
Record found := mkFound { f_definition : option (list nat * list nat * list nat); f_star : option nat; f_links : option (list nat * list nat); f_tooltip : option nat; f_preview : nat -> option nat }.
(** hover.rs:91-116 [work]: the definition, or the star, or the links (hover.rs:103-105); then the preview at the place (hover.rs:293-295); then the tooltip. *)
Definition work (jump : nat -> option nat) (cursor len_ : nat) (f : found) : parts :=
  let '(def, docs, actions) :=
    match f_definition f with
    | Some x => x
    | None => match f_star f with
      | Some t => ([t], [], [])
      | None => match f_links f with Some (def, actions) => (def, [], actions) | None => ([], [], []) end
      end
    end in
  let preview := match place jump cursor len_ with Some p => match f_preview f p with Some t => [t] | None => [] end | None => [] end in
  mkParts def match f_tooltip f with Some t => [t] | None => [] end preview docs actions.
(** hover.rs:31-76 [HoverRequest::request], from the offset of the position: the contents and the range. *)
Definition hover (jump : nat -> option nat) (root : node) (offset : nat) (at_ : nat -> found) : option (list content * (nat * nat)) :=
  match ranges_before 0 root (offset + 1) with
  | None => None
  | Some rs =>
      match contents (work jump (offset + 1) (len root) (at_ (offset + 1))), rs with
      | [], _ | _, [] => None
      | cs, r :: _ => Some (cs, r)
      end
  end.
