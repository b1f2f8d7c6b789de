(** Model of the ranges to select: crates/tinymist-query/src/selection_range.rs, with [LinkedNode::leaf_at] of typst-syntax as used there. *)
From Coq Require Import List Arith Bool.
Import ListNotations.

(** A node of the syntax tree as selection_range.rs:37-38 sees it: a leaf with its length in bytes, or a node with children (which may be none, as the root of an empty document). *)
Inductive node := Leaf (len : nat) | Inner (cs : list node).
(** [LinkedNode::len] as [LinkedNode::range] uses it at selection_range.rs:51: the length of a node is that of its children. *)
Fixpoint len (n : node) : nat :=
  match n with Leaf l => l | Inner cs => (fix sum cs := match cs with [] => 0 | c :: r => len c + sum r end) cs end.
(** [LinkedNode::leaf_at(cursor, Side::Before)] as called at crates/typst-shim/src/stable/syntax.rs:12-16 and selection_range.rs:38, together with the ranges that [range_for_node] (selection_range.rs:46-59) makes of the leaf and of its parents, innermost first.  A node without children is the leaf if the cursor is not after its end; else the first child whose end is not before the cursor and whose start is before it is searched, or the last child if it starts at the cursor. *)
Fixpoint ranges_before (o : nat) (n : node) (cursor : nat) : option (list (nat * nat)) :=
  match n with
  | Leaf l => if cursor <=? o + l then Some [(o, o + l)] else None
  | Inner [] => if cursor <=? o then Some [(o, o)] else None
  | Inner cs =>
      match (fix go o cs := match cs with
             | [] => None
             | c :: r =>
                 if ((o <? cursor) && (cursor <=? o + len c)) || ((o =? cursor) && match r with [] => true | _ => false end)
                 then ranges_before o c cursor else go (o + len c) r
             end) o cs with
      | None => None
      | Some l => Some (l ++ [(o, o + len n)])
      end
  end.
(** selection_range.rs:27-44 [SelectionRangeRequest::request]: a position is the offset that [to_typst_position] gives, if any (the conversion is in [TextModel], as that of the ranges to positions); [?] at the first position without an offset or a leaf. *)
Fixpoint selection_ranges (root : node) (positions : list (option nat)) : option (list (list (nat * nat))) :=
  match positions with
  | [] => Some []
  | None :: _ => None
  | Some x :: r =>
      match ranges_before 0 root (x + 1) with
      | None => None
      | Some l => match selection_ranges root r with None => None | Some ls => Some (l :: ls) end
      end
  end.
