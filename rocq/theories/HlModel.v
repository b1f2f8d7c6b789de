(** The highlights of a loop: crates/tinymist-query/src/analysis/doc_highlight.rs
    and crates/tinymist-query/src/document_highlight.rs.

    A node is its kind, the range of its text and its children.  The kinds are
    those the code tells apart. *)
From Coq Require Import List Arith Bool.
Import ListNotations.

(** The kinds of nodes of crates/tinymist-query/src/analysis/doc_highlight.rs:33-43,56-59,120-127:
    the keywords of loops, of breaks and of continues, other keywords; the
    nodes of breaks and continues, of loops, closures and [context]; those of
    functions that have nothing to highlight; all others. *)
Inductive kind :=
| KFor | KWhile | KBreak | KContinue | KKeyword
| KLoopBreak | KLoopContinue | KForLoop | KWhileLoop | KClosure | KContextual
| KFunc | KOther.

(** A node with the range of its text, [LinkedNode], as used at
    crates/tinymist-query/src/analysis/doc_highlight.rs:84-96. *)
Inductive node := Node (k : kind) (start stop : nat) (cs : list node).

(** Its kind, its range, its children; crates/tinymist-query/src/analysis/doc_highlight.rs:32,85,114. *)
Definition nkind (n : node) : kind := match n with Node k _ _ _ => k end.
(** crates/tinymist-query/src/analysis/doc_highlight.rs:85 *)
Definition nrange (n : node) : nat * nat := match n with Node _ a b _ => (a, b) end.
(** crates/tinymist-query/src/analysis/doc_highlight.rs:109-117 *)
Definition children (n : node) : list node := match n with Node _ _ _ cs => cs end.

(** [is_keyword], as used at crates/tinymist-query/src/analysis/doc_highlight.rs:67. *)
Definition is_keyword (k : kind) : bool :=
  match k with KFor | KWhile | KBreak | KContinue | KKeyword => true | _ => false end.

(** Where breaks stop, crates/tinymist-query/src/analysis/doc_highlight.rs:121-124. *)
Definition boundary (k : kind) : bool :=
  match k with KForLoop | KWhileLoop | KClosure | KContextual => true | _ => false end.

(** A loop, crates/tinymist-query/src/analysis/doc_highlight.rs:59. *)
Definition is_loop (k : kind) : bool := match k with KForLoop | KWhileLoop => true | _ => false end.

(** A break or a continue, crates/tinymist-query/src/analysis/doc_highlight.rs:127. *)
Definition is_jump (k : kind) : bool := match k with KLoopBreak | KLoopContinue => true | _ => false end.

(** The nearest loop of a node; the list is the node and its ancestors,
    crates/tinymist-query/src/analysis/doc_highlight.rs:54-64. *)
Fixpoint find_loop (anc : list node) : option node :=
  match anc with
  | [] => None
  | n :: anc' =>
      match nkind n with
      | KContextual | KClosure => None
      | KForLoop | KWhileLoop => Some n
      | _ => find_loop anc'
      end
  end.

(** The number of nodes of a tree, for the fuel of [check]; the loop of
    crates/tinymist-query/src/analysis/doc_highlight.rs:110-115 has none. *)
Fixpoint size (n : node) : nat :=
  match n with Node _ _ _ cs => S (fold_right (fun c s => size c + s) 0 cs) end.
(** The same of the worklist of
    crates/tinymist-query/src/analysis/doc_highlight.rs:110-115. *)
Definition sizes (l : list node) : nat := fold_right (fun c s => size c + s) 0 l.

(** The loop over the worklist, the head of the list being its end,
    crates/tinymist-query/src/analysis/doc_highlight.rs:99-135; the nodes
    annotated, in order. *)
Fixpoint check (fuel : nat) (wl : list node) : list node :=
  match fuel, wl with
  | S fuel', n :: wl' =>
      if boundary (nkind n) then check fuel' wl'
      else if is_jump (nkind n) then n :: check fuel' wl'
      else check fuel' (rev (children n) ++ wl')
  | _, _ => []
  end.

(** [work_loop], crates/tinymist-query/src/analysis/doc_highlight.rs:50-77. *)
Definition work_loop (anc : list node) : option (list node) :=
  match find_loop anc with
  | None => None
  | Some l =>
      let kw := match find (fun c => is_keyword (nkind c)) (children l) with Some c => [c] | None => [] end in
      let wl := rev (children l) in
      Some (kw ++ check (sizes wl) wl)
  end.

(** [work], crates/tinymist-query/src/analysis/doc_highlight.rs:30-48: the
    list is the leaf at the cursor and its ancestors. *)
Fixpoint work (anc : list node) : option (list node) :=
  match anc with
  | [] => None
  | n :: anc' =>
      match nkind n with
      | KFor | KWhile | KBreak | KContinue | KLoopBreak | KLoopContinue => work_loop anc
      | KFunc | KContextual => None
      | _ => work anc'
      end
  end.

(** The range annotated for a node, with a hash before it; [hash] tells
    whether a byte of the text is one.
    crates/tinymist-query/src/analysis/doc_highlight.rs:85-90. *)
Definition annotate (hash : nat -> bool) (n : node) : nat * nat :=
  let '(a, b) := nrange n in
  if (0 <? a) && hash (a - 1) then (a - 1, b) else (a, b).

(** The request, crates/tinymist-query/src/document_highlight.rs:19-29. *)
Definition highlight (hash : nat -> bool) (anc : list node) : option (list (nat * nat)) :=
  match work anc with
  | None | Some [] => None
  | Some l => Some (map (annotate hash) l)
  end.
