(** Which nodes belong to a loop. *)
From Coq Require Import List Arith Bool.
From Verif Require Import HlModel.
Import ListNotations.

(** Words of the language; loops; breaks and continues; the nodes that end
    the reach of a break. *)
Definition word (k : kind) : bool :=
  match k with KFor | KWhile | KBreak | KContinue | KKeyword => true | _ => false end.
Definition loop (k : kind) : bool := match k with KForLoop | KWhileLoop => true | _ => false end.
Definition leaving (k : kind) : bool := match k with KLoopBreak | KLoopContinue => true | _ => false end.
Definition stops (k : kind) : bool :=
  match k with KForLoop | KWhileLoop | KClosure | KContextual => true | _ => false end.

(** The node is below the other one, and no loop, closure or [context] is
    between them. *)
Inductive inside : node -> node -> Prop :=
| inside_child : forall t c, In c (children t) -> inside t c
| inside_deep : forall t c n, In c (children t) -> stops (nkind c) = false -> inside c n -> inside t n.

(** A break or a continue of the loop. *)
Definition jump_of (l n : node) : Prop := inside l n /\ leaving (nkind n) = true.

(** A list of nodes that is a node and its ancestors. *)
Fixpoint chain (anc : list node) : Prop :=
  match anc with
  | n :: ((p :: _) as rest) => In n (children p) /\ chain rest
  | _ => True
  end.

(** The keyword a loop starts with. *)
Definition keyword_of (l kw : node) : Prop :=
  loop (nkind l) = true /\
  exists a b, children l = a ++ kw :: b /\ word (nkind kw) = true /\
    forall c, In c a -> word (nkind c) = false.

(** Nodes as the parser makes them: a loop has a keyword, and what is below a
    break or a continue is neither a break nor a continue. *)
Inductive below : node -> node -> Prop :=
| below_self : forall t, below t t
| below_child : forall t c n, In c (children t) -> below c n -> below t n.
Definition parsed (root : node) : Prop :=
  forall t, below root t ->
    (loop (nkind t) = true -> exists kw, keyword_of t kw) /\
    (leaving (nkind t) = true -> forall c, In c (children t) ->
       children c = [] /\ (nkind c = KBreak \/ nkind c = KContinue \/ nkind c = KKeyword)).

(** The nodes of a tree: no two of them have the same range and kind. *)
Fixpoint nodes (n : node) : list node := match n with Node _ _ _ cs => n :: flat_map nodes cs end.

(** The kinds of the nodes that a cursor at a loop is at. *)
Definition trigger (k : kind) : bool :=
  match k with KFor | KWhile | KBreak | KContinue | KLoopBreak | KLoopContinue => true | _ => false end.
