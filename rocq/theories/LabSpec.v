(** What is expected of the labels of a workspace (C178). *)
From Coq Require Import List Arith Bool.
From Verif Require Import LexModel LexSpec LabModel.
Import ListNotations.

(** [at_depth d i h]: [i] is [d] levels below the top of [h]. *)
Inductive at_depth : nat -> info -> hier -> Prop :=
| At_top i cs : at_depth 0 i (Hier i cs)
| At_below d i j cs h : In h cs -> at_depth d i h -> at_depth (S d) i (Hier j cs).
(** A label of a source, with its depth in the hierarchy. *)
Definition label_of (root : node) (d name : nat) (r : nat * nat) : Prop :=
  exists hs h, get_lexical_hierarchy Symbol root = Some hs /\ In h hs /\ at_depth d (mkInfo name LLabel r) h.
(** A label somewhere in a source. *)
Definition has_label (root : node) (name : nat) (r : nat * nat) : Prop :=
  exists par e p cs, inside None root par (Node (KLabel name false) r e p cs).
(** What the client sees of a label, as an item. *)
Definition as_info (l : label) : info := mkInfo (l_name l) LLabel (l_range l).
