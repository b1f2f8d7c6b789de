(** What is expected of the outline (C41). *)
From Coq Require Import List Arith Bool.
From Verif Require Import DigModel SpanModel OutModel.
Import ListNotations.

(** The headings of a tree in document order, with their ancestors, the nearest first. *)
Fixpoint flat (anc : list head) (n : node) : list (head * list head) :=
  match n with Node h cs => (h, anc) :: flat_map (flat (h :: anc)) cs end.
Definition listed (ts : list node) : list (head * list head) := flat_map (flat []) ts.
(** The items that the client gets, in order, with their depth. *)
Fixpoint shown (d : nat) (i : item) : list (nat * nat * list chr * nat) :=
  match i with Item t s p cs => (d, t, s, p) :: flat_map (shown (S d)) cs end.
(** The source of a heading. *)
Definition source (h : head) : span := match h_span h with Some sp => sp | None => h_body h end.
