(** What is expected of the interner (C88, C89). *)
From Coq Require Import List Arith Bool.
From Verif Require Import InternModel.
Import ListNotations.

(** The handle still holds its cell. *)
Definition present (h : handle) : Prop := h_phase h <> Gone.
Definition in_drop (h : handle) : Prop := h_phase h <> Live /\ h_phase h <> Gone.
Definition content (s : st) (h : handle) : nat := c_content (cell_of s (h_arc h)).
Definition count (s : st) (h : handle) : nat := c_count (cell_of s (h_arc h)).
(** No two handles of one cell are being dropped at a time. *)
Definition solo (s : st) : Prop :=
  forall i j h g, nth_error (s_hs s) i = Some h -> nth_error (s_hs s) j = Some g -> in_drop h -> in_drop g -> h_arc h = h_arc g -> i = j.
(** A whole drop. *)
Definition drops (i : nat) : list event := repeat (Drop i) 6.
(** The table keeps nothing that no handle holds. *)
Definition lean (s : st) : Prop := forall a, In a (s_map s) -> exists h, In h (s_hs s) /\ present h /\ h_arc h = a.
(** Use by one thread: every drop is whole. *)
Inductive act := ANew (c : nat) | AClone (i : nat) | ADrop (i : nat).
Definition events_of (x : act) : list event := match x with ANew c => [New c] | AClone i => [Clone i] | ADrop i => drops i end.
