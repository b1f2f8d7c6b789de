(** What is expected of jumps between preview and source (C42, C80). *)
From Coq Require Import List Arith Bool NArith.
From Verif Require Import TextModel TextSpec JumpModel.
Import ListNotations.

(** Positions in order. *)
Definition before (x y : nat * nat) : Prop := fst x < fst y \/ (fst x = fst y /\ snd x <= snd y).
(** Nodes are parts of the text. *)
Definition nodes_ok (w : world) : Prop := forall sp path t a b, w sp = Some (path, t, a, b) -> exists p m s, t = p ++ m ++ s /\ a = len8 p /\ b = len8 (p ++ m).
(** The line of a position and the characters of the line before it. *)
Definition at_ (t : text) (p : text) (x : nat * nat) : Prop :=
  exists r rest s, t = p ++ s /\ nth_error (split_lines is_newline t) (fst x) = Some (r ++ rest) /\ p = concat (firstn (fst x) (split_lines is_newline t)) ++ r /\ snd x = length r.
(** Texts of the basic multilingual plane. *)
Definition bmp (t : text) : Prop := forall c, In c t -> (c < 65536)%N.
(** The text of the line before the client's position consists of such characters. *)
Definition bmp_line (p : text) (x : pos) : Prop := exists q r, p = q ++ r /\ len16 r = p_char x /\ bmp r.
