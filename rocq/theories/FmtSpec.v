(** What is expected of formatting edits (C43). *)
From Coq Require Import List NArith Arith Bool.
From Verif Require Import TextModel TextSpec.
Import ListNotations.

(** The last byte of a character in UTF-8. *)
Definition last_byte (c : char) : N := (if c <? 128 then c else 128 + c mod 64)%N.
(** The texts differ between [a] and [z] only, and the differing parts do not end with
    characters that share their last byte. *)
Definition differ_in (a m m' z : text) : Prop :=
  m = [] \/ m' = [] \/ exists n c n' c', m = n ++ [c] /\ m' = n' ++ [c'] /\ last_byte c <> last_byte c'.
(** A cut inside of a CR LF line break, which has no position in the protocol. *)
Definition inside_crlf (p s : text) : Prop := exists p' s', p = p' ++ [CR] /\ s = LF :: s'.
(** A list of edits at once, as the client performs it: here at most one. *)
Inductive client_edits (t : text) : list change -> text -> Prop :=
| CENone : client_edits t [] t
| CEOne c t' : client_change t c t' -> client_edits t [c] t'.
