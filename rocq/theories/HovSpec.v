(** What is expected of hovering (C181). *)
From Coq Require Import List Arith Bool.
From Verif Require Import SelModel SelSpec HovModel.
Import ListNotations.

(** How far two offsets are from each other. *)
Definition apart (a b d : nat) : Prop := a + d = b \/ b + d = a.
(** [nearest jump c len p]: [p] is the place of the nearest offset to [c] with a place, less than 100 away, the later one of two; offsets after [c] are in the document. *)
Definition nearest (jump : nat -> option nat) (c len_ p : nat) : Prop :=
  exists o d, apart c o d /\ d < 100 /\ jump o = Some p /\ (c < o -> o < len_) /\
    (forall o' d', apart c o' d' -> d' < d -> (c < o' -> o' < len_) -> jump o' = None) /\
    (o < c -> c + d < len_ -> jump (c + d) = None).
