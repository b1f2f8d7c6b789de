(** What is expected of the ranges to select (C177). *)
From Coq Require Import List Arith Bool.
From Verif Require Import SelModel.
Import ListNotations.

(** [ends o n e]: a node that starts at [o] ends at [e]. *)
Inductive ends : nat -> node -> nat -> Prop :=
| E_leaf o l : ends o (Leaf l) (o + l)
| E_inner o cs e : ends_all o cs e -> ends o (Inner cs) e
with ends_all : nat -> list node -> nat -> Prop :=
| E_nil o : ends_all o [] o
| E_cons o c m cs e : ends o c m -> ends_all m cs e -> ends_all o (c :: cs) e.
(** [tower o n a b rs]: below the node [n] that starts at [o] there is a node without children from [a] to [b], and [rs] are the ranges of it, of its parent, and so on up to [n]. *)
Inductive tower : nat -> node -> nat -> nat -> list (nat * nat) -> Prop :=
| T_leaf o l : tower o (Leaf l) o (o + l) [(o, o + l)]
| T_none o : tower o (Inner []) o o [(o, o)]
| T_child o pre c post m e a b rs : ends_all o pre m -> ends o (Inner (pre ++ c :: post)) e -> tower m c a b rs ->
    tower o (Inner (pre ++ c :: post)) a b (rs ++ [(o, e)]).
(** Each range is contained in the next. *)
Fixpoint nested (rs : list (nat * nat)) : Prop :=
  match rs with
  | (a, b) :: (((a', b') :: _) as r) => a' <= a /\ b <= b' /\ nested r
  | _ => True
  end.
