(** What is expected of folding ranges (C45). *)
From Coq Require Import List Arith Bool.
From Verif Require Import FoldModel.
Import ListNotations.

(** Every range of the hierarchy is in the document, whose last line is [last]. *)
Fixpoint within (last : nat) (h : hier) : Prop :=
  match h with Hier _ _ sl _ el _ cs => sl <= el /\ el <= last /\ (fix go l := match l with [] => True | c :: r => within last c /\ go r end) cs end.
(** Ranges in order, children within their parents, and no headings (whose children are after them). *)
Fixpoint nested (h : hier) : Prop :=
  match h with
  | Hier k _ sl _ el _ cs => k <> KHeading /\ sl <= el /\
      (fix go lo l := match l with [] => lo <= el | Hier _ _ s _ e _ _ as c :: r => lo <= s /\ nested c /\ go e r end) sl cs
  end.
Fixpoint nested_all (lo : nat) (l : list hier) : Prop :=
  match l with [] => True | Hier _ _ s _ e _ _ as c :: r => lo <= s /\ nested c /\ nested_all e r end.
(** All hierarchies of a forest. *)
Fixpoint every (h : hier) : list hier := match h with Hier _ _ _ _ _ _ cs => flat_map every cs ++ [h] end.
Definition first_line (h : hier) : nat := fst (start_of h).
Definition lines (r : fr) : nat * nat := (f_sl r, f_el r).
(** A candidate for clients that only fold lines. *)
Definition strip (r : fr) := mkFr (f_sl r) None (f_el r) None (f_comment r) (f_name r).
(** A retained range and the candidate it comes from. *)
Definition from (r c : fr) : Prop :=
  f_sl r < f_el r /\ f_sl c <= f_sl r <= f_sl c + 1 /\ f_el c - 1 <= f_el r <= f_el c /\ f_sc r = f_sc c /\ f_ec r = f_ec c /\ f_comment r = f_comment c /\ f_name r = f_name c.
(** Some of the candidates, in order. *)
Inductive subseq : list fr -> list fr -> Prop :=
| SNil : subseq [] []
| SDrop c rs cs : subseq rs cs -> subseq rs (c :: cs)
| SKeep r c rs cs : from r c -> subseq rs cs -> subseq (r :: rs) (c :: cs).
