(** What is expected of the statistics of queries (C179). *)
From Coq Require Import List Arith Bool NArith.
From Verif Require Import StatModel.
Import ListNotations.

(** The query of a guard, from what happened so far, the latest first: its key and when it began. *)
Fixpoint began (g : nat) (past : list event) : option (nat * nat) :=
  match past with
  | [] => None
  | Begin g' k t :: r => if g' =? g then Some (k, t) else began g r
  | End g' _ :: r => if g' =? g then None else began g r
  | _ :: r => began g r
  end.
(** How long the query of a guard took until its first snapshot, if it had one; the latest first. *)
Fixpoint first_snap (g since : nat) (past : list event) : option nat :=
  match past with
  | [] => None
  | Begin g' _ _ :: r => if g' =? g then None else first_snap g since r
  | Snap g' t :: r => if g' =? g then match first_snap g since r with Some d => Some d | None => Some (t - since) end else first_snap g since r
  | _ :: r => first_snap g since r
  end.
(** The queries of a key that ended: how long each took, and until the snapshot; the latest first. *)
Fixpoint ended (k : nat) (past : list event) : list (nat * nat) :=
  match past with
  | [] => []
  | End g t :: r =>
      match began g r with
      | Some (k', s) => if k' =? k then (t - s, match first_snap g s r with Some d => d | None => 0 end) :: ended k r else ended k r
      | None => ended k r
      end
  | _ :: r => ended k r
  end.
(** How often something was missing for a key. *)
Fixpoint misses (k : nat) (past : list event) : nat :=
  match past with
  | [] => 0
  | Miss g :: r => match began g r with Some (k', _) => if k' =? k then S (misses k r) else misses k r | None => misses k r end
  | _ :: r => misses k r
  end.
(** A key has a bucket. *)
Definition asked_for (k : nat) (tr : list event) : Prop := exists g t, In (Begin g k t) tr.
(** The sum of numbers. *)
Definition sum (l : list nat) : nat := fold_right Nat.add 0 l.
(** [least m l]: [m] is the least of [l]. *)
Definition least (m : nat) (l : list nat) : Prop := In m l /\ Forall (fun x => m <= x) l.
(** [greatest m l]: [m] is the greatest of [l]. *)
Definition greatest (m : nat) (l : list nat) : Prop := In m l /\ Forall (fun x => x <= m) l.
(** [falling key l]: no row is greater than one before it. *)
Inductive falling {A} (key : A -> nat) : list A -> Prop :=
| F_nil : falling key []
| F_cons x l : Forall (fun y => key y <= key x) l -> falling key l -> falling key (x :: l).
