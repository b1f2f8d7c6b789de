(** What names mean in scopes (C194). *)
From Coq Require Import List Arith Bool.
From Verif Require Import StkModel.
Import ListNotations.

(** The scopes from the innermost out. *)
Definition frames (s : scopes) : list scope := top s :: rev (below s).
(** [binds n v l]: the innermost scope that has a name has it with a value. *)
Definition binds (n v : nat) (l : list scope) : Prop :=
  exists a f b x y, l = a ++ f :: b /\ (forall g, In g a -> ~ In n (map fst g)) /\ f = x ++ (n, v) :: y /\ ~ In n (map fst x).
(** Steps that leave what they enter. *)
Inductive balanced : list op -> Prop :=
  | B_nil : balanced []
  | B_define n v r : balanced r -> balanced (Define n v :: r)
  | B_set n v r : balanced r -> balanced (Set_ n v :: r)
  | B_block a r : balanced a -> balanced r -> balanced (Enter :: a ++ Exit :: r).
(** The scopes left after steps; [None] if more are left than entered. *)
Fixpoint depth (l : list op) (d : nat) : option nat :=
  match l with [] => Some d | Enter :: r => depth r (S d) | Exit :: r => match d with 0 => None | S d' => depth r d' end | _ :: r => depth r d end.
