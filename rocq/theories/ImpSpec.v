(** Where imports lead and what is offered in them (C190). *)
From Coq Require Import List Arith Bool.
From Verif Require Import ImpModel.
Import ListNotations.

(** [reach d p e]: from a folder a path leads to a place; above the root there are only steps up. *)
Inductive reach : list comp -> list comp -> list comp -> Prop :=
  | R_end d : reach d [] d
  | R_in d n p e : reach (d ++ [Nm n]) p e -> reach d (Nm n :: p) e
  | R_out d n p e : reach d p e -> reach (d ++ [Nm n]) (Up :: p) e
  | R_above k p e : reach (repeat Up (S k)) p e -> reach (repeat Up k) (Up :: p) e.
(** A path without needless steps. *)
Definition normal (p : list comp) : Prop := exists k ns, p = repeat Up k ++ map Nm ns.
(** [leads v ns s]: names lead from a value to one with a scope. *)
Inductive leads : val -> list nat -> list (nat * val) -> Prop :=
  | L_end s : leads (mkVal (Some s)) [] s
  | L_in s n v ns t a b : s = a ++ (n, v) :: b -> (forall x, In x a -> fst x <> n) -> leads v ns t -> leads (mkVal (Some s)) (n :: ns) t.
