(** What the bounds and sources of types are. *)
From Coq Require Import List Arith Bool.
From Verif Require Import BndModel.
Import ListNotations.

(** Types that are collected as they are. *)
Definition atom (t : ty) : Prop := match t with Union _ | Let _ _ | Var _ => False | _ => True end.
(** A type is among the bounds, with this polarity. *)
Inductive sees (e : env) : ty -> bool -> ty -> bool -> Prop :=
| see_atom t p : atom t -> sees e t p t p
| see_union ts t p u q : In t ts -> sees e t p u q -> sees e (Union ts) p u q
| see_upper us ls t p u q : In t us -> sees e t p u q -> sees e (Let us ls) p u q
| see_lower us ls t p u q : In t ls -> sees e t (negb p) u q -> sees e (Let us ls) p u q
| see_var_upper v us ls t p u q : e v = Some (us, ls) -> In t us -> sees e t p u q -> sees e (Var v) p u q
| see_var_lower v us ls t p u q : e v = Some (us, ls) -> In t ls -> sees e t (negb p) u q -> sees e (Var v) p u q.
(** The bounds in order. *)
Inductive trace (e : env) : ty -> bool -> list (ty * bool) -> Prop :=
| trace_atom t p : atom t -> trace e t p [(t, p)]
| trace_union ts p l : traces e ts p l -> trace e (Union ts) p l
| trace_let us ls p a b : traces e us p a -> traces e ls (negb p) b -> trace e (Let us ls) p (a ++ b)
| trace_free v p : e v = None -> trace e (Var v) p []
| trace_var v us ls p a b : e v = Some (us, ls) -> traces e us p a -> traces e ls (negb p) b -> trace e (Var v) p (a ++ b)
with traces (e : env) : list ty -> bool -> list (ty * bool) -> Prop :=
| traces_nil p : traces e [] p []
| traces_cons t ts p a b : trace e t p a -> traces e ts p b -> traces e (t :: ts) p (a ++ b).
(** A variable is directly in a type: not below functions, parameters or selections. *)
Inductive direct : ty -> nat -> Prop :=
| direct_var v : direct (Var v) v
| direct_union ts t v : In t ts -> direct t v -> direct (Union ts) v
| direct_upper us ls t v : In t us -> direct t v -> direct (Let us ls) v
| direct_lower us ls t v : In t ls -> direct t v -> direct (Let us ls) v.
(** Bounds without cycles: variables are directly in bounds of later variables only. *)
Definition acyclic (e : env) : Prop := exists rank : nat -> nat, forall v us ls t w, e v = Some (us, ls) -> In t (us ++ ls) -> direct t w -> rank w < rank v.
(** A source of a type. *)
Inductive source_of : ty -> source -> Prop :=
| source_src k n : source_of (Src k n) (SSrc n)
| source_var v : source_of (Var v) (SVar v)
| source_param t s : source_of t s -> source_of (Param t) s
| source_with t s : source_of t s -> source_of (With t) s
| source_select t s : source_of t s -> source_of (Select true t) s
| source_union ts t s : In t ts -> source_of t s -> source_of (Union ts) s
| source_upper us ls t s : In t us -> source_of t s -> source_of (Let us ls) s
| source_lower us ls t s : In t ls -> source_of t s -> source_of (Let us ls) s.
(** Being something by the bounds. *)
Definition some_bound (e : env) (t : ty) (ks : list kind) : Prop := exists u q k n, sees e t true u q /\ (u = Src k n \/ u = Leaf k n) /\ In k ks.
