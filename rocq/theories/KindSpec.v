(** What completions of names and functions are. *)
From Coq Require Import List Arith Bool.
From Verif Require Import KindModel.
Import ListNotations.

(** The last bound of the last bound and so on, which is not itself bounds. *)
Inductive final : ty -> ty -> Prop :=
| final_leaf t : (forall us ls, t <> Let us ls) -> final t t
| final_let us ls l x u : us ++ ls = l ++ [x] -> final x u -> final (Let us ls) u.
(** A bound of a type. *)
Inductive bound : ty -> ty -> Prop :=
| bound_leaf t : (forall us ls, t <> Let us ls) -> bound t t
| bound_let us ls x u : In x (us ++ ls) -> bound x u -> bound (Let us ls) u.
(** Types that may be called. *)
Definition callable (t : ty) : Prop :=
  match t with VFunc _ _ _ | Func _ | With _ _ | BElem _ _ | VType (Some _) | BTypeType (Some _) => True | _ => False end.
(** The signature of a type, with the number of positional arguments it has already. *)
Inductive called : ty -> nat -> sig -> Prop :=
| called_value e o s : called (VFunc e o s) 0 s
| called_type s : called (VType (Some s)) 0 s
| called_builtin s : called (BType (Some s)) 0 s
| called_elem b s : called (BElem b s) 0 s
| called_func s : called (Func s) 0 s
| called_with m n t s : called t n s -> called (With m t) (m + n) s.
(** An element, perhaps with arguments; and a function all parameters of which are called "self". *)
Inductive elemental : ty -> Prop :=
| elemental_value b o s : elemental (VFunc (Some b) o s)
| elemental_builtin b s : elemental (BElem b s)
| elemental_with m t : elemental t -> elemental (With m t).
Inductive selfish : ty -> Prop :=
| selfish_value e s : selfish (VFunc e true s)
| selfish_with m t : selfish t -> selfish (With m t).
(** The least of some numbers, if there are any. *)
Definition minimum (P : nat -> Prop) (o : option nat) : Prop :=
  match o with None => forall n, ~ P n | Some m => P m /\ forall n, P n -> m <= n end.
(** What is known of some functions. *)
Definition known (bs : bool) (fns : list ty) (f : feat) : Prop :=
  minimum (fun m => exists t n s, In t fns /\ called t n s /\ m = length (s_pos s) - n) (f_min_pos f)
  /\ minimum (fun m => exists t n s, In t fns /\ called t n s /\ m = s_named s) (f_min_named f)
  /\ (f_rest f = true <-> exists t n s, In t fns /\ called t n s /\ s_rest s = true)
  /\ (f_content f = true <-> exists t n s, In t fns /\ called t n s /\ nth_error (s_pos s) n = Some true)
  /\ (f_elem f = true <-> exists t, In t fns /\ elemental t)
  /\ (f_only_self f = true <-> bs = true /\ exists t, In t fns /\ selfish t)
  /\ f_bound_self f = bs.
