(** Model of the bounds and the sources of types: crates/tinymist-analysis/src/ty/bound.rs, and what is asked of bounds in crates/tinymist-analysis/src/ty/def.rs. *)
From Coq Require Import List Arith Bool.
Import ListNotations.

(** The kind of a type without parts, for the questions of ty/def.rs:237-292: a value or a builtin type that is content (or a symbol), a string or a type; the builtin content; the builtin type of types; anything else. *)
Inductive kind := IsContent | IsStr | IsType | BuiltinContent | TypeType | Other.
(** [Ty] as ty/bound.rs sees it: unions, bounds (upper, then lower ones), variables; parameters, functions with arguments, and selections, with whether the name is one of "with" and "where" (ty/bound.rs:102-130);
    types and functions, and other types without parts, by numbers (ty/bound.rs:74-87, 99-101). *)
Inductive ty := Union (ts : list ty) | Let (ubs lbs : list ty) | Var (v : nat) | Param (t : ty) | With (t : ty) | Select (binder : bool) (t : ty) | Src (k : kind) (n : nat) | Leaf (k : kind) (n : nat).
(** [DocSource], ty/bound.rs:43-48. *)
Inductive source := SVar (v : nat) | SSrc (n : nat).

(** ty/bound.rs:90-136 [sources]. *)
Fixpoint sources (t : ty) : list source :=
  let all := fix all ts := match ts with [] => [] | x :: r => sources x ++ all r end in
  match t with
  | Src _ n => [SSrc n]
  | Leaf _ _ => []
  | Param u => sources u
  | Union ts => all ts
  | Let ubs lbs => all ubs ++ all lbs
  | Var v => [SVar v]
  | With u => sources u
  | Select true u => sources u
  | Select false _ => []
  end.

(** What is collected: types with the polarity (ty/bound.rs:8, 39). *)
Definition seen := list (ty * bool).
(** One after the other, ty/bound.rs:148-150; [None] is a recursion that does not end within the bound. *)
Definition then_ (a b : option seen) : option seen := match a, b with Some x, Some y => Some (x ++ y) | _, _ => None end.
Section Bnd.
(** [check_var], ty/bound.rs:10-12, for variables in a type. *)
Variable check_var : nat -> bool -> option seen.
(** ty/bound.rs:153-170 [BoundCheckContext::ty]. *)
Fixpoint walk (t : ty) (pol : bool) : option seen :=
  let tys := fix tys ts pol := match ts with [] => Some [] | x :: r => then_ (walk x pol) (tys r pol) end in
  match t with
  | Union ts => tys ts pol
  | Let ubs lbs => then_ (tys ubs pol) (tys lbs (negb pol))
  | Var v => check_var v pol
  | _ => Some [(t, pol)]
  end.
(** ty/bound.rs:147-151 [BoundCheckContext::tys]. *)
Fixpoint tys (ts : list ty) (pol : bool) : option seen := match ts with [] => Some [] | x :: r => then_ (walk x pol) (tys r pol) end.
End Bnd.
(** [global_bounds], ty/def.rs:1244-1247: the upper and lower bounds of variables; the polarity is not used there. *)
Definition env := nat -> option (list ty * list ty).
(** ty/bound.rs:14-21 [check_var_rec]; the number bounds the depth of the recursion, which the code does not. *)
Fixpoint check_var_rec (e : env) (fuel : nat) (v : nat) (pol : bool) : option seen :=
  match fuel with
  | O => None
  | S n =>
      match e v with
      | None => Some []
      | Some (ubs, lbs) => then_ (tys (check_var_rec e n) ubs pol) (tys (check_var_rec e n) lbs (negb pol))
      end
  end.
(** ty/bound.rs:139-141 [bounds]. *)
Definition bounds (e : env) (fuel : nat) (t : ty) (pol : bool) : option seen := walk (check_var_rec e fuel) t pol.
(** The kind of a type, for ty/def.rs:241-246, 256-260, 270-275: others than those without parts are none of these. *)
Definition kind_of (t : ty) : kind := match t with Src k _ | Leaf k _ => k | _ => Other end.
(** ty/def.rs:237-250, 252-264 and 266-279 [is_content], [is_str] and [is_type], by the kinds asked for. *)
Definition asks (f : kind -> bool) (e : env) (fuel : nat) (t : ty) : option bool :=
  match bounds e fuel t true with Some l => Some (fold_left (fun res x => res || f (kind_of (fst x))) l false) | None => None end.
(** ty/def.rs:237-250. *)
Definition is_content := asks (fun k => match k with IsContent | BuiltinContent => true | _ => false end).
(** ty/def.rs:252-264. *)
Definition is_str := asks (fun k => match k with IsStr => true | _ => false end).
(** ty/def.rs:266-279. *)
Definition is_type := asks (fun k => match k with IsType | TypeType => true | _ => false end).
