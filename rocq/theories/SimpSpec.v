(** What the simplification of a type is to be, without a cache. *)
From Coq Require Import List Arith Bool Sorted Permutation.
From Verif Require Import SimpModel.
Import ListNotations.

(** The variables of a type. *)
Fixpoint tvars (t : ty) : list nat :=
  match t with
  | TAny | TLeaf _ => []
  | TVar v => [v]
  | TLet l u => flat_map tvars l ++ flat_map tvars u
  | TUnion l | TComp _ l => flat_map tvars l
  | TSig _ _ l o => flat_map tvars l ++ match o with Some b => tvars b | None => [] end
  | TWith f _ l o => tvars f ++ flat_map tvars l ++ match o with Some b => tvars b | None => [] end
  end.

(** What a type tells: the builtins and values in it, the composite types,
    the signatures. *)
Inductive label := LLeaf (n : nat) | LComp (k : ckind) | LSig (k : skind) (sh : nat) | LWith (sh : nat).
Fixpoint labels (t : ty) : list label :=
  match t with
  | TAny | TVar _ => []
  | TLeaf n => [LLeaf n]
  | TLet l u => flat_map labels l ++ flat_map labels u
  | TUnion l => flat_map labels l
  | TComp k l => LComp k :: flat_map labels l
  | TSig k sh l o => LSig k sh :: flat_map labels l ++ match o with Some b => labels b | None => [] end
  | TWith f sh l o => LWith sh :: labels f ++ flat_map labels l ++ match o with Some b => labels b | None => [] end
  end.

(** Variables: each has its bounds once, and all that occur have some. *)
Definition known (V : vars) (t : ty) : Prop := forall v, In v (tvars t) -> In v (map fst V).
Definition closed (V : vars) : Prop :=
  NoDup (map fst V) /\ forall v l u b, In (v, (l, u)) V -> In b (l ++ u) -> known V b.

(** What is told by a type and the bounds of its variables, their variables
    and so on. *)
Inductive reach (V : vars) : ty -> label -> Prop :=
| reach_here t x : In x (labels t) -> reach V t x
| reach_bound t v l u b x : In v (tvars t) -> In (v, (l, u)) V -> In b (l ++ u) -> reach V b x -> reach V t x.

(** Variables whose bounds do not lead back to them. *)
Definition acyclic (V : vars) : Prop := exists rank : nat -> nat,
  forall v l u b w, In (v, (l, u)) V -> In b (l ++ u) -> In w (tvars b) -> rank w < rank v.

(** A list as a set that is sorted. *)
Definition sorted_set (ord : ty -> ty -> bool) (l r : list ty) : Prop :=
  (forall t, In t l <-> In t r) /\ NoDup r /\ Sorted (fun a b => ord a b = true) r.

(** The bounds [l] below and [u] above as one type: it is the only bound if
    there is only one, [Any] if there is none. *)
Inductive frozen (ord : ty -> ty -> bool) (l u : list ty) : ty -> Prop :=
| frozen_none : l = [] -> u = [] -> frozen ord l u TAny
| frozen_low t : u = [] -> In t l -> (forall t', In t' l -> t' = t) -> frozen ord l u t
| frozen_high t : l = [] -> In t u -> (forall t', In t' u -> t' = t) -> frozen ord l u t
| frozen_both l' u' : sorted_set ord l l' -> sorted_set ord u u' -> 2 <= length l' + length u' -> frozen ord l u (TLet l' u').

(** A list without the [Any]s. *)
Inductive without_any : list ty -> list ty -> Prop :=
| without_nil : without_any [] []
| without_drop l p : without_any l p -> without_any (TAny :: l) p
| without_keep t l p : t <> TAny -> without_any l p -> without_any (t :: l) (t :: p).

(** A union of types, those that are [Any] left out. *)
Inductive joined (ord : ty -> ty -> bool) (l : list ty) : ty -> Prop :=
| joined_none : without_any l [] -> joined ord l TAny
| joined_one t : without_any l [t] -> joined ord l t
| joined_more p l' : without_any l p -> Permutation p l' -> Sorted (fun a b => ord a b = true) l' -> 2 <= length l' ->
    joined ord l (TUnion l').

(** A type with every variable replaced by its bounds. *)
Inductive simp (ord : ty -> ty -> bool) (V : vars) : ty -> ty -> Prop :=
| simp_any : simp ord V TAny TAny
| simp_leaf n : simp ord V (TLeaf n) (TLeaf n)
| simp_var v l u l' u' r : In (v, (l, u)) V -> Forall2 (simp ord V) l l' -> Forall2 (simp ord V) u u' ->
    frozen ord l' u' r -> simp ord V (TVar v) r
| simp_let l u l' u' r : Forall2 (simp ord V) l l' -> Forall2 (simp ord V) u u' -> frozen ord l' u' r -> simp ord V (TLet l u) r
| simp_union l l' r : Forall2 (simp ord V) l l' -> joined ord l' r -> simp ord V (TUnion l) r
| simp_comp k l l' : Forall2 (simp ord V) l l' -> simp ord V (TComp k l) (TComp k l')
| simp_sig k sh l l' : Forall2 (simp ord V) l l' -> simp ord V (TSig k sh l None) (TSig k sh l' None)
| simp_sig_body k sh l l' b b' : Forall2 (simp ord V) l l' -> simp ord V b b' ->
    simp ord V (TSig k sh l (Some b)) (TSig k sh l' (Some b'))
| simp_with f f' sh l l' : simp ord V f f' -> Forall2 (simp ord V) l l' -> simp ord V (TWith f sh l None) (TWith f' sh l' None)
| simp_with_body f f' sh l l' b b' : simp ord V f f' -> Forall2 (simp ord V) l l' -> simp ord V b b' ->
    simp ord V (TWith f sh l (Some b)) (TWith f' sh l' (Some b')).

(** The order of types compares any two. *)
Definition total (ord : ty -> ty -> bool) : Prop := forall a b, ord a b = true \/ ord b a = true.

(** Types that cannot be simplified further: no variables, bounds are sorted
    sets of at least two, unions are sorted and have at least two types, none
    of them [Any]. *)
Inductive normal (ord : ty -> ty -> bool) : ty -> Prop :=
| normal_any : normal ord TAny
| normal_leaf n : normal ord (TLeaf n)
| normal_let l u : Forall (normal ord) l -> Forall (normal ord) u -> NoDup l -> NoDup u ->
    Sorted (fun a b => ord a b = true) l -> Sorted (fun a b => ord a b = true) u -> 2 <= length l + length u -> normal ord (TLet l u)
| normal_union l : Forall (normal ord) l -> ~ In TAny l -> Sorted (fun a b => ord a b = true) l -> 2 <= length l -> normal ord (TUnion l)
| normal_comp k l : Forall (normal ord) l -> normal ord (TComp k l)
| normal_sig k sh l o : Forall (normal ord) l -> (forall b, o = Some b -> normal ord b) -> normal ord (TSig k sh l o)
| normal_with f sh l o : normal ord f -> Forall (normal ord) l -> (forall b, o = Some b -> normal ord b) -> normal ord (TWith f sh l o).

(** A linear order. *)
Definition linear (ord : ty -> ty -> bool) : Prop :=
  total ord /\ (forall a b, ord a b = true -> ord b a = true -> a = b) /\ (forall a b c, ord a b = true -> ord b c = true -> ord a c = true).

(** The same variables with the same bounds, as sets. *)
Definition same_bounds (V V' : vars) : Prop :=
  forall v l u, In (v, (l, u)) V -> exists l' u', In (v, (l', u')) V' /\ (forall b, In b l <-> In b l') /\ (forall b, In b u <-> In b u').
