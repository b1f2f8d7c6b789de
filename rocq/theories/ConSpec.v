(** What the constraints between types, the substitution of variables, their
    weakening and the joining of types are to do, stated without the functions
    of the model. *)
From Coq Require Import List Arith Bool Sorted.
From Verif Require Import SimpModel ConModel.
Import ListNotations.

(** * Parts of types *)

(** [sub a t]: [a] occurs in [t]. *)
Inductive sub (a : ty) : ty -> Prop :=
| sub_refl : sub a a
| sub_low x l u : sub a x -> In x l -> sub a (TLet l u)
| sub_up x l u : sub a x -> In x u -> sub a (TLet l u)
| sub_union x l : sub a x -> In x l -> sub a (TUnion l)
| sub_comp x k l : sub a x -> In x l -> sub a (TComp k l)
| sub_ins x k sh l o : sub a x -> In x l -> sub a (TSig k sh l o)
| sub_body x k sh l : sub a x -> sub a (TSig k sh l (Some x))
| sub_with_sig f sh l o : sub a f -> sub a (TWith f sh l o)
| sub_with_ins x f sh l o : sub a x -> In x l -> sub a (TWith f sh l o)
| sub_with_body x f sh l : sub a x -> sub a (TWith f sh l (Some x)).

(** The names of fields are in order, each once. *)
Definition ordered (l : list nat) : Prop := StronglySorted lt l.
Definition tidy (t : ty) : Prop := forall names l, sub (TComp (CDict names) l) t -> ordered names.

(** The variables of a type are all among [dom]. *)
Definition inside (dom : list nat) (t : ty) : Prop := forall v, sub (TVar v) t -> In v dom.

(** None of the six builtins that stand for dictionaries. *)
Definition flowless (e : env) (t : ty) : Prop :=
  forall n names types, sub (TLeaf n) t -> leaf_of e n <> LFlow names types.
(** None of them within a dictionary. *)
Definition shallow (e : env) (t : ty) : Prop :=
  forall names l, sub (TComp (CDict names) l) t -> flowless e (TComp (CDict names) l).

(** What is asked of an environment: the names of signatures are in order; the
    dictionaries of the builtins have no variables, and these builtins are not
    within further dictionaries in them. *)
Definition good_env (e : env) : Prop :=
  (forall sh, ordered (fst (fst (shape_of e sh)))) /\
  (forall n names types, leaf_of e n = LFlow names types ->
     ordered names /\ forall t, In t types -> tidy t /\ inside [] t /\ shallow e t).

(** * Passing arguments *)

Definition s_names (e : env) (g : sg) := fst (fst (shape_of e (sh_ g))).
Definition s_start (e : env) (g : sg) := snd (fst (shape_of e (sh_ g))).
Definition s_spread (e : env) (g : sg) := snd (shape_of e (sh_ g)).

(** The inputs by position. *)
Definition s_pos (e : env) (g : sg) : list ty := firstn (s_start e g) (ins_ g).
(** The input that takes or gives any further ones: the last. *)
Definition s_rest (e : env) (g : sg) (t : ty) : Prop :=
  s_spread e g = true /\ exists l, ins_ g = l ++ [t].
(** The input of a name. *)
Definition s_named (e : env) (g : sg) (k : nat) (t : ty) : Prop :=
  exists i, nth_error (s_names e g) i = Some k /\ nth_error (ins_ g) (s_start e g + i) = Some t.

(** The [i]th of a list, or the spread beyond its end. *)
Definition slot (l : list ty) (rest : ty -> Prop) (i : nat) (t : ty) : Prop :=
  nth_error l i = Some t \/ (length l <= i /\ rest t).

Definition given (e : env) (args : sg) (withs : list sg) : list ty :=
  concat (map (s_pos e) (rev withs)) ++ s_pos e args.

(** [passed_at e g args withs p r t]: the parameter [r] of [g] receives [t],
    and [p] says as what: by position (0) which one; by name (1) from which
    of the arguments, and under which name of the signature.  One more than
    the longer of both is passed if both have a spread. *)
Inductive passed_at (e : env) (g args : sg) (withs : list sg) : nat * nat * nat -> ty -> ty -> Prop :=
| at_pos i r t :
    (i < length (s_pos e g) \/ i < length (given e args withs) \/
     i = Nat.max (length (s_pos e g)) (length (given e args withs)) /\ (exists t1, s_rest e g t1) /\ (exists t2, s_rest e args t2)) ->
    slot (s_pos e g) (s_rest e g) i r ->
    slot (given e args withs) (s_rest e args) i t ->
    passed_at e g args withs (0, i, 0) r t
| at_name j w i k r t :
    nth_error (rev withs ++ [args]) j = Some w ->
    nth_error (s_names e g) i = Some k -> nth_error (ins_ g) (s_start e g + i) = Some r ->
    s_named e w k t ->
    passed_at e g args withs (1, j, i) r t.

Definition passed (e : env) (c : call) (r t : ty) : Prop :=
  exists p, passed_at e (c_sig c) (c_args c) (match c_withs c with Some l => l | None => [] end) p r t.

(** * Constraints *)

(** What may be wanted of a variable: a bound above or below it. *)
Inductive want := Up (v : nat) (t : ty) | Low (v : nat) (t : ty).

Definition is_var (t : ty) : Prop := exists v, t = TVar v.
Definition is_union (t : ty) : Prop := exists l, t = TUnion l.
Definition a_type (e : env) (t : ty) : Prop :=
  exists n, t = TLeaf n /\ (leaf_of e n = LType \/ exists u, leaf_of e n = LValue true u).

(** [wants e a b w]: that [a] is below [b] asks for [w]. *)
Inductive wants (e : env) : ty -> ty -> want -> Prop :=
| wants_up v b : ~ is_var b -> wants e (TVar v) b (Up v b)
| wants_low a v : ~ is_var a -> wants e a (TVar v) (Low v a)
| wants_union_l l b x w : TUnion l <> b -> ~ is_var b -> In x l -> wants e x b w -> wants e (TUnion l) b w
| wants_union_r a l x w : ~ is_union a -> ~ is_var a -> In x l -> wants e a x w -> wants e a (TUnion l) w
| wants_flow_r n1 l1 n names types w : leaf_of e n = LFlow names types ->
    wants e (TComp (CDict n1) l1) (TComp (CDict names) types) w -> wants e (TComp (CDict n1) l1) (TLeaf n) w
| wants_flow_l n names types n2 l2 w : leaf_of e n = LFlow names types ->
    wants e (TComp (CDict names) types) (TComp (CDict n2) l2) w -> wants e (TLeaf n) (TComp (CDict n2) l2) w
| wants_field n1 l1 n2 l2 i j k x y w : TComp (CDict n1) l1 <> TComp (CDict n2) l2 ->
    nth_error n1 i = Some k -> nth_error n2 j = Some k -> nth_error l1 i = Some x -> nth_error l2 j = Some y ->
    wants e x y w -> wants e (TComp (CDict n1) l1) (TComp (CDict n2) l2) w
| wants_unary o x y w : x <> y -> wants e x y w -> wants e (TComp (CUnary o) [x]) (TComp (CUnary o) [y]) w
| wants_type_l x b w : a_type e b -> wants e x b w -> wants e (TComp (CUnary type_of) [x]) b w
| wants_type_r a y w : a_type e a -> wants e a y w -> wants e a (TComp (CUnary type_of) [y]) w
| wants_func sh1 l1 o1 sh2 l2 o2 r t w : TSig SFunc sh1 l1 o1 <> TSig SFunc sh2 l2 o2 ->
    passed e {| c_sig := {| sh_ := sh1; ins_ := l1; body_ := o1 |}; c_args := {| sh_ := sh2; ins_ := l2; body_ := o2 |}; c_withs := None |} r t ->
    wants e t r w -> wants e (TSig SFunc sh1 l1 o1) (TSig SFunc sh2 l2 o2) w.

(** What an operation asks for. *)
Definition asks (e : env) (o : op) (w : want) : Prop :=
  match o with
  | OCon a b => wants e a b w
  | OCall c => exists r t, passed e c r t /\ wants e t r w
  | OWeak _ => False
  end.
Definition asked (e : env) (os : list op) (w : want) : Prop := exists o, In o os /\ asks e o w.

(** A value as its type. *)
Inductive lifts (e : env) : ty -> ty -> Prop :=
| lifts_value n b u : leaf_of e n = LValue b u -> lifts e (TLeaf n) u
| lifts_other t : (forall n b u, t = TLeaf n -> leaf_of e n <> LValue b u) -> lifts e t t.

(** The bounds of a variable in a state, and whether it is weak. *)
Definition above (s : st) (v : nat) (t : ty) : Prop := exists b, get v (vars_ s) = Some b /\ In t (ups b).
Definition below (s : st) (v : nat) (t : ty) : Prop := exists b, get v (vars_ s) = Some b /\ In t (lows b).
Definition is_weak (s : st) (v : nat) : Prop := exists b, get v (vars_ s) = Some b /\ weak b = true.
Definition dom (s : st) : list nat := map fst (vars_ s).

(** What a weakening reaches: everything but the bodies of signatures. *)
Inductive reached (v : nat) : ty -> Prop :=
| reached_var : reached v (TVar v)
| reached_low x l u : reached v x -> In x l -> reached v (TLet l u)
| reached_up x l u : reached v x -> In x u -> reached v (TLet l u)
| reached_union x l : reached v x -> In x l -> reached v (TUnion l)
| reached_comp x k l : reached v x -> In x l -> reached v (TComp k l)
| reached_ins x k sh l o : reached v x -> In x l -> reached v (TSig k sh l o)
| reached_with_sig f sh l o : reached v f -> reached v (TWith f sh l o)
| reached_with_ins x f sh l o : reached v x -> In x l -> reached v (TWith f sh l o).

Definition weakened (os : list op) (v : nat) : Prop := exists t, In (OWeak t) os /\ reached v t.

(** The types an operation is about. *)
Definition op_types (o : op) (t : ty) : Prop :=
  match o with
  | OCon a b => t = a \/ t = b
  | OCall c => exists g, (g = c_sig c \/ g = c_args c \/ exists l, c_withs c = Some l /\ In g l) /\ In t (ins_ g)
  | OWeak u => t = u
  end.
Definition about (os : list op) (t : ty) : Prop := exists o, In o os /\ op_types o t.

(** * Substitution *)

(** [puts bound t u]: [u] is [t] with each variable replaced by what it is
    bound to, the types in bounds left as they are. *)
Inductive puts (bound : nat -> ty -> Prop) : ty -> ty -> Prop :=
| puts_any : puts bound TAny TAny
| puts_leaf n : puts bound (TLeaf n) (TLeaf n)
| puts_bound v u : bound v u -> puts bound (TVar v) u
| puts_free v : (forall u, ~ bound v u) -> puts bound (TVar v) (TVar v)
| puts_let l u : puts bound (TLet l u) (TLet l u)
| puts_union l l' : Forall2 (puts bound) l l' -> puts bound (TUnion l) (TUnion l')
| puts_comp k l l' : Forall2 (puts bound) l l' -> puts bound (TComp k l) (TComp k l')
| puts_sig k sh l l' : Forall2 (puts bound) l l' -> puts bound (TSig k sh l None) (TSig k sh l' None)
| puts_sig_body k sh l l' o o' : Forall2 (puts bound) l l' -> puts bound o o' ->
    puts bound (TSig k sh l (Some o)) (TSig k sh l' (Some o'))
| puts_with f f' sh l l' : puts bound f f' -> Forall2 (puts bound) l l' -> puts bound (TWith f sh l None) (TWith f' sh l' None)
| puts_with_body f f' sh l l' o o' : puts bound f f' -> Forall2 (puts bound) l l' -> puts bound o o' ->
    puts bound (TWith f sh l (Some o)) (TWith f' sh l' (Some o')).

Definition before (p q : nat * nat * nat) : Prop :=
  let '(a, b, c) := p in let '(a', b', c') := q in
  a < a' \/ a = a' /\ (b < b' \/ b = b' /\ c < c').

(** What a call binds a variable to: the last that is passed to a parameter
    that is this variable; if none is, what it was bound to before. *)
Definition bound_by (e : env) (B : list (nat * ty)) (g args : sg) (withs : list sg) (v : nat) (u : ty) : Prop :=
  (exists p, passed_at e g args withs p (TVar v) u /\
     forall q u', passed_at e g args withs q (TVar v) u' -> q = p \/ before q p) \/
  ((forall p u', ~ passed_at e g args withs p (TVar v) u') /\
   exists B1 B2, B = B1 ++ (v, u) :: B2 /\ ~ In v (map fst B1)).

(** * Joining *)

(** What a block's expressions come to: [nothing] says nothing, variables and
    the other types are looked at apart. *)
Definition nothing (e : env) (t : ty) : Prop := t = TAny \/ exists n, t = TLeaf n /\ leaf_of e n = LSilent.
Definition decided (e : env) (t : ty) : Prop := ~ nothing e t /\ ~ is_var t.

(** The elements of a list that meet [P], in order. *)
Inductive those (P : ty -> Prop) : list ty -> list ty -> Prop :=
| those_nil : those P [] []
| those_yes t l r : P t -> those P l r -> those P (t :: l) (t :: r)
| those_no t l r : ~ P t -> those P l r -> those P (t :: l) r.

Definition join_env (e : env) : Prop := leaf_of e (none_leaf e) = LSilent /\ leaf_of e (undef_leaf e) = LPlain.

(** What the type of a block is to be: the variable if there is one (and just
    one), unknown if there are more; without variables, that of the only
    expression that has one; none if there is no such; undefined if there are
    several. *)
Inductive joins (e : env) (ts : list ty) : ty -> Prop :=
| joins_none : those is_var ts [] -> those (decided e) ts [] -> joins e ts (TLeaf (none_leaf e))
| joins_one t : those is_var ts [] -> those (decided e) ts [t] -> joins e ts t
| joins_more t1 t2 l : those is_var ts [] -> those (decided e) ts (t1 :: t2 :: l) -> joins e ts (TLeaf (undef_leaf e))
| joins_var t : those is_var ts [t] -> joins e ts t
| joins_vars t1 t2 l : those is_var ts (t1 :: t2 :: l) -> joins e ts TAny.
