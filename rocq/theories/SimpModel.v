(** The simplification of types: crates/tinymist-analysis/src/ty/simplify.rs. *)
From Coq Require Import List Arith Bool.
Import ListNotations.

(** The composite types whose parts are all of the polarity of the whole:
    dictionaries with their field names, tuples, arrays, selections of a field,
    unary and binary operations, conditionals, parameters.
    crates/tinymist-analysis/src/ty/def.rs:51,64-69,83-88 and
    crates/tinymist-analysis/src/ty/simplify.rs:91-127,144-157,192-244. *)
Inductive ckind :=
| CDict (names : list nat) | CTuple | CArray | CSelect (field : nat) | CUnary (op : nat) | CBinary (op : nat)
| CIf | CParam (p : nat).

(** The types that are signatures, crates/tinymist-analysis/src/ty/def.rs:71-76. *)
Inductive skind := SFunc | SArgs | SPattern.

(** Types, crates/tinymist-analysis/src/ty/def.rs:38-89.  [TLeaf] is a boolean,
    a builtin or a value.  A signature is its inputs, its body and the rest of
    it ([sh]: names, where the named ones start, whether there are spreads),
    which the simplification copies. *)
Inductive ty :=
| TAny
| TLeaf (n : nat)
| TVar (v : nat)
| TLet (lbs ubs : list ty)
| TUnion (ts : list ty)
| TComp (k : ckind) (ts : list ty)
| TSig (k : skind) (sh : nat) (ins : list ty) (body : option ty)
| TWith (f : ty) (sh : nat) (ins : list ty) (body : option ty).

(** The variables with their bounds, crates/tinymist-analysis/src/ty/simplify.rs:44. *)
Definition vars := list (nat * (list ty * list ty)).

(** A map, newest entry first, as [FxHashMap::get] and [insert] at
    crates/tinymist-analysis/src/ty/simplify.rs:169-188. *)
Fixpoint get {A} (k : nat) (l : list (nat * A)) : option A :=
  match l with
  | [] => None
  | (x, a) :: l' => if k =? x then Some a else get k l'
  end.

(** Membership in the sets of variables, crates/tinymist-analysis/src/ty/simplify.rs:70-74,271,276. *)
Definition mem (v : nat) (s : list nat) : bool := existsb (Nat.eqb v) s.

(** One after the other with a state; [None]: a panic, or not enough fuel.
    crates/tinymist-analysis/src/ty/simplify.rs:79-87. *)
Definition each {A S} (f : A -> S -> option S) :=
  fix go (l : list A) (s : S) : option S :=
    match l with
    | [] => Some s
    | a :: l' => match f a s with Some s1 => go l' s1 | None => None end
    end.

(** The same for a type that may be missing,
    crates/tinymist-analysis/src/ty/simplify.rs:95-97. *)
Definition maybe {A S} (f : A -> S -> option S) (o : option A) (s : S) : option S :=
  match o with Some a => f a s | None => Some s end.

(** [analyze]: the variables met positively and negatively, given what is done
    with a variable.  crates/tinymist-analysis/src/ty/simplify.rs:63-163.  The
    bodies of arguments, patterns and of what is given by [with] are not
    looked at. *)
Fixpoint analyze_at {S} (var : nat -> bool -> S -> option S) (pol : bool) (t : ty) (s : S) {struct t} : option S :=
  match t with
  | TAny | TLeaf _ => Some s
  | TVar v => var v pol s
  | TLet lbs ubs =>
      match each (analyze_at var (negb pol)) lbs s with
      | Some s1 => each (analyze_at var pol) ubs s1
      | None => None
      end
  | TUnion ts | TComp _ ts => each (analyze_at var pol) ts s
  | TSig SFunc _ ins body =>
      match each (analyze_at var (negb pol)) ins s with
      | Some s1 => maybe (analyze_at var pol) body s1
      | None => None
      end
  | TSig _ _ ins _ => each (analyze_at var pol) ins s
  | TWith f _ ins _ =>
      match analyze_at var pol f s with
      | Some s1 => each (analyze_at var pol) ins s1
      | None => None
      end
  end.

(** What is done with a variable: it is added to the set of its polarity, and
    if it is new its bounds of that polarity are analyzed.
    crates/tinymist-analysis/src/ty/simplify.rs:65-90; the fuel bounds the
    number of variables within one another. *)
Fixpoint analyze_var (fuel : nat) (V : vars) (v : nat) (pol : bool) (s : list nat * list nat) : option (list nat * list nat) :=
  match get v V with
  | None => None
  | Some (lbs, ubs) =>
      let '(ps, ns) := s in
      if mem v (if pol then ps else ns) then Some s
      else
        match fuel with
        | 0 => None
        | S fuel' =>
            if pol then each (analyze_at (analyze_var fuel' V) pol) lbs (v :: ps, ns)
            else each (analyze_at (analyze_var fuel' V) pol) ubs (ps, v :: ns)
        end
  end.

(** Equality of types, [HashSet<Ty>] at crates/tinymist-analysis/src/ty/simplify.rs:266-267. *)
Definition ck_eqb (a b : ckind) : bool :=
  match a, b with
  | CDict x, CDict y => if list_eq_dec Nat.eq_dec x y then true else false
  | CTuple, CTuple | CArray, CArray | CIf, CIf => true
  | CSelect x, CSelect y | CUnary x, CUnary y | CBinary x, CBinary y | CParam x, CParam y => x =? y
  | _, _ => false
  end.
(** crates/tinymist-analysis/src/ty/simplify.rs:266-267 *)
Definition sk_eqb (a b : skind) : bool :=
  match a, b with SFunc, SFunc | SArgs, SArgs | SPattern, SPattern => true | _, _ => false end.
(** crates/tinymist-analysis/src/ty/simplify.rs:266-267 *)
Definition list_eqb {A} (f : A -> A -> bool) :=
  fix go (l l' : list A) : bool :=
    match l, l' with
    | [], [] => true
    | a :: l1, b :: l1' => f a b && go l1 l1'
    | _, _ => false
    end.
(** crates/tinymist-analysis/src/ty/simplify.rs:266-267 *)
Definition opt_eqb {A} (f : A -> A -> bool) (o o' : option A) : bool :=
  match o, o' with Some a, Some b => f a b | None, None => true | _, _ => false end.
(** crates/tinymist-analysis/src/ty/simplify.rs:266-267 *)
Fixpoint ty_eqb (a b : ty) {struct a} : bool :=
  match a, b with
  | TAny, TAny => true
  | TLeaf n, TLeaf m => n =? m
  | TVar n, TVar m => n =? m
  | TLet l u, TLet l' u' => list_eqb ty_eqb l l' && list_eqb ty_eqb u u'
  | TUnion l, TUnion l' => list_eqb ty_eqb l l'
  | TComp k l, TComp k' l' => ck_eqb k k' && list_eqb ty_eqb l l'
  | TSig k s l o, TSig k' s' l' o' => sk_eqb k k' && (s =? s') && list_eqb ty_eqb l l' && opt_eqb ty_eqb o o'
  | TWith f s l o, TWith f' s' l' o' => ty_eqb f f' && (s =? s') && list_eqb ty_eqb l l' && opt_eqb ty_eqb o o'
  | _, _ => false
  end.

(** A set made of a list, crates/tinymist-analysis/src/ty/simplify.rs:272-274. *)
Fixpoint dedup (l : list ty) : list ty :=
  match l with
  | [] => []
  | t :: l' => if existsb (ty_eqb t) l' then dedup l' else t :: dedup l'
  end.

(** [sort], crates/tinymist-analysis/src/ty/simplify.rs:294-297 and
    crates/tinymist-analysis/src/ty/def.rs:167; [ord] is the order of types. *)
Fixpoint insert (ord : ty -> ty -> bool) (t : ty) (l : list ty) : list ty :=
  match l with
  | [] => [t]
  | u :: l' => if ord t u then t :: l else u :: insert ord t l'
  end.
(** crates/tinymist-analysis/src/ty/simplify.rs:294-297 *)
Definition sort (ord : ty -> ty -> bool) (l : list ty) : list ty := fold_right (insert ord) [] l.

(** The end of [transform_let], crates/tinymist-analysis/src/ty/simplify.rs:282-299. *)
Definition collapse (ord : ty -> ty -> bool) (lbs ubs : list ty) : ty :=
  match lbs, ubs with
  | [x], [] => x
  | [], [] => TAny
  | [], [u] => u
  | _, _ => TLet (sort ord lbs) (sort ord ubs)
  end.

(** [from_types], crates/tinymist-analysis/src/ty/def.rs:153-169. *)
Definition from_types (ord : ty -> ty -> bool) (l : list ty) : ty :=
  match l with
  | [] => TAny
  | [t] => t
  | _ => TUnion (sort ord l)
  end.

(** Is it [Any]?  crates/tinymist-analysis/src/ty/simplify.rs:229. *)
Definition is_any (t : ty) : bool := match t with TAny => true | _ => false end.

(** The cache of variables, crates/tinymist-analysis/src/ty/simplify.rs:47; the
    second part of the keys is the same for all. *)
Definition cache := list (nat * ty).

(** A list of types one after the other, [transform_seq],
    crates/tinymist-analysis/src/ty/simplify.rs:253-256. *)
Definition tr_seq (f : ty -> cache -> option (ty * cache)) :=
  fix go (l : list ty) (c : cache) : option (list ty * cache) :=
    match l with
    | [] => Some ([], c)
    | t :: l' =>
        match f t c with
        | None => None
        | Some (r, c1) => match go l' c1 with None => None | Some (rs, c2) => Some (r :: rs, c2) end
        end
    end.

(** The same for a type that may be missing,
    crates/tinymist-analysis/src/ty/simplify.rs:305-307. *)
Definition tr_opt (f : ty -> cache -> option (ty * cache)) (o : option ty) (c : cache) : option (option ty * cache) :=
  match o with
  | None => Some (None, c)
  | Some t => match f t c with None => None | Some (r, c1) => Some (Some r, c1) end
  end.

(** [transform_let], crates/tinymist-analysis/src/ty/simplify.rs:258-300. *)
Definition transform_let (ord : ty -> ty -> bool) (principal : bool) (s : list nat * list nat)
    (tr : bool -> ty -> cache -> option (ty * cache)) (lbs ubs : list ty) (decl : option nat) (pol : bool) (c : cache)
    : option (ty * cache) :=
  let among l := match decl with Some d => mem d l | None => false end in
  match (if negb principal || (pol && negb (among (snd s))) then tr_seq (tr pol) lbs c else Some ([], c)) with
  | None => None
  | Some (l, c1) =>
      match (if negb principal || (negb pol && negb (among (fst s))) then tr_seq (tr (negb pol)) ubs c1 else Some ([], c1)) with
      | None => None
      | Some (u, c2) => Some (collapse ord (dedup l) (dedup u), c2)
      end
  end.

(** [transform_sig], crates/tinymist-analysis/src/ty/simplify.rs:302-311. *)
Definition transform_sig (tr : bool -> ty -> cache -> option (ty * cache)) (ins : list ty) (body : option ty) (pol : bool)
    (c : cache) : option (list ty * option ty * cache) :=
  match tr_seq (tr (negb pol)) ins c with
  | None => None
  | Some (l, c1) => match tr_opt (tr pol) body c1 with None => None | Some (o, c2) => Some (l, o, c2) end
  end.

(** [transform], given what is done with a variable,
    crates/tinymist-analysis/src/ty/simplify.rs:165-251. *)
Fixpoint transform_at (ord : ty -> ty -> bool) (principal : bool) (s : list nat * list nat)
    (var : nat -> bool -> cache -> option (ty * cache)) (pol : bool) (t : ty) (c : cache) {struct t} : option (ty * cache) :=
  match t with
  | TAny => Some (TAny, c)
  | TLeaf n => Some (TLeaf n, c)
  | TVar v => var v pol c
  | TLet lbs ubs => transform_let ord principal s (transform_at ord principal s var) lbs ubs None pol c
  | TUnion ts =>
      match tr_seq (transform_at ord principal s var pol) ts c with
      | None => None
      | Some (l, c1) => Some (from_types ord (filter (fun t => negb (is_any t)) l), c1)
      end
  | TComp k ts =>
      match tr_seq (transform_at ord principal s var pol) ts c with
      | None => None
      | Some (l, c1) => Some (TComp k l, c1)
      end
  | TSig k sh ins body =>
      let pol' := match k with SFunc => pol | _ => negb pol end in
      match transform_sig (transform_at ord principal s var) ins body pol' c with
      | None => None
      | Some (l, o, c1) => Some (TSig k sh l o, c1)
      end
  | TWith f sh ins body =>
      match transform_at ord principal s var pol f c with
      | None => None
      | Some (g, c1) =>
          match transform_sig (transform_at ord principal s var) ins body (negb pol) c1 with
          | None => None
          | Some (l, o, c2) => Some (TWith g sh l o, c2)
          end
      end
  end.

(** What is done with a variable: the result in the cache, or [Any] is put
    there while its bounds are transformed.
    crates/tinymist-analysis/src/ty/simplify.rs:168-191. *)
Fixpoint transform_var (ord : ty -> ty -> bool) (principal : bool) (s : list nat * list nat) (fuel : nat) (V : vars)
    (v : nat) (pol : bool) (c : cache) : option (ty * cache) :=
  match get v c with
  | Some r => Some (r, c)
  | None =>
      match get v V, fuel with
      | Some (lbs, ubs), S fuel' =>
          match transform_let ord principal s (transform_at ord principal s (transform_var ord principal s fuel' V))
                  lbs ubs (Some v) pol ((v, TAny) :: c) with
          | None => None
          | Some (r, c1) => Some (r, (v, r) :: c1)
          end
      | _, _ => None
      end
  end.

(** [simplify], crates/tinymist-analysis/src/ty/simplify.rs:19-61.  The cache
    [cano_cache] is never written, so it is left out; the fuel is enough
    (C119_total). *)
Definition simplify (ord : ty -> ty -> bool) (V : vars) (t : ty) (principal : bool) : option ty :=
  match analyze_at (analyze_var (2 * length V) V) true t ([], []) with
  | None => None
  | Some s =>
      match transform_at ord principal s (transform_var ord principal s (length V) V) true t [] with
      | None => None
      | Some (r, _) => Some r
      end
  end.
