(** Constraints between types and what is done with the variables of the type
    checker: crates/tinymist-query/src/analysis/tyck.rs,
    crates/tinymist-analysis/src/ty/subst.rs, mutate.rs and def.rs.  The types
    are those of [SimpModel]. *)
From Coq Require Import List Arith Bool.
From Verif Require Import SimpModel.
Import ListNotations.

(** What a leaf is: one of the builtins that a block leaves without a value
    (space, none, clause, no flow); one of the six builtins that stand for a
    dictionary as well (stroke, margin, inset, outset, radius, text font) with
    that dictionary; a type; a value with its type; or any other.
    crates/tinymist-query/src/analysis/tyck.rs:244-263,313-374,527-537,571-572,
    crates/tinymist-analysis/src/ty/builtin.rs:618-746. *)
Inductive leaf :=
| LPlain
| LSilent
| LFlow (names : list nat) (types : list ty)
| LType
| LValue (is_type : bool) (lift : ty).

(** What the numbers in types stand for: the rest of a signature (its names,
    where the named inputs start, whether the last input is a spread), a leaf,
    and the leaves for none and undefined.
    crates/tinymist-analysis/src/ty/def.rs:779-800,
    crates/tinymist-query/src/analysis/tyck.rs:577,622. *)
Record env := {
  shape_of : nat -> list nat * nat * bool;
  leaf_of : nat -> leaf;
  none_leaf : nat;
  undef_leaf : nat
}.

(** A signature: its shape, its inputs and its body,
    crates/tinymist-analysis/src/ty/def.rs:779-800. *)
Record sg := { sh_ : nat; ins_ : list ty; body_ : option ty }.

(** crates/tinymist-analysis/src/ty/def.rs:948-951 *)
Definition pos_of (e : env) (g : sg) : list ty :=
  let '(_, start, _) := shape_of e (sh_ g) in firstn start (ins_ g).

(** [slice::last], crates/tinymist-analysis/src/ty/def.rs:994. *)
Fixpoint last_opt {A} (l : list A) : option A :=
  match l with [] => None | [a] => Some a | _ :: l' => last_opt l' end.

(** crates/tinymist-analysis/src/ty/def.rs:992-998 *)
Definition rest_of (e : env) (g : sg) : option ty :=
  let '(_, _, spread) := shape_of e (sh_ g) in if spread then last_opt (ins_ g) else None.

(** crates/tinymist-analysis/src/ty/def.rs:926-928 *)
Definition bone_of (e : env) (g : sg) : list nat :=
  let '(names, _, _) := shape_of e (sh_ g) in names.

(** crates/tinymist-analysis/src/ty/def.rs:936-938 *)
Definition field_of (e : env) (g : sg) (i : nat) : option ty :=
  let '(_, start, _) := shape_of e (sh_ g) in nth_error (ins_ g) (i + start).

(** The indices of the names that two bones have in common, as found by going
    through both in order.  crates/tinymist-analysis/src/ty/def.rs:373-404. *)
Fixpoint intersect (l : list nat) (i : nat) : list nat -> nat -> list (nat * nat) :=
  match l with
  | [] => fun _ _ => []
  | x :: l' =>
      fix go (r : list nat) (j : nat) {struct r} : list (nat * nat) :=
        match r with
        | [] => []
        | y :: r' =>
            if x <? y then intersect l' (S i) r j
            else if y <? x then go r' (S j)
            else (i, j) :: intersect l' (S i) r' (S j)
        end
  end.

(** The types of the common fields, crates/tinymist-analysis/src/ty/def.rs:487-501. *)
Definition common (n1 : list nat) (f1 : nat -> option ty) (n2 : list nat) (f2 : nat -> option ty) : list (ty * ty) :=
  flat_map (fun p => match f1 (fst p), f2 (snd p) with Some a, Some b => [(a, b)] | _, _ => [] end) (intersect n1 0 n2 0).

(** The first [n] of a list followed by its spread again and again,
    crates/tinymist-analysis/src/ty/def.rs:1027-1028. *)
Definition stream (n : nat) (l : list ty) (r : option ty) : list ty :=
  firstn n (l ++ match r with Some t => repeat t n | None => [] end).

(** The pairs of a parameter and an argument: those by position, then those by
    name.  crates/tinymist-analysis/src/ty/def.rs:1001-1041; [withs] are the
    arguments given before, the last ones first in the list. *)
Definition matches (e : env) (g args : sg) (withs : option (list sg)) : list (ty * ty) :=
  let ws := match withs with Some l => l | None => [] end in
  let with_len := fold_right (fun w n => length (pos_of e w) + n) 0 ws in
  let both := match rest_of e g, rest_of e args with Some _, Some _ => 1 | _, _ => 0 end in
  let max_len := Nat.max (length (pos_of e g)) (with_len + length (pos_of e args)) + both in
  let arg_pos := flat_map (pos_of e) (rev ws) ++ pos_of e args in
  combine (stream max_len (pos_of e g) (rest_of e g)) (stream max_len arg_pos (rest_of e args))
    ++ flat_map (fun w => common (bone_of e g) (field_of e g) (bone_of e w) (field_of e w)) (rev ws ++ [args]).

(** The bounds of a variable and whether it is weak,
    crates/tinymist-analysis/src/ty/def.rs:1350-1400. *)
Record bounds := { weak : bool; lows : list ty; ups : list ty }.

(** A call as remembered, crates/tinymist-query/src/analysis/tyck.rs:78-82. *)
Record call := { c_sig : sg; c_args : sg; c_withs : option (list sg) }.

(** What the checker changes: the variables, the calls seen,
    crates/tinymist-query/src/analysis/tyck.rs:84-94. *)
Record st := { vars_ : list (nat * bounds); seen : list call }.

(** Insertion into a set of types, [insert_mut] at
    crates/tinymist-query/src/analysis/tyck.rs:288,299. *)
Definition add (t : ty) (l : list ty) : list ty := if existsb (ty_eqb t) l then l else t :: l.

(** Equality of signatures and of calls as in the set of calls,
    crates/tinymist-query/src/analysis/tyck.rs:78-82,234. *)
Definition sg_eqb (a b : sg) : bool :=
  (sh_ a =? sh_ b) && list_eqb ty_eqb (ins_ a) (ins_ b) && opt_eqb ty_eqb (body_ a) (body_ b).
(** crates/tinymist-query/src/analysis/tyck.rs:78-82,234 *)
Definition call_eqb (a b : call) : bool :=
  sg_eqb (c_sig a) (c_sig b) && sg_eqb (c_args a) (c_args b) && opt_eqb (list_eqb sg_eqb) (c_withs a) (c_withs b).

(** A new entry in place of the old one, [get_mut] at
    crates/tinymist-query/src/analysis/tyck.rs:282,464. *)
Fixpoint put {A} (k : nat) (a : A) (l : list (nat * A)) : list (nat * A) :=
  match l with
  | [] => []
  | (x, b) :: l' => if k =? x then (x, a) :: l' else (x, b) :: put k a l'
  end.

(** A bound above a variable; [None]: the variable is not known, the [unwrap]
    panics.  crates/tinymist-query/src/analysis/tyck.rs:280-291. *)
Definition upper (v : nat) (t : ty) (s : st) : option st :=
  match get v (vars_ s) with
  | None => None
  | Some b => Some {| vars_ := put v {| weak := weak b; lows := lows b; ups := add t (ups b) |} (vars_ s); seen := seen s |}
  end.

(** crates/tinymist-query/src/analysis/tyck.rs:527-537 *)
Definition weaken_constraint (e : env) (t : ty) (w : bool) : ty :=
  if w then match t with
            | TLeaf n => match leaf_of e n with LValue _ u => u | _ => t end
            | _ => t
            end
  else t.

(** A bound below a variable, crates/tinymist-query/src/analysis/tyck.rs:292-302. *)
Definition lower (e : env) (v : nat) (t : ty) (s : st) : option st :=
  match get v (vars_ s) with
  | None => None
  | Some b =>
      Some {| vars_ := put v {| weak := weak b; lows := add (weaken_constraint e t (weak b)) (lows b); ups := ups b |} (vars_ s);
              seen := seen s |}
  end.

(** The inputs of a signature against arguments, unless that was done,
    crates/tinymist-query/src/analysis/tyck.rs:227-241. *)
Definition sig_inputs (rec : ty -> ty -> st -> option st) (e : env) (c : call) (s : st) : option st :=
  if existsb (call_eqb c) (seen s) then Some s
  else each (fun p => rec (snd p) (fst p)) (matches e (c_sig c) (c_args c) (c_withs c))
         {| vars_ := vars_ s; seen := c :: seen s |}.

(** The dictionary a builtin stands for, crates/tinymist-query/src/analysis/tyck.rs:244-255,313-374. *)
Definition flow_of (e : env) (t : ty) : option ty :=
  match t with
  | TLeaf n => match leaf_of e n with LFlow names types => Some (TComp (CDict names) types) | _ => None end
  | _ => None
  end.

(** crates/tinymist-query/src/analysis/tyck.rs:257-263 *)
Definition is_ty (e : env) (t : ty) : bool :=
  match t with
  | TLeaf n => match leaf_of e n with LType => true | LValue b _ => b | _ => false end
  | _ => false
  end.

(** crates/tinymist-analysis/src/ty/def.rs:140-142 *)
Definition is_dict (t : ty) : bool := match t with TComp (CDict _) _ => true | _ => false end.

(** The number of the operator [TypeOf], crates/tinymist-query/src/analysis/tyck.rs:392,397. *)
Definition type_of : nat := 0.

(** The patterns of [constrain]: a variable, a union, a dictionary, a unary
    operation, a function.  crates/tinymist-query/src/analysis/tyck.rs:270,280,
    292,303,308. *)
Definition var_of (t : ty) : option nat := match t with TVar v => Some v | _ => None end.
(** crates/tinymist-query/src/analysis/tyck.rs:303,308 *)
Definition union_of (t : ty) : option (list ty) := match t with TUnion l => Some l | _ => None end.
(** crates/tinymist-query/src/analysis/tyck.rs:375 *)
Definition dict_of (t : ty) : option (list nat * list ty) := match t with TComp (CDict n) l => Some (n, l) | _ => None end.
(** crates/tinymist-query/src/analysis/tyck.rs:387,392,397 *)
Definition unary_of (t : ty) : option (nat * ty) := match t with TComp (CUnary o) [x] => Some (o, x) | _ => None end.
(** crates/tinymist-query/src/analysis/tyck.rs:404 *)
Definition func_of (t : ty) : option sg :=
  match t with TSig SFunc sh l o => Some {| sh_ := sh; ins_ := l; body_ := o |} | _ => None end.

(** [constrain]: the left type is to be below the right one.  [None]: a panic,
    or not enough fuel.  crates/tinymist-query/src/analysis/tyck.rs:243-425. *)
Fixpoint constrain (fuel : nat) (e : env) (a b : ty) (s : st) : option st :=
  match fuel with
  | 0 => None
  | S n =>
      if ty_eqb a b then Some s
      else
        match var_of a, var_of b with
        | Some _, Some _ => Some s
        | Some v, None => upper v b s
        | None, Some v => lower e v a s
        | None, None =>
        match union_of a, union_of b with
        | Some l, _ => each (fun t => constrain n e t b) l s
        | None, Some l => each (fun t => constrain n e a t) l s
        | None, None =>
        match flow_of e b, flow_of e a with
        | Some d, _ => if is_dict a then constrain n e a d s else Some s
        | None, Some d => if is_dict b then constrain n e d b s else Some s
        | None, None =>
        match dict_of a, dict_of b with
        | Some (n1, l1), Some (n2, l2) =>
            each (fun p => constrain n e (fst p) (snd p)) (common n1 (nth_error l1) n2 (nth_error l2)) s
        | _, _ =>
        match unary_of a, unary_of b with
        | Some (o1, x), Some (o2, y) => if o1 =? o2 then constrain n e x y s else Some s
        | Some (o, x), None => if (o =? type_of) && is_ty e b then constrain n e x b s else Some s
        | None, Some (o, y) => if (o =? type_of) && is_ty e a then constrain n e a y s else Some s
        | None, None =>
        match func_of a, func_of b with
        | Some g1, Some g2 => sig_inputs (constrain n e) e {| c_sig := g1; c_args := g2; c_withs := None |} s
        | _, _ => Some s
        end end end end end end
  end.

(** [weaken] of a variable, crates/tinymist-query/src/analysis/tyck.rs:463-466
    and crates/tinymist-analysis/src/ty/def.rs:1381-1388. *)
Definition weaken_var (v : nat) (s : st) : option st :=
  match get v (vars_ s) with
  | None => None
  | Some b => Some {| vars_ := put v {| weak := true; lows := lows b; ups := ups b |} (vars_ s); seen := seen s |}
  end.

(** [weaken]: the variables in a type become weak, those in bodies of
    signatures excepted.  crates/tinymist-query/src/analysis/tyck.rs:461-525; a
    dictionary has as many types as names (crates/tinymist-analysis/src/ty/def.rs:722-750). *)
Fixpoint weaken (t : ty) (s : st) {struct t} : option st :=
  match t with
  | TAny | TLeaf _ => Some s
  | TVar v => weaken_var v s
  | TLet l u => match each weaken l s with Some s1 => each weaken u s1 | None => None end
  | TUnion l | TComp _ l => each weaken l s
  | TSig _ _ l _ => each weaken l s
  | TWith f _ l _ => match weaken f s with Some s1 => each weaken l s1 | None => None end
  end.

(** What the checker does with its variables: a constraint, a call, a
    weakening.  crates/tinymist-query/src/analysis/tyck.rs:227-243,461 and
    crates/tinymist-query/src/analysis/tyck/apply.rs:145-148. *)
Inductive op := OCon (a b : ty) | OCall (c : call) | OWeak (t : ty).

(** crates/tinymist-query/src/analysis/tyck.rs:227-243,461 *)
Definition do_op (fuel : nat) (e : env) (o : op) (s : st) : option st :=
  match o with
  | OCon a b => constrain fuel e a b s
  | OCall c => sig_inputs (constrain fuel e) e c s
  | OWeak t => weaken t s
  end.

(** One after the other, crates/tinymist-query/src/analysis/tyck.rs:59. *)
Definition run (fuel : nat) (e : env) (os : list op) (s : st) : option st := each (do_op fuel e) os s.

(** [check_containing], crates/tinymist-query/src/analysis/tyck.rs:437-449;
    [elem_of] and [not_elem_of] are the numbers of these operators. *)
Definition containing (elem_of not_elem_of : nat) (container elem : ty) (expected : bool) : op :=
  OCon elem (if expected then match container with
                              | TComp CTuple l => TUnion l
                              | _ => TComp (CUnary elem_of) [container]
                              end
             else TComp (CUnary not_elem_of) [container]).

(** [possible_ever_be], crates/tinymist-query/src/analysis/tyck.rs:451-459. *)
Definition ever_be (a b : ty) : list op :=
  match b with TLeaf _ => [OCon b a] | _ => [] end.

(** All of a list through a function that tells whether it changed something,
    crates/tinymist-analysis/src/ty/mutate.rs:28-47. *)
Definition mutate_all (f : ty -> option ty) :=
  fix go (l : list ty) : list ty * bool :=
    match l with
    | [] => ([], false)
    | t :: l' =>
        let '(r, m) := go l' in
        match f t with Some u => (u :: r, true) | None => (t :: r, m) end
    end.
(** crates/tinymist-analysis/src/ty/mutate.rs:28-47 *)
Definition mutate_vec (f : ty -> option ty) (l : list ty) : option (list ty) :=
  let '(r, m) := mutate_all f l in if m then Some r else None.

(** crates/tinymist-analysis/src/ty/mutate.rs:49-54 *)
Definition mutate_option (f : ty -> option ty) (o : option ty) : option (option ty) :=
  match o with
  | Some t => match f t with Some u => Some (Some u) | None => None end
  | None => None
  end.

(** [Option::unwrap_or_else], crates/tinymist-analysis/src/ty/mutate.rs:65-66. *)
Definition or_else {A} (o : option A) (a : A) : A := match o with Some x => x | None => a end.

(** crates/tinymist-analysis/src/ty/mutate.rs:56-72 *)
Definition mutate_func (f : ty -> option ty) (l : list ty) (o : option ty) : option (list ty * option ty) :=
  match mutate_vec f l, mutate_option f o with
  | None, None => None
  | l', o' => Some (or_else l' l, or_else o' o)
  end.

(** The bound variables of a type replaced; [None]: there are none.
    crates/tinymist-analysis/src/ty/mutate.rs:7-151 with [mutate] of
    crates/tinymist-analysis/src/ty/subst.rs:43-54.  That of arrays,
    parameters, selections and operations is that of a list. *)
Fixpoint subst (B : list (nat * ty)) (t : ty) {struct t} : option ty :=
  match t with
  | TAny | TLeaf _ | TLet _ _ => None
  | TVar v => get v B
  | TUnion l => match mutate_vec (subst B) l with Some l' => Some (TUnion l') | None => None end
  | TComp k l => match mutate_vec (subst B) l with Some l' => Some (TComp k l') | None => None end
  | TSig k sh l o =>
      match mutate_func (subst B) l o with Some (l', o') => Some (TSig k sh l' o') | None => None end
  | TWith f sh l o =>
      match subst B f, mutate_func (subst B) l o with
      | None, None => None
      | f', Some (l', o') => Some (TWith (or_else f' f) sh l' o')
      | f', None => Some (TWith (or_else f' f) sh l o)
      end
  end.

(** The parameters that are variables are bound to their arguments,
    crates/tinymist-analysis/src/ty/subst.rs:22-27; the newest first. *)
Fixpoint bind_all (ps : list (ty * ty)) (B : list (nat * ty)) : list (nat * ty) :=
  match ps with
  | [] => B
  | (TVar v, t) :: ps' => bind_all ps' ((v, t) :: B)
  | _ :: ps' => bind_all ps' B
  end.

(** [Sig::call] of a signature with what was given before: the result, and the
    local binds after it.  crates/tinymist-analysis/src/ty/subst.rs:4-31; the
    scope is left at its end ([with_scope] at crates/tinymist-analysis/src/ty/mod.rs:61-66). *)
Definition sig_call (e : env) (B : list (nat * ty)) (g args : sg) (withs : option (list sg)) : option ty * list (nat * ty) :=
  (match body_ g with
   | None => None
   | Some b => Some (or_else (subst (bind_all (matches e g args withs) B) b) b)
   end, B).

(** What has been joined, crates/tinymist-query/src/analysis/tyck.rs:540-544;
    the flag is never set. *)
Record joiner := { definite : ty; possibles : list ty }.

(** crates/tinymist-query/src/analysis/tyck.rs:618-626 *)
Definition joiner0 (e : env) : joiner := {| definite := TLeaf (none_leaf e); possibles := [] |}.

(** The builtins that leave what is joined as it is,
    crates/tinymist-query/src/analysis/tyck.rs:571-572. *)
Definition silent (e : env) (t : ty) : bool :=
  match t with TLeaf n => match leaf_of e n with LSilent => true | _ => false end | _ => false end.

(** [join], crates/tinymist-query/src/analysis/tyck.rs:565-616. *)
Definition join (e : env) (t : ty) (j : joiner) : joiner :=
  if silent e t then j
  else match t, definite j with
       | TAny, _ | _, TAny => j
       | TVar _, _ => {| definite := definite j; possibles := possibles j ++ [t] |}
       | _, d => {| definite := if ty_eqb d (TLeaf (none_leaf e)) then t else TLeaf (undef_leaf e); possibles := possibles j |}
       end.

(** [finalize], crates/tinymist-query/src/analysis/tyck.rs:546-563. *)
Definition finalize (j : joiner) : ty :=
  match possibles j with
  | [] => definite j
  | [t] => t
  | _ => TAny
  end.

(** The type of a block, crates/tinymist-query/src/analysis/tyck/syntax.rs:46-54. *)
Definition block (e : env) (ts : list ty) : ty := finalize (fold_left (fun j t => join e t j) ts (joiner0 e)).
