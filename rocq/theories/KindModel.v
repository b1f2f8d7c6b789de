(** Model of the kinds of completions and of completions of functions: crates/tinymist-query/src/analysis/completion/kind.rs, func.rs and scope.rs in the same directory. *)
From Coq Require Import List Arith Bool.
Import ListNotations.

(** [SigTy] as kind.rs:218-231 sees it: whether each positional parameter is content, how many are named, and whether there is a rest. *)
Record sig := mkSig { s_pos : list bool; s_named : nat; s_rest : bool }.
(** [Ty] as kind.rs:20-65,100-215,234-259 sees it.  Values: functions (for elements, whether a parameter is settable; whether all parameters are "self"; the signature), types (the signature of the constructor if there is one), symbols, modules, others;
    functions; functions with arguments, by the number of positional ones; builtin types: types and the types of types (with constructors likewise), elements, modules, others; any type; bounds; unions; all others. *)
Inductive ty :=
  | VFunc (elem : option bool) (only_self : bool) (s : sig) | VType (k0 : option sig) | VSym (s : nat) | VModule | VOther
  | Func (s : sig) | With (n : nat) (t : ty)
  | BType (k0 : option sig) | BTypeType (k0 : option sig) | BElem (settable : bool) (s : sig) | BModule | BOther
  | Any | Let (ubs lbs : list ty) | Union (ts : list ty) | Other.

(** [CompletionKindChecker], kind.rs:7-10; sets as lists. *)
Record checker := mkChecker { c_symbols : list nat; c_functions : list ty }.
(** kind.rs:14-17 [reset]. *)
Definition reset (c : checker) : checker := mkChecker [] [].
(** kind.rs:20-65 [check]. *)
Fixpoint check (t : ty) (c : checker) : checker :=
  let c := reset c in
  let func := mkChecker (c_symbols c) (t :: c_functions c) in
  let each := fix each ts c := match ts with [] => c | x :: r => each r (check x c) end in
  match t with
  | VType (Some _) => func
  | VFunc _ _ _ => func
  | VSym s => mkChecker (s :: c_symbols c) (c_functions c)
  | Func _ | With _ _ => func
  | BTypeType (Some _) => func
  | BElem _ _ => func
  | Let ubs lbs => each lbs (each ubs c)
  | _ => c
  end.

(** [FnCompletionFeat], kind.rs:69-77. *)
Record feat := mkFeat { f_min_pos : option nat; f_only_self : bool; f_min_named : option nat; f_bound_self : bool; f_rest : bool; f_content : bool; f_elem : bool }.
(** kind.rs:218-231 [check_sig]. *)
Definition check_sig (f : feat) (s : sig) (idx : nat) : feat :=
  let left_ := length (s_pos s) - idx in
  mkFeat
    (match f_min_pos f with None => Some left_ | Some v => Some (Nat.min v left_) end)
    (f_only_self f)
    (match f_min_named f with None => Some (s_named s) | Some v => Some (Nat.min v (s_named s)) end)
    (f_bound_self f)
    (f_rest f || s_rest s)
    (f_content f || match nth_error (s_pos s) idx with Some b => b | None => false end)
    (f_elem f).
(** kind.rs:154 and 108: it is an element. *)
Definition set_elem (f : feat) : feat := mkFeat (f_min_pos f) (f_only_self f) (f_min_named f) (f_bound_self f) (f_rest f) (f_content f) true.
(** kind.rs:111-116. *)
Definition set_self (f : feat) (only_self : bool) : feat := mkFeat (f_min_pos f) (f_only_self f || (f_bound_self f && only_self)) (f_min_named f) (f_bound_self f) (f_rest f) (f_content f) (f_elem f).
(** kind.rs:159-165: a builtin type. *)
Definition check_cons (f : feat) (k0 : option sig) (pos : nat) : feat := match k0 with Some s => check_sig f s pos | None => f end.
(** kind.rs:100-215 [check_one]. *)
Fixpoint check_one (f : feat) (t : ty) (pos : nat) : feat :=
  match t with
  | VType k0 => check_cons f k0 pos
  | VFunc elem only_self s =>
      let f := match elem with Some _ => set_elem f | None => f end in
      check_sig (set_self f only_self) s pos
  | Func s => check_sig f s pos
  | With n u => check_one f u (pos + n)
  | BElem _ s => check_sig (set_elem f) s pos
  | BType k0 => check_cons f k0 pos
  | _ => f
  end.
(** kind.rs:68-86: [FnCompletionFeat::default] with [bound_self], and [check]. *)
Definition feat_of (bound_self : bool) (fns : list ty) : feat := fold_left (fun f t => check_one f t 0) fns (mkFeat None false None bound_self false false false).
(** kind.rs:88-90 [min_pos]. *)
Definition min_pos (f : feat) : nat := match f_min_pos f with Some n => n | None => 0 end.
(** kind.rs:96-98 [min_named]. *)
Definition min_named (f : feat) : nat := match f_min_named f with Some n => n | None => 0 end.

(** [CompletionKind], as far as kind.rs:234-308 makes it. *)
Inductive kind := KFunc | KVariable | KModule | KType | KSymbol (s : nat) | KConstant.
(** Equality of kinds, for kind.rs:265. *)
Definition kind_eqb (a b : kind) : bool :=
  match a, b with KFunc, KFunc | KVariable, KVariable | KModule, KModule | KType, KType | KConstant, KConstant => true | KSymbol s, KSymbol t => s =? t | _, _ => false end.
(** kind.rs:262-272: one step of the fold. *)
Definition fold_step (acc : option kind) (k : kind) : option kind :=
  match acc with
  | Some KVariable => Some KVariable
  | Some a => if kind_eqb a k then Some a else Some KVariable
  | None => Some k
  end.
(** kind.rs:234-275 [type_to_completion_kind] and [fold_ty_kind], with kind.rs:277-308 [value_to_completion_kind]. *)
Fixpoint type_to_kind (t : ty) : kind :=
  let fold := fix fold acc ts := match ts with [] => acc | x :: r => fold (fold_step acc (type_to_kind x)) r end in
  match t with
  | VFunc _ _ _ => KFunc | VModule => KModule | VType _ => KType | VSym s => KSymbol s | VOther => KVariable
  | Func _ | With _ _ => KFunc
  | Any => KVariable
  | BModule => KModule | BType _ | BTypeType _ => KType | BElem _ _ | BOther => KVariable
  | Let ubs lbs => match fold (fold None ubs) lbs with Some k => k | None => KVariable end
  | Union ts => match fold None ts with Some k => k | None => KVariable end
  | Other => KConstant
  end.

(** [SurroundingSyntax], as scope.rs:123-151 has it. *)
Inductive around := Regular | StringContent | ImportList | ParamList | Selector | ShowTransform | SetRule.
(** What is put in for a function: its name, with empty parentheses, with parentheses or brackets to fill in, or with a call of "with" or "where" (func.rs:33-84). *)
Inductive apply := Plain | Call0 | Call | Bracket | CallWith | CallWhere.
(** func.rs:6-87 [func_completion], what is put in; math is whether the mode is that of math. *)
Definition func_completion (math : bool) (a : around) (f : feat) (parens : bool) : list apply :=
  (if match a with ShowTransform => true | _ => false end && ((0 <? min_pos f) || (0 <? min_named f)) then [CallWith] else []) ++
  (if f_elem f && match a with Selector => true | _ => false end then [CallWhere] else []) ++
  (let bad := match a with Selector | SetRule => true | _ => false end && negb (f_elem f) in
   if bad then []
   else if negb parens || match a with Selector => true | _ => false end then [Plain]
   else if ((min_pos f <? 1) || f_only_self f) && negb (f_rest f) then [Call0]
   else
     let accept := f_content f && negb (f_rest f) in
     let reject := math || match a with Selector | SetRule => true | _ => false end in
     Call :: if negb reject && accept then [Bracket] else []).
(** [element] of a type (crates/tinymist-analysis/src/ty/def.rs:222-231), with whether a parameter is settable, for scope.rs:142-147. *)
Definition settable (t : ty) : bool := match t with VFunc (Some b) _ _ => b | BElem b _ => b | _ => false end.
(** scope.rs:122-151: the filter. *)
Definition shown (a : around) (c : checker) : bool :=
  match a with
  | Regular => true
  | StringContent | ImportList | ParamList => false
  | Selector | ShowTransform => true
  | SetRule => existsb settable (c_functions c)
  end.
(** A completion: a symbol, a function, or a name of a kind (scope.rs:165-193). *)
Inductive item := ISymbol (name s : nat) | IFunc (name : nat) (a : apply) | IName (name : nat) (k : kind).
(** [min_by_key], scope.rs:165, with symbols by their characters. *)
Definition least (l : list nat) : option nat := match l with [] => None | x :: r => Some (fold_left Nat.min r x) end.
(** One name, scope.rs:155-193; the name 0 is the empty one. *)
Definition one (math : bool) (a : around) (parens : bool) (c : checker) (d : nat * ty) : list item * checker :=
  let '(name, t) := d in
  if name =? 0 then ([], c)
  else
    let c := check t c in
    (if negb (shown a c) then []
     else match least (c_symbols c) with
       | Some s => [ISymbol name s]
       | None =>
           match c_functions c with
           | [] => [IName name (type_to_kind t)]
           | fs => map (IFunc name) (func_completion math a (feat_of false fs) parens)
           end
       end, c).
(** scope.rs:154-193: the names in order, with one checker. *)
Fixpoint names (math : bool) (a : around) (parens : bool) (c : checker) (ds : list (nat * ty)) : list item :=
  match ds with [] => [] | d :: r => let '(is, c') := one math a parens c d in is ++ names math a parens c' r end.
(** scope.rs:110-194 [def_completions]. *)
Definition def_completions (math : bool) (a : around) (parens : bool) (ds : list (nat * ty)) : list item := names math a parens (mkChecker [] []) ds.
