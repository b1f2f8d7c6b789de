(** Model of what is in scope at a position and which fields types have, as completion gathers them: crates/tinymist-query/src/analysis/completion/scope.rs ("sc.rs"). *)
From Coq Require Import List Arith Bool.
Import ListNotations.

(** [Ty] as far as it is made here: any (sc.rs:69,232), a value (sc.rs:37,246), a value with what it is bound to (sc.rs:249), a type that may be none (sc.rs:300-302), the type of a value (sc.rs:296), and others by number. *)
Inductive ty := TAny | TVal (v : nat) | TWith (v : nat) (self : ty) | TOpt (t : ty) | TType (t : nat) | TOther (t : nat).
(** [Defines::defines], sc.rs:13: sorted by names, which are numbers; 0 is the empty name. *)
Definition defs := list (nat * ty).
(** [BTreeMap::entry] if vacant, sc.rs:23-26. *)
Fixpoint put (n : nat) (t : ty) (d : defs) : defs :=
  match d with
  | [] => [(n, t)]
  | (m, u) :: r => if n <? m then (n, t) :: d else if n =? m then d else (m, u) :: put n t r
  end.
(** sc.rs:18-27 [insert]. *)
Definition insert (n : nat) (t : ty) (d : defs) : defs := if n =? 0 then d else put n t d.
(** [BTreeMap::contains_key], sc.rs:36. *)
Definition has (n : nat) (d : defs) : bool := existsb (fun x => fst x =? n) d.
(** sc.rs:33-40 [insert_scope]; a scope is a list of names and values. *)
Definition insert_scope (s : list (nat * nat)) (d : defs) : defs :=
  fold_left (fun d x => if has (fst x) d then d else insert (fst x) (TVal (snd x)) d) s d.
(** [Defines::docs], sc.rs:14, and [BTreeMap::insert], which replaces, sc.rs:309-311. *)
Fixpoint put_doc (n doc : nat) (d : list (nat * nat)) : list (nat * nat) :=
  match d with
  | [] => [(n, doc)]
  | (m, u) :: r => if n <? m then (n, doc) :: d else if n =? m then (n, doc) :: r else (m, u) :: put_doc n doc r
  end.
(** [ScopeCheckKind], sc.rs:208-211. *)
Inductive check_kind := Import | FieldAccess.
(** [Iface], crates/tinymist-analysis/src/ty/iface.rs:8-39 with [to_type] there (sc.rs:321,324): elements, types, functions, dictionaries and modules are numbers or lists. *)
Inductive iface :=
  | IArray (t : ty) | ITuple (t : ty) | IDict (t : ty) (fields : list (nat * ty))
  | IContent (elem : nat) | ITypeType (t : nat) | IType (t : nat) (at_ : ty) | IFunc (f : nat) (at_ : ty)
  | IValue (fields : list (nat * nat)) | IModule (m : nat) | IModuleVal (m : nat).
(** A field of an element, sc.rs:286-296: its name, the documentation and type of its parameter, and the type of its value by the styles. *)
Record field := { f_name : nat; f_param : option (nat * ty); f_style : option nat }.
(** sc.rs:298-304,307: the type of a field. *)
Definition field_ty (f : field) : ty :=
  match f_param f, f_style f with
  | Some (_, p), None => p
  | Some (_, p), Some _ => TOpt p
  | None, Some s => TOpt (TType s)
  | None, None => TAny
  end.
Section World.
(** What typst knows (sc.rs:231-245): the fields and scopes of types, and whether a value is a function whose first required parameter is self. *)
Variables (fields_on : nat -> list nat) (type_scope : nat -> list (nat * nat)) (takes_self : nat -> bool).
(** Fields and scopes of elements and functions, sc.rs:285-296,329-340. *)
Variables (elem_fields : nat -> list field) (elem_scope : nat -> list (nat * nat)) (func_scope : nat -> option (list (nat * nat))).
(** sc.rs:341-356: what a module exports if its check of types is valid, its scope if it can be evaluated, and the scope of a module value. *)
Variables (exports : nat -> option (list (nat * ty))) (module_scope : nat -> option (list (nat * nat))) (value_scope : nat -> list (nat * nat)).
(** The types of functions and arrays, sc.rs:321,324. *)
Variables (func array : nat).
(** sc.rs:230-259 [type_methods]. *)
Definition type_methods (self : option ty) (t : nat) (d : defs) : defs :=
  fold_left (fun d x => insert (fst x) (match self with Some s => if takes_self (snd x) then TWith (snd x) s else TVal (snd x) | None => TVal (snd x) end) d) (type_scope t)
    (fold_left (fun d n => insert n TAny d) (fields_on t) d).
(** sc.rs:282-313: the fields of an element. *)
Definition elem_defs (e : nat) (s : defs * list (nat * nat)) : defs * list (nat * nat) :=
  fold_left (fun s f => (insert (f_name f) (field_ty f) (fst s), match f_param f with Some (doc, _) => put_doc (f_name f) doc (snd s) | None => snd s end)) (elem_fields e) s.
(** sc.rs:263-360 [check], arm by arm; the arm at 326-328 is never reached, as that at 271 is before it. *)
Definition check (k : check_kind) (i : iface) (s : defs * list (nat * nat)) : defs * list (nat * nat) :=
  let (d, docs) := s in
  match i, k with
  | IDict _ fields, FieldAccess => (fold_left (fun d x => insert (fst x) (snd x) d) fields d, docs)
  | IValue fields, FieldAccess => (fold_left (fun d x => insert (fst x) (TVal (snd x)) d) fields d, docs)
  | IContent e, FieldAccess => elem_defs e s
  | IType t a, FieldAccess => (type_methods (Some a) t d, docs)
  | ITypeType t, FieldAccess => (type_methods None t d, docs)
  | IFunc _ a, FieldAccess => (type_methods (Some a) func d, docs)
  | IArray a, FieldAccess | ITuple a, FieldAccess => (type_methods (Some a) array d, docs)
  | IContent e, Import => (insert_scope (elem_scope e) d, docs)
  | ITypeType t, Import | IType t _, Import => (insert_scope (type_scope t) d, docs)
  | IFunc f _, Import => (match func_scope f with Some sc => insert_scope sc d | None => d end, docs)
  | IModule m, _ => (match exports m with
                     | Some l => fold_left (fun d x => insert (fst x) (snd x) d) l d
                     | None => match module_scope m with Some sc => insert_scope sc d | None => d end
                     end, docs)
  | IModuleVal m, _ => (insert_scope (value_scope m) d, docs)
  | IArray _, Import | ITuple _, Import | IDict _ _, Import | IValue _, Import => s
  end.
(** What [previous_decls] gives (sc.rs:62-91): a name with its type if there is one, the source of an import with its name and type if it is known, or all of one, as the interfaces that [iface_surface] goes through. *)
Inductive decl := DIdent (n : nat) (t : option ty) | DSource (s : option (nat * ty)) | DAll (is : option (list iface)).
(** sc.rs:63-90: one declaration. *)
Definition declare (s : defs * list (nat * nat)) (x : decl) : defs * list (nat * nat) :=
  match x with
  | DIdent n t => (insert n (match t with Some t => t | None => TAny end) (fst s), snd s)
  | DSource (Some (n, t)) => (insert n t (fst s), snd s)
  | DAll (Some is) => fold_left (fun s i => check Import i s) is s
  | DSource None | DAll None => s
  end.
(** sc.rs:53-107 [scope_defs], with the scopes of the library and the name and value of std. *)
Definition scope_defs (decls : list decl) (in_math : bool) (math global : list (nat * nat)) (std std_value : nat) : defs :=
  insert std (TVal std_value) (insert_scope (if in_math then math else global) (fst (fold_left declare decls ([], [])))).
(** crates/tinymist-query/src/analysis/completion/field_access.rs:36-47: the fields of a type, with the interfaces it has. *)
Definition fields (is : list iface) : defs * list (nat * nat) := fold_left (fun s i => check FieldAccess i s) is ([], []).
End World.
