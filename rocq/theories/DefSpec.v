(** What is in scope and which fields there are (C191). *)
From Coq Require Import List Arith Bool.
From Verif Require Import DefModel.
Import ListNotations.

(** The first with a name in a list. *)
Definition first (n : nat) (t : ty) (l : list (nat * ty)) : Prop := exists a b, l = a ++ (n, t) :: b /\ forall x, In x a -> fst x <> n.
(** Sorted by names, each once, none empty. *)
Fixpoint proper (low : nat) (l : list (nat * ty)) : Prop := match l with [] => True | x :: r => low < fst x /\ proper (fst x) r end.
(** Values with their names. *)
Definition vals (s : list (nat * nat)) : list (nat * ty) := map (fun x => (fst x, TVal (snd x))) s.
Section World.
(** What typst knows, as in the model. *)
Variables (fields_on : nat -> list nat) (type_scope : nat -> list (nat * nat)) (takes_self : nat -> bool).
Variables (elem_fields : nat -> list field) (elem_scope : nat -> list (nat * nat)) (func_scope : nat -> option (list (nat * nat))).
Variables (exports : nat -> option (list (nat * ty))) (module_scope : nat -> option (list (nat * nat))) (value_scope : nat -> list (nat * nat)).
Variables (func array : nat).
(** What a method of a type is on a value of it: bound to the value if it takes it. *)
Inductive bound (a : ty) : nat * nat -> nat * ty -> Prop :=
  | B_self n v : takes_self v = true -> bound a (n, v) (n, TWith v a)
  | B_plain n v : takes_self v = false -> bound a (n, v) (n, TVal v).
(** The type of a field of an element: that of the parameter, or none as well if the styles have a value. *)
Inductive typed : field -> nat * ty -> Prop :=
  | T_param n doc p : typed {| f_name := n; f_param := Some (doc, p); f_style := None |} (n, p)
  | T_both n doc p s : typed {| f_name := n; f_param := Some (doc, p); f_style := Some s |} (n, TOpt p)
  | T_style n s : typed {| f_name := n; f_param := None; f_style := Some s |} (n, TOpt (TType s))
  | T_none n : typed {| f_name := n; f_param := None; f_style := None |} (n, TAny).
(** The fields of a type on a value of it. *)
Definition methods (a : ty) (t : nat) (l : list (nat * ty)) : Prop := exists ms, Forall2 (bound a) (type_scope t) ms /\ l = map (fun n => (n, TAny)) (fields_on t) ++ ms.
(** [accesses i l]: the fields of what has an interface. *)
Inductive accesses : iface -> list (nat * ty) -> Prop :=
  | A_dict a l : accesses (IDict a l) l
  | A_value l : accesses (IValue l) (vals l)
  | A_content e l : Forall2 typed (elem_fields e) l -> accesses (IContent e) l
  | A_type t a l : methods a t l -> accesses (IType t a) l
  | A_typetype t : accesses (ITypeType t) (map (fun n => (n, TAny)) (fields_on t) ++ vals (type_scope t))
  | A_func f a l : methods a func l -> accesses (IFunc f a) l
  | A_array a l : methods a array l -> accesses (IArray a) l
  | A_tuple a l : methods a array l -> accesses (ITuple a) l
  | A_module m l : exports m = Some l -> accesses (IModule m) l
  | A_invalid m s : exports m = None -> module_scope m = Some s -> accesses (IModule m) (vals s)
  | A_broken m : exports m = None -> module_scope m = None -> accesses (IModule m) []
  | A_moduleval m : accesses (IModuleVal m) (vals (value_scope m)).
(** [imports i l]: what importing everything from it brings. *)
Inductive imports : iface -> list (nat * ty) -> Prop :=
  | M_array a : imports (IArray a) []
  | M_tuple a : imports (ITuple a) []
  | M_dict a l : imports (IDict a l) []
  | M_value l : imports (IValue l) []
  | M_content e : imports (IContent e) (vals (elem_scope e))
  | M_typetype t : imports (ITypeType t) (vals (type_scope t))
  | M_type t a : imports (IType t a) (vals (type_scope t))
  | M_func f a s : func_scope f = Some s -> imports (IFunc f a) (vals s)
  | M_bare f a : func_scope f = None -> imports (IFunc f a) []
  | M_module m l : exports m = Some l -> imports (IModule m) l
  | M_invalid m s : exports m = None -> module_scope m = Some s -> imports (IModule m) (vals s)
  | M_broken m : exports m = None -> module_scope m = None -> imports (IModule m) []
  | M_moduleval m : imports (IModuleVal m) (vals (value_scope m)).
(** What a declaration brings. *)
Inductive brings : decl -> list (nat * ty) -> Prop :=
  | D_ident n t : brings (DIdent n (Some t)) [(n, t)]
  | D_unknown n : brings (DIdent n None) [(n, TAny)]
  | D_source n t : brings (DSource (Some (n, t))) [(n, t)]
  | D_nosource : brings (DSource None) []
  | D_all is ls : Forall2 imports is ls -> brings (DAll (Some is)) (concat ls)
  | D_none : brings (DAll None) [].
End World.
