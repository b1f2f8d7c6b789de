(** Model of the definitions that names lead to and of what can be renamed: crates/tinymist-query/src/analysis/definition.rs ("def.rs") and crates/tinymist-query/src/prepare_rename.rs ("pr.rs"). *)
From Coq Require Import List Arith Bool.
Import ListNotations.

(** The kinds of declarations, crates/tinymist-analysis/src/syntax/def.rs [Decl], in the order of pr.rs:86-98. *)
Inductive dkind := KVar | KFunc | KClosure | KModule | KModuleAlias | KPathStem | KImportPath | KIncludePath | KModuleImport
  | KBibEntry | KLabel | KContentRef | KImportAlias | KConstant | KIdentRef | KImport | KStrName | KSpread | KPattern | KContent | KGenerated | KDocs.
(** A declaration: its kind, its name by number, its span (0 for detached ones) and its file (crates/tinymist-analysis/src/syntax/def.rs:562-568). *)
Record decl := mkDecl { d_kind : dkind; d_name : nat; d_span : nat; d_file : option nat }.
(** Functions ([Repr] of typst, pr.rs:118-124). *)
Inductive func := FWith (f : func) | FClosure | FPlugin | FNative | FElement.
(** Values, def.rs:325-342: functions with their names and spans, modules with their names, and others. *)
Inductive value := VFunc (f : func) (name : option nat) (span : nat) | VModule (name : option nat) | VOther (v : nat).
(** Types (crates/tinymist-analysis/src/ty/def.rs:212-219 [value]): those of values, and others. *)
Inductive ty := TValue (v : value) | TOther (t : nat).
(** Expressions that names lead to, def.rs:365-375. *)
Inductive expr := EDecl (d : decl) | ERef (root : option expr) (term : option ty) | EOther.
(** [Option<Definition>] (def.rs:13-18), or a panic, or a recursion that has not ended in time. *)
Inductive res := Found (d : decl) (t : option ty) | Nothing | Panic | Deep.

Section Files.
(** The files of spans ([Span::id]), of files in crates/tinymist-analysis/src/syntax/def.rs:566. *)
Variable file_of : nat -> option nat.

(** def.rs:324-343 [value_to_def], with the name to use for other values and functions without one. *)
Definition value_to_def (v : value) (name : option nat) : res :=
  match v with
  | VFunc _ n span => match (match n with Some x => Some x | None => name end) with Some x => Found (mkDecl KFunc x span (file_of span)) (Some (TValue v)) | None => Nothing end
  | VModule (Some n) => Found (mkDecl KVar n 0 None) (Some (TValue v))
  | VModule None => Panic
  | VOther _ => match name with Some x => Found (mkDecl KVar x 0 None) (Some (TValue v)) | None => Nothing end
  end.
(** def.rs:382-399 [of_term]; constants have no name, here 0. *)
Definition of_term (t : ty) : res :=
  match (match t with TValue v => value_to_def v None | TOther _ => Nothing end) with
  | Nothing => Found (mkDecl KConstant 0 0 None) (Some t)
  | r => r
  end.
(** def.rs:370-380 [of_expr], with what is done for declarations. *)
Fixpoint of_expr (of_decl : decl -> option ty -> res) (e : expr) (term : option ty) : res :=
  match e with
  | EDecl d => of_decl d term
  | ERef None _ => Nothing
  | ERef (Some r) t => of_expr of_decl r (match t with Some x => Some x | None => term end)
  | EOther => Nothing
  end.

(** What spans lead to: the root and the term (def.rs:361, [resolves]). *)
Variable resolves : nat -> option (option expr * option ty).
(** def.rs:356-368 [of_span], with def.rs:401-412 [of_decl]; the number is how many imports are followed. *)
Fixpoint of_span (n : nat) (span : nat) : res :=
  if span =? 0 then Nothing
  else match resolves span with
       | None => Nothing
       | Some (Some e, t) =>
           of_expr (fun d t => match d_kind d with
                               | KImport | KImportAlias =>
                                   match n with
                                   | 0 => Deep
                                   | S m => match of_span m (d_span d) with Nothing => Found d t | r => r end
                                   end
                               | _ => Found d t
                               end) e t
       | Some (None, Some t) => of_term t
       | Some (None, None) => Nothing
       end.

(** Sources of documentation, crates/tinymist-analysis/src/ty/bound.rs:44-48: variables, values with their spans, and builtins. *)
Inductive source := SVar (d : decl) | SIns (v : value) (span : nat) | SBuiltin.
(** def.rs:138-163 [field_definition], with the sources in order and the name of the field. *)
Definition field_definition (n : nat) (sources : list source) (field : nat) : res :=
  match sources with
  | [] => Nothing
  | SVar d :: _ => Found d None
  | SIns v span :: _ => if span =? 0 then value_to_def v (Some field) else of_span n span
  | SBuiltin :: _ => Nothing
  end.
End Files.

(** What is at the cursor: whether it is a field access (pr.rs:41), its string if it is one (pr.rs:91), and its range (pr.rs:47). *)
Record site := mkSite { s_field : bool; s_str : option nat; s_range : nat * nat }.
(** pr.rs:117-125, the loop of [validate_fn_renaming]. *)
Fixpoint renamable (f : func) : bool := match f with FWith g => renamable g | FClosure | FPlugin => true | FNative | FElement => false end.
(** pr.rs:103-126 [validate_fn_renaming]. *)
Definition validate_fn_renaming (t : option ty) : bool :=
  match t with Some (TValue (VFunc f _ _)) => renamable f | Some (TValue _) => false | _ => true end.
(** pr.rs:59-101 [prepare_renaming]; the range it gives is always [None]. *)
Definition prepare_renaming (is_package : nat -> bool) (s : site) (d : decl) (t : option ty) : option nat :=
  match d_file d with
  | None => None
  | Some f =>
      if is_package f then None
      else match d_kind d with
           | KVar => Some (d_name d)
           | KFunc | KClosure => if validate_fn_renaming t then Some (d_name d) else None
           | KModule | KModuleAlias | KPathStem | KImportPath | KIncludePath | KModuleImport => s_str s
           | _ => None
           end
  end.
(** pr.rs:37-56 [PrepareRenameRequest::request], with the definition of what is at the cursor. *)
Definition prepare_rename (is_package : nat -> bool) (s : site) (def : option (decl * option ty)) : option ((nat * nat) * nat) :=
  if s_field s then None
  else match def with
       | None => None
       | Some (d, t) => match prepare_renaming is_package s d t with None => None | Some n => Some (s_range s, n) end
       end.
(** crates/tinymist-query/src/rename.rs:42-47: whether a renaming goes on. *)
Definition renames (is_package : nat -> bool) (s : site) (def : option (decl * option ty)) : bool :=
  match def with None => false | Some (d, t) => match prepare_renaming is_package s d t with None => false | Some _ => true end end.
