(** What renaming a variable or a function does to the files of a
    workspace: the edits of crates/tinymist-query/src/rename.rs:96-116, and
    the files after the client has applied them.

    An edit replaces the text of the range of a reference; it is taken to be
    the name with that span (the code has a todo about this,
    crates/tinymist-query/src/references.rs:142).  The new name is a number
    like the others: that the server does not check that it is an identifier
    is not modelled. *)
From Coq Require Import List Arith Bool.
From Verif Require Import ScopeModel ScopeSpec RefsModel.
Import ListNotations.

(** The edits: the places at which the new name is written,
    crates/tinymist-query/src/rename.rs:96-109. *)
Definition edits (P : list info) (d : decl) (f n : nat) : list (nat * nat) := out (references P d f n).

(** Whether a place is edited, crates/tinymist-query/src/rename.rs:101-109. *)
Definition edited (l : list (nat * nat)) (k s : nat) : bool :=
  existsb (fun '(k', s') => Nat.eqb k k' && Nat.eqb s s') l.

(** A name after the edits, crates/tinymist-query/src/rename.rs:105-108. *)
Definition put (S : nat -> bool) (new s x : nat) : nat := if S s then new else x.

(** A name with its span after the edits, crates/tinymist-query/src/rename.rs:105-108. *)
Definition putp (S : nat -> bool) (new : nat) (p : nat * nat) : nat * nat :=
  (fst p, put S new (fst p) (snd p)).

(** The syntax of crates/tinymist-query/src/syntax/expr.rs:482-549 after the
    edits of crates/tinymist-query/src/rename.rs:105-108. *)
Fixpoint ren_pat (S : nat -> bool) (new : nat) (p : pat) : pat :=
  match p with
  | PHole => PHole
  | PVar s x => PVar s (put S new s x)
  | PTuple ps => PTuple (map (ren_pat S new) ps)
  end.

(** The same for parameters, crates/tinymist-query/src/rename.rs:105-108. *)
Definition ren_param (S : nat -> bool) (new : nat) (q : param) : param :=
  match q with
  | QPos p => QPos (ren_pat S new p)
  | QNamed s x => QNamed s (put S new s x)
  | QRest s x => QRest s (put S new s x)
  | QAny s => QAny s
  end.

(** The same for the sources of imports, crates/tinymist-query/src/rename.rs:105-108. *)
Fixpoint ren_src (S : nat -> bool) (new : nat) (c : src) : src :=
  match c with
  | SName s x => SName s (put S new s x)
  | SField t s x => SField (ren_src S new t) s (put S new s x)
  | c => c
  end.

(** The same for the items of imports, crates/tinymist-query/src/rename.rs:105-108. *)
Definition ren_imports (S : nat -> bool) (new : nat) (im : imports) : imports :=
  match im with
  | Items l => Items (map (fun '(path, o) => (map (putp S new) path, option_map (putp S new) o)) l)
  | im => im
  end.

(** The same for expressions, crates/tinymist-query/src/rename.rs:105-108. *)
Fixpoint ren (S : nat -> bool) (new : nat) (e : ast) : ast :=
  let opt (o : option ast) : option ast := match o with Some e => Some (ren S new e) | None => None end in
  match e with
  | Lit => Lit
  | Id s x => Id s (put S new s x)
  | MathId s x => MathId s (put S new s x)
  | Group es => Group (map (ren S new) es)
  | Keyed c key val => Keyed c (ren S new key) (ren S new val)
  | Blk es => Blk (map (ren S new) es)
  | Item es => Item (map (ren S new) es)
  | Let p i => Let (ren_pat S new p) (opt i)
  | Fun s name ps body =>
      Fun s (option_map (putp S new) name)
        (map (fun '(q, d) => (ren_param S new q, ren S new d)) ps) (ren S new body)
  | Import s c o im => Import s (ren_src S new c) (option_map (putp S new) o) (ren_imports S new im)
  | Include c => Include (ren_src S new c)
  | For p it body => For (ren_pat S new p) (ren S new it) (ren S new body)
  | While c body => While (ren S new c) (ren S new body)
  | If c t e => If (ren S new c) (ren S new t) (opt e)
  | Assign p v => Assign (ren_pat S new p) (ren S new v)
  | SetR target args cond => SetR (ren S new target) (map (ren S new) args) (opt cond)
  | Show sel tr => Show (opt sel) (ren S new tr)
  | Context body => Context (ren S new body)
  | Field t s x => Field (ren S new t) s (put S new s x)
  end.

(** The files of the workspace after the edits, the first being file [k];
    crates/tinymist-query/src/rename.rs:101-116. *)
Fixpoint ren_files (l : list (nat * nat)) (new k : nat) (files : list (list ast)) : list (list ast) :=
  match files with
  | [] => []
  | file :: files' => map (ren (edited l k) new) file :: ren_files l new (S k) files'
  end.
