(** Which files a search for references has to visit. *)
From Coq Require Import List Arith Bool.
From Verif Require Import ScopeModel ScopeSpec RefsModel.
Import ListNotations.

(** File [k] of the workspace imports file [f] of the workspace. *)
Definition imports_ws (P : list info) (f k : nat) : Prop :=
  exists i j, nth_error P f = Some i /\ nth_error P k = Some j
    /\ i_ws i = true /\ i_ws j = true /\ In f (i_imports j).

(** A file that hands the definition on under its own name. *)
Definition hands_on (P : list info) (d : decl) (f : nat) : Prop :=
  exists i, nth_error P f = Some i /\ In (dname d) (i_idents i) /\ is_exported d (i_exports i) = true.

(** The files reached from the file of the definition. *)
Inductive reached (P : list info) (d : decl) (f0 : nat) : nat -> Prop :=
| reached_here : reached P d f0 f0
| reached_next f k : reached P d f0 f -> hands_on P d f -> imports_ws P f k -> reached P d f0 k.

(** A file that comes after the file of the definition. *)
Inductive after (P : list info) (d : decl) (f0 : nat) : nat -> Prop :=
| after_next f k : reached P d f0 f -> hands_on P d f -> imports_ws P f k -> after P d f0 k.

(** A place in a file that the file's table says refers to the definition. *)
Definition refers (P : list info) (d : decl) (k s : nat) : Prop :=
  exists i r, nth_error P k = Some i /\ s <> 0 /\ find s (i_table i) = Some r /\ is_ref d r = true.

(** A file in which the name of the definition occurs. *)
Definition mentions_name (P : list info) (d : decl) (k : nat) : Prop :=
  exists i, nth_error P k = Some i /\ In (dname d) (i_idents i).

(** The files of a project, each of which may import those before it, as
    the search sees them. *)
Fixpoint infos (W : world) (n k : nat) (files : list (list ast)) : list info :=
  match files with
  | [] => []
  | file :: files' => analyse W n true file :: infos (provide W k (exports W n file)) n (S k) files'
  end.

(** An expression that is the definition or stands for it. *)
Definition holds (d : decl) (e : expr) : Prop :=
  match e with
  | EDecl d' => d' = d
  | ERef _ _ (Some (EDecl d')) _ => d' = d
  | _ => False
  end.

(** The selections in an expression, as they are followed. *)
Fixpoint keys (e : expr) : list decl :=
  match e with
  | ESel key lhs => key :: keys lhs
  | ERef _ _ (Some root) _ => keys root
  | _ => []
  end.

(** A project in which a definition of file [f0] is handed on in the open:
    by no file from outside; always under its own name, in files that
    mention it; and in which no file hands on something selected from a
    module that is not known. *)
Definition open_project (W : world) (n : nat) (d : decl) (f0 : nat) (files : list (list ast)) : Prop :=
  local d = true
  /\ (forall f y e, find y (w_exports W f) = Some e -> keys e = [] /\ ~ holds d e)
  /\ (forall k i, nth_error (infos W n 0 files) k = Some i -> forall y e, find y (i_exports i) = Some e ->
        keys e = [] /\ (holds d e -> y = dname d /\ In (dname d) (i_idents i)))
  /\ (forall k file, nth_error files k = Some file -> In (dspan d) (marks_all file) -> k = f0).
