(** * What starting a project from a template must do *)

From Coq Require Import List Arith Bool.
From Verif Require Import TmplModel.
Import ListNotations.

(** Directories have one entry of a name. *)
Inductive wf : tree -> Prop :=
  | wf_file : wf File
  | wf_link : wf Link
  | wf_broken : wf Broken
  | wf_dir es : NoDup (map fst es) -> (forall n t, In (n, t) es -> wf t) -> wf (Dir es).

(** Files below a tree: every step but the last is a directory and the last
    is a file, not a link. *)
Inductive file_at : tree -> path -> Prop :=
  | file_here : file_at File []
  | file_below es n t p : In (n, t) es -> file_at t p -> file_at (Dir es) (n :: p).

(** Trees at places of the package. *)
Inductive place : tree -> path -> tree -> Prop :=
  | place_here t : place t [] t
  | place_below es n t p u : In (n, t) es -> place t p u -> place (Dir es) (n :: p) u.

(** The names a path of a manifest leads to, step by step; [None]: it leaves
    the package. *)
Fixpoint leads (at_ : path) (p : list comp) : option path :=
  match p with
  | [] => Some at_
  | Name n :: p' => leads (at_ ++ [n]) p'
  | Up :: p' => match at_ with [] => None | _ => leads (removelast at_) p' end
  | Here :: p' | Root :: p' => leads at_ p'
  end.

(** A project is a copy of what is at [dir]. *)
Definition copy_of (k : package) (dir : path) (t : tree) (j : project) : Prop :=
  match j with
  | Has es =>
      NoDup (map fst es) /\
      forall p x, In (p, x) es <->
        file_at t p /\ exists d, x = Some d /\ content k (dir ++ p) = Some d
  | NoDir => forall p, ~ file_at t p
  | NotDir => False
  end.

(** What a project has. *)
Definition entries (j : project) : list (path * option nat) :=
  match j with Has es => es | _ => [] end.

(** Plain paths: names only. *)
Definition plain (p : list comp) : Prop := exists ns, p = map Name ns.
