(** What is said about packages, independently of how they are prepared. *)
From Coq Require Import List NArith Arith Bool Lia.
From Verif Require Import DigModel PathModel PkgModel.
Import ListNotations.
Open Scope nat_scope.

(** A name of the language: not empty, without slashes and dots. *)
Definition ident (n : list chr) : Prop := n <> [] /\ ~ In 47%N n /\ ~ In 46%N n.
Definition named (p : spec) : Prop := ident (ns p) /\ ident (name p).
(** All files of a package are there. *)
Definition covers (l w : list nat) : Prop := forall f, In f w -> In f l.
(** A call that is not over. *)
Definition going (c : call) : Prop := match c_pc c with Over _ | Killed => False | _ => True end.
(** Nobody is preparing the package. *)
Definition free (s : st) (p : spec) : Prop := forall t c, nth_error (s_calls s) t = Some c -> c_spec c = p -> ~ going c.
(** A statement about each event and the state before it. *)
Fixpoint each (P : st -> event -> Prop) (s : st) (es : list event) : Prop :=
  match es with [] => True | e :: es => P s e /\ each P (step s e) es end.
(** A statement about every state on the way. *)
Fixpoint always (P : st -> Prop) (s : st) (es : list event) : Prop :=
  P s /\ match es with [] => True | e :: es => always P (step s e) es end.
(** One preparation of a package at a time; archives that are not malformed have all files; what is left of malformed ones can be removed;
    nobody is killed while unpacking; only whole packages are put into the cache by others, and nothing while the package is being
    prepared.  [whole] gives the files of a package. *)
Definition calm (whole : spec -> list nat) (s : st) (e : event) : Prop :=
  match e with
  | Start p => free s p
  | Go _ => True
  | Reply t (Archive files bad) =>
      bad <> Some false /\ (bad = None -> forall c, nth_error (s_calls s) t = Some c -> covers files (whole (c_spec c)))
  | Reply _ _ => True
  | Kill t => forall c rest bad, nth_error (s_calls s) t = Some c -> c_pc c <> Unpack true rest bad
  | User Data _ _ => True
  | User Cache p x => free s p /\ match x with Some l => covers l (whole p) | None => True end
  end.
(** Nobody else removes packages from the cache. *)
Definition keeps (e : event) : Prop := match e with User Cache _ None => False | _ => True end.
(** The order of versions. *)
Definition ver_le (v w : version) : Prop :=
  let '(a, b, c) := v in let '(x, y, z) := w in (a < x \/ a = x /\ (b < y \/ b = y /\ c <= z))%N.
(** Names of directories that are versions as they are printed. *)
Definition printed (vs : versions) : Prop := forall n b v, In (n, b) vs -> parse_ver n = Some v -> n = print_ver v.
Definition all_printed (l : names) : Prop := forall n vs, In (n, Some vs) l -> printed vs.
(** A version that can be written. *)
Definition small (v : version) : Prop := let '(a, b, c) := v in (a < 2 ^ 32 /\ b < 2 ^ 32 /\ c < 2 ^ 32)%N.
