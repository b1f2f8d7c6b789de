(** What is expected of the runner of tests. *)
From Coq Require Import String.
From Coq Require Import List NArith Bool.
From Verif Require Import LocModel TstModel.
Import ListNotations.

(** The data agree with the reference, or become it. *)
Definition ref_ok (update : bool) (hash : text -> text) (f : files) (html : bool) (name data : text) : Prop :=
  update = true \/ read (hash_path html name) f = None \/ read (hash_path html name) f = Some (hash data).
Definition example_ok (update : bool) (hash : text -> text) (f : files) (e : example) : Prop :=
  (exists data, e_pages e = Png data /\ ref_ok update hash f false (e_name e) data) /\
  (e_html e = true -> exists data, e_hdoc e = Html data /\ ref_ok update hash f true (e_name e) data).
Definition case_ok (update : bool) (hash : text -> text) (f : files) (c : case) : Prop :=
  match c with
  | Example_ e | Test_ (Shows _ (Some e)) => example_ok update hash f e
  | Test_ (Shows _ None) => False
  | Test_ (Calls _ res) => res = None
  | Test_ (Panics _ res) => exists errs, res = Some errs /\ forall x, In x errs -> snd x = true
  end.
Definition examples (cs : list case) : list example :=
  flat_map (fun c => match c with Example_ e | Test_ (Shows _ (Some e)) => [e] | _ => [] end) cs.
(** Warnings are not errors. *)
Definition mild (e : example) : Prop := (forall x, In x (e_warn e) -> x = false) /\ (forall x, In x (e_hwarn e) -> x = false).
(** Plain names of examples. *)
Definition plain_name (n : text) : Prop := n <> [] /\ ~ In 46%N n.
Definition well (cs : list case) : Prop := NoDup (map e_name (examples cs)) /\ forall e, In e (examples cs) -> mild e /\ plain_name (e_name e).
