(** What is expected of the ids of workspaces. *)
From Coq Require Import List NArith Bool.
From Verif Require Import DigModel PathModel PathSpec EntryModel WsModel.
Import ListNotations.

(** The states that uses lead to. *)
Definition reached (i : interner) : Prop := exists roots, Forall path_ok roots /\ interns roots start = Some i.
(** The later states. *)
Definition later (i j : interner) : Prop := exists roots, Forall path_ok roots /\ interns roots i = Some j.
(** A root without detours. *)
Definition plain_root (r : path) : Prop := path_ok r /\ clean r = r.
