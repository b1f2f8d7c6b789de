(** What is expected of the background queue (C39, C40). *)
From Coq Require Import List Arith Bool.
From Verif Require Import QueueModel.
Import ListNotations.

(** The submitted jobs of a history, in order. *)
Definition submitted (evs : list qev) : list job := flat_map (fun e => match e with Submit j => [j] | _ => [] end) evs.
(** No job panicked. *)
Definition calm (evs : list qev) : Prop := forall i, ~ In (Panicked i) evs.
(** The jobs that were started, in order. *)
Definition started (os : list qout) : list job := flat_map (fun o => match o with Started j => [j] | _ => [] end) os.
(** The jobs that are being run in a list of effects: started and neither ended nor broken. *)
Fixpoint active (n : nat) (os : list qout) : nat :=
  match os with [] => n | Started _ :: r => active (S n) r | Ended _ :: r | Broken _ :: r => active (pred n) r end.
(** Revisions grow from submission to submission. *)
Fixpoint increasing (js : list job) : Prop :=
  match js with [] => True | j :: r => Forall (fun k => j_rev j < j_rev k) r /\ increasing r end.
(** A submission that is newer than all before and not older than any after. *)
Definition newest (evs : list qev) (j : job) : Prop :=
  exists a b, submitted evs = a ++ j :: b /\ Forall (fun k => j_rev k < j_rev j) a /\ Forall (fun k => j_rev k <= j_rev j) b.
