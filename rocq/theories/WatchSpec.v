(** What C24, C25 and C66 say. *)
From Coq Require Import List Arith Bool.
From Verif Require Import AssocModel WatchModel.
Import ListNotations.

(** The content of a path according to the reports. *)
Fixpoint reported (p : nat) (o : list report) (before : option file) : option file :=
  match o with
  | [] => before
  | Gone q :: r => reported p r (if q =? p then None else before)
  | Now q f :: r => reported p r (if q =? p then Some f else before)
  end.
Definition tracked (s : st) (p : nat) : Prop := exists e, aget p (w_entries s) = Some e.
Definition watched (s : st) (p : nat) : Prop := exists e, aget p (w_entries s) = Some e /\ e_watching e = true.

Definition mem (p : nat) (l : list nat) : bool := existsb (fun x => x =? p) l.
(** The path changed on disk and the watcher has not been told about it since. *)
Fixpoint unseen (p : nat) (es : list event) (now : bool) : bool :=
  match es with
  | [] => now
  | Disk q _ :: r => unseen p r (if q =? p then true else now)
  | (Sync ps _ | Upstream ps _ | Os ps _) :: r => unseen p r (if mem p ps then false else now)
  | Recheck _ :: r => unseen p r now
  end.
(** Readable and not empty. *)
Definition full (f : file) : bool := match f with Ok (S _) => true | _ => false end.
(** The path is readable and not empty all the time. *)
Fixpoint always_full (p : nat) (es : list event) : bool :=
  match es with
  | [] => true
  | Disk q f :: r => (negb (q =? p) || full f) && always_full p r
  | _ :: r => always_full p r
  end.
(** Two reports in a row about a path carry the same content. *)
Definition repeats (p : nat) (o : list report) : Prop :=
  exists a f b c, o = a ++ Now p f :: b ++ Now p f :: c /\ (forall g, ~ In (Now p g) b) /\ ~ In (Gone p) b.
