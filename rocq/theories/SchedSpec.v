(** What C20-C22 and C63 say, in terms of histories of SchedModel and the
    outputs of the scheduler. *)
From Coq Require Import List Arith Bool.
From Verif Require Import SchedModel.
Import ListNotations.

Definition projects (s : st) : list proj := s_primary s :: s_dedicates s.
Definition known (s : st) (id : nat) : Prop := In id (map p_id (projects s)).
Definition dedicated (s : st) (id : nat) : Prop := In id (map p_id (s_dedicates s)).

(** A compilation of the project is running, or its result has not reached the
    server yet. *)
Definition in_flight (s : st) (id : nat) : Prop :=
  (exists g sn, In (g, sn) (s_tasks s) /\ sn_id sn = id) \/
  (exists a, In a (s_queue s) /\ sn_id (a_snap a) = id).
Definition quiescent (s : st) : Prop := s_tasks s = [] /\ s_queue s = [].

(** The restrictions under which the scheduler works: projects that are named
    exist, a task change changes something, no project is removed, restarted or
    reloaded while a compilation of it is in flight, and 0 is only used for the
    primary project. *)
Definition tame (s : st) (e : event) : Prop :=
  match e with
  | Interrupt (Compile id) _ => known s id
  | Interrupt (ChangeTask id inputs entry) _ => known s id /\ (inputs = true \/ entry <> None)
  | Interrupt (Settle id) _ => dedicated s id -> ~ in_flight s id
  | Recreate id _ => id <> 0 /\ (dedicated s id -> ~ in_flight s id)
  | Reload _ => quiescent s
  | _ => True
  end.
Fixpoint tame_run (s : st) (es : list event) : Prop :=
  match es with
  | [] => True
  | e :: r => tame s e /\ tame_run (fst (step s e)) r
  end.

(** The scheduler ran in this event. *)
Definition schedules (s : st) (e : event) : Prop :=
  match e with Interrupt _ _ => True | Deliver _ => s_queue s <> [] | _ => False end.

(** The decisions for a project: compile this revision, or skip it. *)
Definition decided (id rev : nat) (x : out) : Prop := x = OStart id rev \/ x = OSkip id rev.
(** Every change of the project was followed by a decision about that or a
    later revision (unless the project was removed after it). *)
Definition settled (id : nat) (o : list out) : Prop :=
  forall a b rev, o = a ++ OChange id rev :: b ->
  In (ORemove id) b \/ exists x rev', In x b /\ decided id rev' x /\ rev <= rev'.

(** The document of the last successful result shown for a project since it was
    created or its entry was replaced. *)
Fixpoint last_good (id : nat) (o : list out) (d : option doc) : option doc :=
  match o with
  | [] => d
  | x :: r => last_good id r (match x with
      | ONotify a => if sn_id (a_snap a) =? id then match a_doc a with Some _ => a_doc a | None => d end else d
      | OEntry i _ | ORemove i => if i =? id then None else d
      | _ => d
      end)
  end.
(** No queries, and no change of the entry while a compilation is in flight. *)
Definition plain (s : st) (e : event) : Prop :=
  match e with
  | Query => False
  | Interrupt (ChangeTask id _ (Some _)) _ => ~ in_flight s id
  | _ => True
  end.
Fixpoint plain_run (s : st) (es : list event) : Prop :=
  match es with
  | [] => True
  | e :: r => plain s e /\ plain_run (fst (step s e)) r
  end.

Definition is_reload (e : event) : bool := match e with Reload _ => true | _ => false end.

(** The ids of the projects a history creates. *)
Fixpoint created (es : list event) : list nat :=
  match es with [] => [] | Recreate id _ :: r => id :: created r | _ :: r => created r end.
(** Every start of a compilation follows its own status report. *)
Definition announced (o : list out) : Prop :=
  forall a b id rev, o = a ++ OStart id rev :: b -> exists a', a = a' ++ [OStatus id rev Compiling].
