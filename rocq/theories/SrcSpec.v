(** * What worlds may show of files, dependencies and dates

    Everything below is read off the history of an execution alone.  There is
    no table here: a session is named by the place in the history at which it
    began. *)

From Coq Require Import List Arith Bool.
From Verif Require Import SrcModel.
Import ListNotations.

(** Facts about a world that only its history tells: the history is a list of
    events with the latest FIRST. *)

(** How many worlds a history has made. *)
Fixpoint count (h : list event) : nat :=
  match h with
  | [] => 0
  | Snapshot _ :: h' => S (count h')
  | Task w _ :: h' => if w <? count h' then S (count h') else count h'
  | _ :: h' => count h'
  end.

(** The session of a world: the number of events before the one that began
    it.  Snapshots begin a session, a task stays in the session of its
    original, and taking the database begins a new session for that world. *)
Fixpoint session (h : list event) (w : nat) : nat :=
  match h with
  | [] => 0
  | Snapshot _ :: h' => if w =? count h' then length h' else session h' w
  | Task p _ :: h' =>
      if (p <? count h') && (w =? count h') then session h' p else session h' w
  | TakeDb p :: h' => if p =? w then length h' else session h' w
  | _ :: h' => session h' w
  end.

(** The snapshot a world descends from. *)
Fixpoint origin (h : list event) (w : nat) : nat :=
  match h with
  | [] => 0
  | Snapshot _ :: h' => if w =? count h' then length h' else origin h' w
  | Task p _ :: h' =>
      if (p <? count h') && (w =? count h') then origin h' p else origin h' w
  | _ :: h' => origin h' w
  end.

(** What the file system of a world holds. *)
Fixpoint sees (h : list event) (w : nat) : view :=
  match h with
  | [] => fun _ _ => 0
  | Snapshot v :: h' => if w =? count h' then v else sees h' w
  | Task p _ :: h' =>
      if (p <? count h') && (w =? count h') then sees h' p else sees h' w
  | Remap p v :: h' => if p =? w then v else sees h' w
  | _ :: h' => sees h' w
  end.

(** Whether a world counts its reads as reads of a compilation. *)
Fixpoint counts (h : list event) (w : nat) : bool :=
  match h with
  | [] => false
  | Snapshot _ :: h' => if w =? count h' then true else counts h' w
  | Task p _ :: h' =>
      if (p <? count h') && (w =? count h') then counts h' p else counts h' w
  | Compiling p b :: h' => if p =? w then b else counts h' w
  | _ :: h' => counts h' w
  end.

(** The source of the detached entry is no file. *)
Definition is_file (k : kind) (f : nat) : bool :=
  match k with Source => negb (f =? detached) | Bytes => true end.

(** A history, split: at some moment [before] of the history [h] a world [p] of
    session [n] read file [f]. *)
Definition read_at (h : list event) (n p : nat) (k : kind) (f : nat)
  (after before : list event) : Prop :=
  h = after ++ Read p k f :: before /\ p < count before /\ session before p = n /\
  is_file k f = true.

(** The first read of a file in a session shows what its reader's file system
    held, and every later read of the session shows that again. *)
Definition read_spec (h : list event) (w : nat) (k : kind) (f : nat) (r : res) : Prop :=
  (forall after before p,
     read_at h (session h w) p k f after before ->
     (forall after' before' p',
        read_at before (session h w) p' k f after' before' -> False) ->
     r = sees before p k f) /\
  ((forall after before p, read_at h (session h w) p k f after before -> False) ->
   r = sees h w k f).

(** A file is a dependency if a world of the session read it while it counted
    its reads. *)
Definition depends (h : list event) (w f : nat) : Prop :=
  exists k p after before,
    read_at h (session h w) p k f after before /\ counts before p = true.

(** Whether a history asked for the time of some descendant of a snapshot,
    and what the clock showed then: the first such moment. *)
Fixpoint fetched (h : list event) (o : nat) : option nat :=
  match h with
  | [] => None
  | Task p c :: h' | Today p c :: h' =>
      match fetched h' o with
      | Some t => Some t
      | None => if (p <? count h') && (origin h' p =? o) then Some c else None
      end
  | _ :: h' => fetched h' o
  end.
