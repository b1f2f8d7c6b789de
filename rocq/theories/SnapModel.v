(** Model of the map with undo log: crates/tinymist-analysis/src/adt/snapshot_map.rs, with the
    log [VecLog] of the crate ena 0.14 (external, taken from its documentation). *)
From Coq Require Import List Arith Bool.
From Verif Require Import AssocModel.
Import ListNotations.

(** snapshot_map.rs:45-50 [UndoLog]; [Purged] is never logged. *)
Inductive undo := Inserted (k : nat) | Overwrite (k v : nat).
(** snapshot_map.rs:24-28 [SnapshotMap]: the map, the log (newest first) and the number of
    open snapshots of the log. *)
Record smap := mkSm { s_map : list (nat * nat); s_log : list undo; s_open : nat }.
(** snapshot_map.rs:31-43 [Default]. *)
Definition smap0 : smap := mkSm [] [] 0.
(** [VecLog::push]: only inside of a snapshot; snapshot_map.rs:85,89,98. *)
Definition push (u : undo) (open_ : nat) (log : list undo) : list undo :=
  match open_ with O => log | S _ => u :: log end.
(** snapshot_map.rs:82-93 [insert], with its result. *)
Definition sm_insert (k v : nat) (s : smap) : smap * bool :=
  match aget k (s_map s) with
  | None => (mkSm (aset k v (s_map s)) (push (Inserted k) (s_open s) (s_log s)) (s_open s), true)
  | Some old => (mkSm (aset k v (s_map s)) (push (Overwrite k old) (s_open s) (s_log s)) (s_open s), false)
  end.
(** snapshot_map.rs:95-103 [remove], with its result. *)
Definition sm_remove (k : nat) (s : smap) : smap * bool :=
  match aget k (s_map s) with
  | Some old => (mkSm (adel k (s_map s)) (push (Overwrite k old) (s_open s) (s_log s)) (s_open s), true)
  | None => (s, false)
  end.
(** snapshot_map.rs:105-111 [get]. *)
Definition sm_get (k : nat) (s : smap) : option nat := aget k (s_map s).
(** snapshot_map.rs:69-72 [clear], with [VecLog::clear]. *)
Definition sm_clear (s : smap) : smap := mkSm [] [] 0.
(** snapshot_map.rs:118-120 [snapshot]; the token is the length of the log. *)
Definition sm_snapshot (s : smap) : smap * nat := (mkSm (s_map s) (s_log s) (S (s_open s)), length (s_log s)).
(** snapshot_map.rs:157-169 [reverse]. *)
Definition reverse (u : undo) (m : list (nat * nat)) : list (nat * nat) :=
  match u with Inserted k => adel k m | Overwrite k v => aset k v m end.
(** The loop of [VecLog::rollback_to]; snapshot_map.rs:126-129. *)
Fixpoint undo_to (t : nat) (log : list undo) (m : list (nat * nat)) : list (nat * nat) * list undo :=
  match log with
  | [] => (m, [])
  | u :: r => if length log <=? t then (m, log) else undo_to t r (reverse u m)
  end.
(** [VecLog::assert_open_snapshot], called for snapshot_map.rs:123,128. *)
Definition open_ok (t : nat) (s : smap) : bool := (t <=? length (s_log s)) && (0 <? s_open s).
(** snapshot_map.rs:126-129 [rollback_to]; [None] is a failed assertion. *)
Definition sm_rollback (t : nat) (s : smap) : option smap :=
  if open_ok t s then let '(m, l) := undo_to t (s_log s) (s_map s) in Some (mkSm m l (pred (s_open s))) else None.
(** snapshot_map.rs:122-124 [commit]; [None] is a failed assertion. *)
Definition sm_commit (t : nat) (s : smap) : option smap :=
  if open_ok t s then
    if s_open s =? 1 then if t =? 0 then Some (mkSm (s_map s) [] 0) else None
    else Some (mkSm (s_map s) (s_log s) (pred (s_open s)))
  else None.

(** The calls of a client that closes its snapshots in the reverse order of their
    creation; the functions of snapshot_map.rs:69-129. *)
Inductive scall := SInsert (k v : nat) | SRemove (k : nat) | SClear | SSnapshot | SRollback | SCommit.
(** The map and the tokens the client holds, newest first; snapshot_map.rs:118-129. *)
Definition sstate := (smap * list nat)%type.
(** A call with its result, if it has one; snapshot_map.rs:69-129.  [None] is a panic.
    Closing without an open snapshot is not a call. *)
Definition sstep (x : sstate) (c : scall) : option (sstate * option bool) :=
  let '(s, ts) := x in
  match c with
  | SInsert k v => let '(s', b) := sm_insert k v s in Some ((s', ts), Some b)
  | SRemove k => let '(s', b) := sm_remove k s in Some ((s', ts), Some b)
  | SClear => Some ((sm_clear s, ts), None)
  | SSnapshot => let '(s', t) := sm_snapshot s in Some ((s', t :: ts), None)
  | SRollback => match ts with
                 | [] => Some (x, None)
                 | t :: r => match sm_rollback t s with Some s' => Some ((s', r), None) | None => None end
                 end
  | SCommit => match ts with
               | [] => Some (x, None)
               | t :: r => match sm_commit t s with Some s' => Some ((s', r), None) | None => None end
               end
  end.
(** A history with its results; driver of [sstep], snapshot_map.rs:69-129. *)
Fixpoint srun (x : sstate) (cs : list scall) : option (sstate * list (option bool)) :=
  match cs with
  | [] => Some (x, [])
  | c :: r => match sstep x c with
              | Some (x1, b) => match srun x1 r with Some (x2, bs) => Some (x2, b :: bs) | None => None end
              | None => None
              end
  end.
