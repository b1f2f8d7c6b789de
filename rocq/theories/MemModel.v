(** The routes of editor updates to the compiler:
    crates/tinymist-project/src/compiler.rs (cited as compiler.rs) and
    crates/tinymist-project/src/watch.rs (watch.rs).

    Paths and contents are numbers.  All projects receive the same updates, so
    one shadow map stands for all of them.  The watcher is a FIFO queue: it
    answers every [UpstreamUpdate] with one event that carries the update back,
    after reading the invalidated files (watch.rs:184-186,208-217); what it has
    read is the subject of WatchModel. *)
From Coq Require Import List Arith Bool.
From Verif Require Import AssocModel.
Import ListNotations.

(** crates/tinymist-vfs/src/snapshot.rs:74-79 [FileChangeSet] and
    crates/tinymist-vfs/src/notify.rs:10-25 [MemoryEvent]. *)
Record update := mkUpdate { u_sync : bool; u_removes : list nat; u_inserts : list (nat * nat) }.

(** compiler.rs:369-376,645-651: [estimated_shadow_files] is [m_est] (as a
    list), [logical_tick] is [m_tick], [dirty_shadow_logical_tick] is [m_dirty];
    [m_sent] holds the tagged updates that are on their way through the
    watcher; [m_shadow] is the overlay of the file system. *)
Record st := mkSt {
  m_tick : nat; m_dirty : nat; m_est : list nat; m_sent : list (nat * update); m_shadow : nat -> option nat
}.
(** compiler.rs:408-411. *)
Definition init : st := mkSt 1 0 [] [] (fun _ => None).

(** Removal from a [HashSet] (compiler.rs:615,620). *)
Definition drop (p : nat) (l : list nat) : list nat := filter (fun x => negb (x =? p)) l.
(** compiler.rs:607-621: the estimated set afterwards and the set [files]. *)
Definition estimate (u : update) (est : list nat) : list nat * list nat :=
  let (est0, files0) := if u_sync u then ([], est) else (est, []) in
  let (est1, files1) := fold_left (fun '(e, f) p => (drop p e, p :: drop p f)) (u_removes u) (est0, files0) in
  fold_left (fun '(e, f) '(p, _) => (p :: drop p e, drop p f)) (u_inserts u) (est1, files1).

(** One entry of the overlay (crates/tinymist-vfs/src/lib.rs, [map_shadow] and
    [unmap_shadow], as called at compiler.rs:724-728). *)
Definition put (f : nat -> option nat) (p : nat) (v : option nat) : nat -> option nat := upd f p v.
(** compiler.rs:717-731 [apply_memory_changes]. *)
Definition apply (u : update) (f : nat -> option nat) : nat -> option nat :=
  let f0 := if u_sync u then (fun _ => None) else f in
  let f1 := fold_left (fun f p => put f p None) (u_removes u) f0 in
  fold_left (fun f '(p, c) => put f p (Some c)) (u_inserts u) f1.

(** [Edit]: an update from the editor (compiler.rs:603-653).  [Return]: the next
    update comes back from the watcher (compiler.rs:655-688). *)
Inductive event := Edit (u : update) | Return.
(** What the compiler tells its environment: an update was applied directly, or
    sent to the watcher with the files to read (compiler.rs:645-653). *)
Inductive out := ODirect (u : update) | OSent (invalidates : list nat) | ONone.

(** compiler.rs:603-653 and 655-714. *)
Definition step (s : st) (e : event) : st * out :=
  match e with
  | Edit u =>
      let (est, files) := estimate u (m_est s) in
      if match files with [] => true | _ => false end && (m_dirty s =? 0)
      then (mkSt (m_tick s) (m_dirty s) est (m_sent s) (apply u (m_shadow s)), ODirect u)
      else (mkSt (m_tick s) (m_tick s) est (m_sent s ++ [(m_tick s, u)]) (m_shadow s), OSent files)
  | Return =>
      match m_sent s with
      | [] => (s, ONone)
      | (t, u) :: r =>
          (mkSt (m_tick s) (if t =? m_dirty s then 0 else m_dirty s) (m_est s) r (apply u (m_shadow s)), ONone)
      end
  end.
(** A sequence of events (compiler.rs:517-522). *)
Definition run (s : st) (es : list event) : st := fold_left (fun s e => fst (step s e)) es s.
