(** The file watcher: crates/tinymist-project/src/watch.rs (cited as watch.rs).

    Paths are numbers, the contents of the disk are part of the state and change
    by themselves ([Disk]).  Reading a file is one step.  The operating system's
    watcher exists (the case that it could not be created, watch.rs:279-282, is
    left out); which events it delivers is up to the environment. *)
From Coq Require Import List Arith Bool.
From Verif Require Import AssocModel.
Import ListNotations.

(** crates/tinymist-vfs/src/snapshot.rs:11 [FileSnapshot]: contents (0 is the
    empty file) or an error (0 is [NotFound], 1 is [Other]). *)
Inductive file := Ok (c : nat) | Err (e : nat).
(** [PartialEq] of contents and errors (watch.rs:398,414,489). *)
Definition same (a b : file) : bool :=
  match a, b with Ok x, Ok y => x =? y | Err x, Err y => x =? y | _, _ => false end.

(** watch.rs:55-69 [WatchedEntry]; the state (watch.rs:34-44) is [None] for
    [Stable] and [Some (recheck_at, payload)] for [EmptyOrRemoval]. *)
Record entry := mkEntry {
  e_life : nat; e_watching : bool; e_seen : bool; e_state : option (nat * file); e_prev : option file
}.
(** watch.rs:86-107 [NotifyActor]; [w_wait] holds the events sent for rechecks,
    with their logical tick and path (watch.rs:73-80). *)
Record st := mkSt {
  w_life : nat; w_tick : nat; w_entries : list (nat * entry); w_wait : list (nat * nat); w_disk : nat -> file
}.
(** watch.rs:124-137. *)
Definition init (disk : nat -> file) : st := mkSt 1 1 [] [] disk.

(** Entries of a [FileChangeSet] sent to the compiler
    (crates/tinymist-vfs/src/snapshot.rs [FileChangeSet], watch.rs:222-224,299,345). *)
Inductive report := Gone (p : nat) | Now (p : nat) (f : file).

(** watch.rs:351-454 [notify_entry_update]. *)
Definition look (p : nat) (s : st) : st * list report :=
  match aget p (w_entries s) with
  | None => (s, [])
  | Some e =>
      let f := w_disk s p in
      let send := (mkSt (w_life s) (w_tick s) (aset p (mkEntry (e_life e) (e_watching e) (e_seen e) None (Some f)) (w_entries s))
                        (w_wait s) (w_disk s), [Now p f]) in
      let suspect := (mkSt (w_life s) (w_tick s)
                        (aset p (mkEntry (e_life e) (e_watching e) (e_seen e) (Some (w_tick s, f)) (Some f)) (w_entries s))
                        (w_wait s ++ [(w_tick s, p)]) (w_disk s), []) in
      match e_prev e, f with
      | None, _ => send
      | Some (Err _), Ok _ => send
      | Some prev, Err k =>
          match e_state e with
          | None => if k <? 2 then suspect else if same prev f then (s, []) else send
          | Some (t, _) =>
              (mkSt (w_life s) (w_tick s) (aset p (mkEntry (e_life e) (e_watching e) (e_seen e) (Some (t, f)) (e_prev e)) (w_entries s))
                    (w_wait s) (w_disk s), [])
          end
      | Some (Ok a), Ok b =>
          if a =? b then (s, [])
          else match e_state e with
               | None => if b =? 0 then suspect else send
               | Some _ => if b =? 0 then (s, []) else send
               end
      end
  end.

(** One dependency in [update_watches], watch.rs:235-283.  [watchable] tells
    whether the path has metadata, is not a directory, and the operating system
    accepts the watch (watch.rs:259-276). *)
Definition watch_one (watchable : nat -> bool) (p : nat) (s : st) : st * list report :=
  let old := aget p (w_entries s) in
  let e := match old with
           | Some e => mkEntry (w_life s) (e_watching e) (e_seen e) (e_state e) (e_prev e)
           | None => mkEntry (w_life s) false false None None
           end in
  let put e := mkSt (w_life s) (w_tick s) (aset p e (w_entries s)) (w_wait s) (w_disk s) in
  if e_seen e then (put e, [])
  else look p (put (mkEntry (e_life e) (e_watching e || watchable p) true (e_state e) (e_prev e))).
(** The loop of watch.rs:235-283. *)
Fixpoint watch_all (watchable : nat -> bool) (ps : list nat) (s : st) : st * list report :=
  match ps with
  | [] => (s, [])
  | p :: r => let (s1, o1) := watch_one watchable p s in let (s2, o2) := watch_all watchable r s1 in (s2, o1 ++ o2)
  end.
(** watch.rs:227-229. *)
Definition unsee (e : entry) : entry := mkEntry (e_life e) (e_watching e) false (e_state e) (e_prev e).
(** watch.rs:289-295. *)
Definition unwatch (e : entry) : entry :=
  if e_seen e then e else mkEntry (e_life e) false (e_seen e) (e_state e) (e_prev e).
(** A map over the entries, as in watch.rs:227. *)
Definition on_entries (f : entry -> entry) (l : list (nat * entry)) : list (nat * entry) := map (fun x => (fst x, f (snd x))) l.
(** watch.rs:297. *)
Definition young (life : nat) (e : entry) : bool := life - e_life e <? 30.
(** watch.rs:220-305 [update_watches]; removals are applied before insertions by
    the receiver. *)
Definition update_watches (watchable : nat -> bool) (ps : list nat) (s : st) : st * list report :=
  let s0 := mkSt (S (w_life s)) (w_tick s) (on_entries unsee (w_entries s)) (w_wait s) (w_disk s) in
  let (s1, o1) := watch_all watchable ps s0 in
  let l := on_entries unwatch (w_entries s1) in
  (mkSt (w_life s1) (w_tick s1) (filter (fun x => young (w_life s1) (snd x)) l) (w_wait s1) (w_disk s1),
   map (fun x => Gone (fst x)) (filter (fun x => negb (young (w_life s1) (snd x))) l) ++ o1).

(** watch.rs:311-314. *)
Fixpoint look_all (ps : list nat) (s : st) : st * list report :=
  match ps with
  | [] => (s, [])
  | p :: r => let (s1, o1) := look p s in let (s2, o2) := look_all r s1 in (s2, o1 ++ o2)
  end.
(** watch.rs:328-341. *)
Definition forget (p : nat) (l : list (nat * entry)) : list (nat * entry) :=
  match aget p l with
  | None => l
  | Some e => aset p (mkEntry (e_life e) false (e_seen e) (e_state e) (e_prev e)) l
  end.
(** watch.rs:308-348 [notify_event]; [removed] tells whether the event is of one
    of the kinds of watch.rs:321-327. *)
Definition notify_event (removed : bool) (ps : list nat) (s : st) : st * list report :=
  let (s1, o) := look_all ps s in
  if removed then (mkSt (w_life s1) (w_tick s1) (fold_left (fun l p => forget p l) ps (w_entries s1)) (w_wait s1) (w_disk s1), o)
  else (s1, o).

(** watch.rs:457-503 [recheck_notify_event] after the delay. *)
Definition recheck (at_tick p : nat) (s : st) : st * list report :=
  match aget p (w_entries s) with
  | None => (s, [])
  | Some e =>
      let s1 := mkSt (w_life s) (w_tick s) (aset p (mkEntry (e_life e) (e_watching e) (e_seen e) None (e_prev e)) (w_entries s))
                     (w_wait s) (w_disk s) in
      match e_state e with
      | None => (s1, [])
      | Some (t, payload) =>
          if t =? at_tick then
            if match e_prev e with Some f => same payload f | None => false end then (s1, [])
            else (s1, [Now p payload])
          else (s1, [])
      end
  end.

(** Events: the disk changes; a dependency list arrives; an update from the
    editor passes (watch.rs:208-217); the operating system reports paths; the
    n-th waiting recheck is due (watch.rs:162-202). *)
Inductive event :=
  | Disk (p : nat) (f : file) | Sync (ps : list nat) (watchable : nat -> bool)
  | Upstream (ps : list nat) (watchable : nat -> bool) | Os (ps : list nat) (removed : bool) | Recheck (n : nat).

(** The list without its n-th element. Stands for the receipt of a recheck
    event (watch.rs:167). *)
Fixpoint drop_nth {A} (n : nat) (l : list A) : list A :=
  match l, n with
  | [], _ => []
  | _ :: r, 0 => r
  | x :: r, S n => x :: drop_nth n r
  end.
(** watch.rs:171. *)
Definition next_tick (s : st) : st := mkSt (w_life s) (S (w_tick s)) (w_entries s) (w_wait s) (w_disk s).
(** watch.rs:162-202 [run]. *)
Definition step (s : st) (e : event) : st * list report :=
  match e with
  | Disk p f => (mkSt (w_life s) (w_tick s) (w_entries s) (w_wait s) (upd (w_disk s) p f), [])
  | Sync ps w | Upstream ps w => update_watches w ps (next_tick s)
  | Os ps removed => notify_event removed ps (next_tick s)
  | Recheck n =>
      match nth_error (w_wait s) n with
      | None => (s, [])
      | Some (t, p) =>
          recheck t p (next_tick (mkSt (w_life s) (w_tick s) (w_entries s) (drop_nth n (w_wait s)) (w_disk s)))
      end
  end.
(** watch.rs:162. *)
Fixpoint run (s : st) (es : list event) : st * list report :=
  match es with
  | [] => (s, [])
  | e :: r => let (s1, o1) := step s e in let (s2, o2) := run s1 r in (s2, o1 ++ o2)
  end.
