(** The compiler universe: crates/tinymist-world/src/world.rs (cited as
    world.rs), with the snapshot cache of crates/tinymist-project/src/compiler.rs.

    Entries, inputs, fonts and package registries are numbers; [frev] and [rrev]
    give the revision a font resolver or registry reports, if any.  The contents
    of the file system are represented by its revision (C15-C19 say what it
    stands for).  Revisions do not overflow (world.rs:369 panics then). *)
From Coq Require Import List Arith Bool.
Import ListNotations.

(** crates/tinymist-world/src/entry.rs:21-29 [EntryState]. *)
Record entry := mkEntry { root : nat; main : nat }.
(** world.rs:48-67 [CompilerUniverse]; the features (world.rs:54-55) are public and never
    change in this file. *)
Record verse := mkVerse {
  v_entry : entry; v_inputs : nat; v_fonts : nat; v_registry : nat; v_vfs : nat; v_revision : nat
}.
(** world.rs:77-95 [new_raw] and crates/tinymist-vfs/src/lib.rs:277. *)
Definition new_raw (e : entry) (i f r : nat) : verse := mkVerse e i f r 2 1.

(** world.rs:322-330 [RevisingUniverse]. *)
Record guard := mkGuard {
  g_view : bool; g_vfs : nat; g_fontc : bool; g_font : option nat; g_regc : bool; g_reg : option nat; g_inner : verse
}.
(** What a client may do with a [RevisingUniverse]: world.rs:374-414. *)
Inductive act :=
  | SetFonts (f : nat) | SetPackage (r : nat) | SetInputs (i : nat)
  | SetEntryFile (e : option entry) (* what world.rs:195-205 selects, or a failure *)
  | MutateEntry (e : entry) | Flush
  | Vfs (changed : bool). (* a session on the file system, which changes something or not *)

(** world.rs:430-432 [is_revision_changed]. *)
Definition is_revision_changed (a b : option nat) : bool :=
  match a, b with Some x, Some y => negb (x =? y) | _, _ => true end.
(** Field updates of the universe, as in world.rs:380,385,391. *)
Definition with_entry (v : verse) (e : entry) : verse := mkVerse e (v_inputs v) (v_fonts v) (v_registry v) (v_vfs v) (v_revision v).
(** A file system session that changed something, crates/tinymist-vfs/src/lib.rs:461-470. *)
Definition vfs_revised (v : verse) : verse :=
  mkVerse (v_entry v) (v_inputs v) (v_fonts v) (v_registry v) (S (v_vfs v)) (v_revision v).
(** world.rs:188-206 [mutate_entry_] and [set_entry_file_]. *)
Definition set_entry_file_ (v : verse) (e : option entry) : verse := match e with Some e => with_entry v e | None => v end.
(** The guard around another universe, as the methods of world.rs:374-414 leave it. *)
Definition put (g : guard) (view : bool) (v : verse) : guard :=
  mkGuard view (g_vfs g) (g_fontc g) (g_font g) (g_regc g) (g_reg g) v.
(** world.rs:374-414, the methods of [RevisingUniverse]. *)
Definition act_step (g : guard) (a : act) : guard :=
  let v := g_inner g in
  match a with
  | SetFonts f =>
      mkGuard (g_view g) (g_vfs g) true (g_font g) (g_regc g) (g_reg g)
        (mkVerse (v_entry v) (v_inputs v) f (v_registry v) (v_vfs v) (v_revision v))
  | SetPackage r =>
      mkGuard (g_view g) (g_vfs g) (g_fontc g) (g_font g) true (g_reg g)
        (mkVerse (v_entry v) (v_inputs v) (v_fonts v) r (v_vfs v) (v_revision v))
  | SetInputs i => put g true (mkVerse (v_entry v) i (v_fonts v) (v_registry v) (v_vfs v) (v_revision v))
  | SetEntryFile e => put g true (set_entry_file_ v e)
  | MutateEntry e =>
      let v1 := if root (v_entry v) =? root e then v else vfs_revised v in
      put g true (with_entry v1 e)
  | Flush => put g true v
  | Vfs c => put g (g_view g) (if c then vfs_revised v else v)
  end.

Section Revisions.
Variables frev rrev : nat -> option nat.

(** world.rs:416-418. *)
Definition font_changed (g : guard) : bool := g_fontc g && is_revision_changed (g_font g) (frev (v_fonts (g_inner g))).
(** world.rs:420-423. *)
Definition registry_changed (g : guard) : bool := g_regc g && is_revision_changed (g_reg g) (rrev (v_registry (g_inner g))).
(** world.rs:346-372, the end of a session. *)
Definition drop (g : guard) : verse :=
  let v := if registry_changed g then vfs_revised (g_inner g) else g_inner g in
  let changed := g_view g || font_changed g || registry_changed g || negb (g_vfs g =? v_vfs v) in
  if changed then mkVerse (v_entry v) (v_inputs v) (v_fonts v) (v_registry v) (v_vfs v) (S (v_revision v)) else v.
(** world.rs:176-186 [increment_revision]. *)
Definition enter (v : verse) : guard := mkGuard false (v_vfs v) false (frev (v_fonts v)) false (rrev (v_registry v)) v.
(** world.rs:176-186. *)
Definition increment_revision (v : verse) (acts : list act) : verse := drop (fold_left act_step acts (enter v)).

(** The public operations on a universe: a session; [with_entry_file]
    (world.rs:98-101); [mutate_entry] of the trait [EntryManager]
    (world.rs:316-320), whose closure calls the private [mutate_entry_];
    [reset] (world.rs:215-218); [evict] (world.rs:221-224).  The operations on
    shadow files (world.rs:270-307) are sessions with one [Vfs]. *)
Inductive op :=
  | Session (acts : list act) | WithEntryFile (e : option entry) | ManagerMutate (e : entry) | Reset_ | Evict.
(** See [op]: world.rs:98-101,176-186,215-224,316-320. *)
Definition step (v : verse) (o : op) : verse :=
  match o with
  | Session acts => increment_revision v acts
  | WithEntryFile e => let g := enter v in drop (put g (g_view g) (set_entry_file_ v e))
  | ManagerMutate e => let g := enter v in drop (put g (g_view g) (with_entry v e))
  | Reset_ => vfs_revised v
  | Evict => v
  end.
(** A history of operations on a universe (world.rs:69-320). *)
Definition run (v : verse) (os : list op) : verse := fold_left step os v.

(** world.rs:155-173 [snapshot_with] and world.rs:478-512 [task]: a world, which
    keeps the revision of the universe and has its own entry, inputs and file
    system. *)
Definition snapshot_with (v : verse) (e : option entry) (i : option nat) : verse :=
  let v1 := match e with
            | Some e => with_entry (if root (v_entry v) =? root e then v else vfs_revised v) e
            | None => v
            end in
  match i with
  | Some i => mkVerse (v_entry v1) i (v_fonts v1) (v_registry v1) (v_vfs v1) (v_revision v1)
  | None => v1
  end.

(** compiler.rs:739-762 [ProjectInsState], its universe and latest snapshot. *)
Definition proj : Type := verse * option verse.
(** Events of a project: an operation on its universe, or a request for a
    snapshot (compiler.rs:763-773). *)
Inductive event := Op (o : op) | Snap.
(** compiler.rs:763-773 [snapshot]; the second component is the world handed out. *)
Definition pstep (p : proj) (e : event) : proj * option verse :=
  match e with
  | Op o => ((step (fst p) o, snd p), None)
  | Snap =>
      match snd p with
      | Some w => if v_revision w =? v_revision (fst p) then (p, Some w) else ((fst p, Some (fst p)), Some (fst p))
      | None => ((fst p, Some (fst p)), Some (fst p))
      end
  end.
(** compiler.rs:763-773, over a history. *)
Definition prun (p : proj) (es : list event) : proj := fold_left (fun p e => fst (pstep p e)) es p.
End Revisions.
