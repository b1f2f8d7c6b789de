(** Model of the global interner: crates/tinymist-analysis/src/adt/interner.rs.
    Threads are interleaved at the granularity of atomic operations and locked regions.  Contents stand as
    numbers (equal contents have equal hashes); [sh] gives the shard of a content. *)
From Coq Require Import List Arith Bool.
Import ListNotations.

(** Where a handle is in its life: in use; in [drop] (interner.rs:184-191) having seen other handles, or
    about to take the slow path (interner.rs:196-218) and there about to count again, to remove, or to let
    the lock go; out of [drop] with the field about to be dropped; gone. *)
Inductive phase := Live | Slow | Locked | Sure | Unlock | Leave | Gone.
(** interner.rs:41-43 [Interned]: the [Arc] it holds. *)
Record handle := mkH { h_arc : nat; h_phase : phase }.
(** The cell of an [Arc] (external): its content and its count; interner.rs:42. *)
Record cell := mkC { c_content : nat; c_count : nat }.
(** All cells ever made (a count of 0 is a freed one), the keys of the map, the handles, the holders of the locks of
    the shards, the statistics ([AllocStats]), and whether [unreachable!()] was reached; interner.rs:33,209,346-349. *)
Record st := mkSt { s_cells : list cell; s_map : list nat; s_hs : list handle; s_lock : nat -> option nat; s_alloc : nat; s_panic : bool }.
(** interner.rs:355-360: before anything is interned. *)
Definition init : st := mkSt [] [] [] (fun _ => None) 0 false.
(** Update at an index; for the fields of [st], interner.rs:33. *)
Fixpoint set_nth {A} (n : nat) (x : A) (l : list A) : list A :=
  match l, n with [], _ => [] | _ :: l, O => x :: l | y :: l, S n => y :: set_nth n x l end.
(** The content and count of a cell; interner.rs:42. *)
Definition cell_of (s : st) (a : nat) : cell := nth a (s_cells s) (mkC 0 0).
(** [from_key_hashed_nocheck], interner.rs:55,88,206: the key with an equal content. *)
Definition lookup (s : st) (c : nat) : option nat := find (fun a => c_content (cell_of s a) =? c) (s_map s).
(** Changing the count of a cell (external, [triomphe::Arc]); interner.rs:42. *)
Definition recount (a : nat) (f : nat -> nat) (l : list cell) : list cell :=
  match nth_error l a with Some c => set_nth a (mkC (c_content c) (f (c_count c))) l | None => l end.
(** A handle changes its phase; interner.rs:184-218. *)
Definition set_phase (i : nat) (ph : phase) (s : st) : st :=
  mkSt (s_cells s) (s_map s)
    match nth_error (s_hs s) i with Some h => set_nth i (mkH (h_arc h) ph) (s_hs s) | None => s_hs s end
    (s_lock s) (s_alloc s) (s_panic s).
(** A lock is taken or let go; interner.rs:178,197. *)
Definition set_lock (k : nat) (x : option nat) (s : st) : st :=
  mkSt (s_cells s) (s_map s) (s_hs s) (fun j => if j =? k then x else s_lock s j) (s_alloc s) (s_panic s).
(** interner.rs:46-69 [new] and 79-103 [new_str]: one locked region; nothing happens while the lock is held.
    The new handle is the last of [s_hs]. *)
Definition intern (sh : nat -> nat) (c : nat) (s : st) : st :=
  match s_lock s (sh c) with
  | Some _ => s
  | None =>
      match lookup s c with
      | Some a => mkSt (recount a S (s_cells s)) (s_map s) (s_hs s ++ [mkH a Live]) (s_lock s) (s_alloc s) (s_panic s)
      | None => let a := length (s_cells s) in
          mkSt (s_cells s ++ [mkC c 2]) (s_map s ++ [a]) (s_hs s ++ [mkH a Live]) (s_lock s) (S (s_alloc s)) (s_panic s)
      end
  end.
(** interner.rs:325-329 [clone], of a handle that is in use. *)
Definition clone (i : nat) (s : st) : st :=
  match nth_error (s_hs s) i with
  | Some (mkH a Live) => mkSt (recount a S (s_cells s)) (s_map s) (s_hs s ++ [mkH a Live]) (s_lock s) (s_alloc s) (s_panic s)
  | _ => s
  end.
(** The shard of the content of a cell; interner.rs:169-179 [select]. *)
Definition shard (sh : nat -> nat) (s : st) (a : nat) : nat := sh (c_content (cell_of s a)).
(** Removing a key, interner.rs:208. *)
Definition remove_key (a : nat) (l : list nat) : list nat := filter (fun b => negb (b =? a)) l.
(** One step of the [drop] of a handle, interner.rs:184-218: 186-190 the first count; 197 the lock; 199-202 the second count;
    204-212 the removal (with the count held by the map) and the statistics; the end of the locked
    region at 218; and the drop of the field. *)
Definition dropping (sh : nat -> nat) (i : nat) (s : st) : st :=
  match nth_error (s_hs s) i with
  | None => s
  | Some (mkH a ph) =>
      match ph with
      | Live => set_phase i (if c_count (cell_of s a) =? 2 then Slow else Leave) s
      | Slow => match s_lock s (shard sh s a) with
                | Some _ => s
                | None => set_phase i Locked (set_lock (shard sh s a) (Some i) s)
                end
      | Locked => set_phase i (if c_count (cell_of s a) =? 2 then Sure else Unlock) s
      | Sure =>
          match lookup s (c_content (cell_of s a)) with
          | Some b => set_phase i Unlock (mkSt (recount b pred (s_cells s)) (remove_key b (s_map s)) (s_hs s) (s_lock s) (pred (s_alloc s)) (s_panic s))
          | None => mkSt (s_cells s) (s_map s) (s_hs s) (s_lock s) (s_alloc s) true
          end
      | Unlock => set_phase i Leave (set_lock (shard sh s a) None s)
      | Leave => set_phase i Gone (mkSt (recount a pred (s_cells s)) (s_map s) (s_hs s) (s_lock s) (s_alloc s) (s_panic s))
      | Gone => s
      end
  end.
(** What threads do: intern a content, clone a handle, take a step of the drop of a handle;
    interner.rs:46,325,184. *)
Inductive event := New (c : nat) | Clone (i : nat) | Drop (i : nat).
(** See [event]; interner.rs:46,325,184. *)
Definition step (sh : nat -> nat) (s : st) (e : event) : st :=
  match e with New c => intern sh c s | Clone i => clone i s | Drop i => dropping sh i s end.
(** A history; driver of [step], interner.rs:46. *)
Definition run (sh : nat -> nat) (s : st) (es : list event) : st := fold_left (step sh) es s.
(** interner.rs:222-229,267-271 [eq]: the same cell. *)
Definition same (h g : handle) : bool := h_arc h =? h_arc g.
