(** * Model of the files and the date a world remembers

    crates/tinymist-world/src/source.rs 14-126, the parts of
    crates/tinymist-world/src/world.rs that create worlds from a universe and
    from other worlds (155-173, 464-535, 696-735, 764-769), and
    crates/tinymist-std/src/concepts/query.rs 12-60.

    A world of the compiler keeps a table of the files it has read.  The table
    sits behind a shared pointer: worlds derived from one another share it.
    The operations on a table are done under its lock, so the model treats
    each as one step, and an execution is a list of steps of any worlds in any
    order.

    Simplifications.  Files are numbers.  What the file system of a world
    holds is an oracle per world (its view): it is what [Vfs::read] and
    [Vfs::source] return, errors included, and a step can replace it, as
    mapping and unmapping of shadow files does.  The time is what the clock
    shows at a step. *)

From Coq Require Import List Arith Bool Lia.
Import ListNotations.

(** The two ways to read a file, as a source and as bytes
    (crates/tinymist-world/src/source.rs 83-96). *)
Inductive kind := Source | Bytes.

(** Comparison of kinds, which fields of a slot are
    (crates/tinymist-world/src/source.rs 14-19). *)
Definition kind_eqb (a b : kind) : bool :=
  match a, b with Source, Source | Bytes, Bytes => true | _, _ => false end.

(** What a read yields: content or an error, both as a number
    (crates/tinymist-world/src/source.rs 12). *)
Definition res := nat.

(** What the file system of a world holds
    (crates/tinymist-world/src/world.rs 650-662). *)
Definition view := kind -> nat -> res.

(** One slot: the file, whether a compilation has touched it, and the two
    cells (crates/tinymist-world/src/source.rs 14-19). *)
Record slot := mkSlot {
  s_file : nat; s_touched : bool; s_source : option res; s_bytes : option res }.

(** A cell of a slot (crates/tinymist-world/src/source.rs 17-18). *)
Definition cell (k : kind) (s : slot) : option res :=
  match k with Source => s_source s | Bytes => s_bytes s end.

(** [QueryRef::compute]: the value of the cell, or the first value computed
    (crates/tinymist-std/src/concepts/query.rs 38-50). *)
Definition compute (k : kind) (r : res) (s : slot) : res * slot :=
  match cell k s with
  | Some x => (x, s)
  | None =>
      (r, match k with
          | Source => mkSlot (s_file s) (s_touched s) (Some r) (s_bytes s)
          | Bytes => mkSlot (s_file s) (s_touched s) (s_source s) (Some r)
          end)
  end.

(** A slot that is made or found, and marked
    (crates/tinymist-world/src/source.rs 99-115). *)
Definition mark (compiling : bool) (s : slot) : slot :=
  if compiling && negb (s_touched s)
  then mkSlot (s_file s) true (s_source s) (s_bytes s) else s.

(** A slot as it is made (crates/tinymist-world/src/source.rs 102-107). *)
Definition fresh (compiling : bool) (f : nat) : slot :=
  mkSlot f compiling None None.

(** [SourceDb::source] and [SourceDb::file] on the slots
    (crates/tinymist-world/src/source.rs 83-115). *)
Fixpoint read (compiling : bool) (k : kind) (f : nat) (r : res) (t : list slot)
  : res * list slot :=
  match t with
  | [] => let (x, s) := compute k r (mark compiling (fresh compiling f)) in (x, [s])
  | s :: t' =>
      if Nat.eqb (s_file s) f
      then let (x, s') := compute k r (mark compiling s) in (x, s' :: t')
      else let (x, t'') := read compiling k f r t' in (x, s :: t'')
  end.

(** [iter_dependencies_dyn] (crates/tinymist-world/src/source.rs 75-82). *)
Definition dependencies (t : list slot) : list nat :=
  map s_file (filter s_touched t).

(** A world: the flag and the table of its database, what its file system
    holds, and the time it has fetched
    (crates/tinymist-world/src/world.rs 439-462). *)
Record world := mkWorld {
  w_compiling : bool; w_table : nat; w_view : view; w_now : option nat }.

(** All tables and all worlds of an execution, in order of creation
    (crates/tinymist-world/src/source.rs 27-32; the number of a table stands
    for the shared pointer). *)
Record state := mkState { tables : list (list slot); worlds : list world }.

(** The steps of an execution (crates/tinymist-world/src/world.rs 155-173,
    477-535, 611-648, 690-769).  Worlds are named by number. *)
Inductive event :=
  | Snapshot (v : view)              (** crates/tinymist-world/src/world.rs 155-173 *)
  | Task (w clock : nat)             (** crates/tinymist-world/src/world.rs 477-511 *)
  | Compiling (w : nat) (b : bool)   (** crates/tinymist-world/src/world.rs 532-534 *)
  | TakeDb (w : nat)                 (** crates/tinymist-world/src/world.rs 521-523 *)
  | Remap (w : nat) (v : view)       (** crates/tinymist-world/src/world.rs 611-648 *)
  | Read (w : nat) (k : kind) (f : nat) (** crates/tinymist-world/src/world.rs 690-705 *)
  | Deps (w : nat)                   (** crates/tinymist-world/src/world.rs 764-769 *)
  | Today (w clock : nat).           (** crates/tinymist-world/src/world.rs 714-729 *)

(** What a step shows (crates/tinymist-world/src/world.rs 690-769). *)
Inductive shown :=
  | Nothing            (** crates/tinymist-world/src/world.rs 532-534: no result *)
  | Content (r : res)  (** crates/tinymist-world/src/world.rs 690-705 *)
  | Files (l : list nat) (** crates/tinymist-world/src/world.rs 764-769 *)
  | Time (t : nat).    (** crates/tinymist-world/src/world.rs 714-729 *)

(** The place of the detached entry: a file that is never looked up
    (crates/tinymist-world/src/world.rs 690-697).  Number 0 is its id. *)
Definition detached : nat := 0.

(** The empty source it yields (crates/tinymist-world/src/world.rs 691-692). *)
Definition detached_source : res := 0.

(** Replaces the element of a list at a place (assignment to a field of a
    world or a table; crates/tinymist-world/src/world.rs 532-534). *)
Fixpoint set {A} (i : nat) (x : A) (l : list A) : list A :=
  match l, i with
  | [], _ => []
  | _ :: l', 0 => x :: l'
  | y :: l', S i' => y :: set i' x l'
  end.

(** The time a world shows, fetched when first asked for
    (crates/tinymist-world/src/world.rs 718 and 747). *)
Definition fetch (clock : nat) (w : world) : nat * world :=
  match w_now w with
  | Some t => (t, w)
  | None => (clock, mkWorld (w_compiling w) (w_table w) (w_view w) (Some clock))
  end.

(** One step (crates/tinymist-world/src/world.rs, lines at the events). A step of a world that does not
    exist does nothing. *)
Definition step (e : event) (s : state) : shown * state :=
  match e with
  | Snapshot v =>
      (Nothing, mkState (tables s ++ [[]])
                        (worlds s ++ [mkWorld true (length (tables s)) v None]))
  | Task i clock =>
      match nth_error (worlds s) i with
      | None => (Nothing, s)
      | Some w => let (_, w') := fetch clock w in
          (Nothing, mkState (tables s) (set i w' (worlds s) ++ [w']))
      end
  | Compiling i b =>
      match nth_error (worlds s) i with
      | None => (Nothing, s)
      | Some w => (Nothing, mkState (tables s)
          (set i (mkWorld b (w_table w) (w_view w) (w_now w)) (worlds s)))
      end
  | TakeDb i =>
      match nth_error (worlds s) i with
      | None => (Nothing, s)
      | Some w => (Nothing, mkState (tables s ++ [[]])
          (set i (mkWorld (w_compiling w) (length (tables s)) (w_view w) (w_now w))
               (worlds s)))
      end
  | Remap i v =>
      match nth_error (worlds s) i with
      | None => (Nothing, s)
      | Some w => (Nothing, mkState (tables s)
          (set i (mkWorld (w_compiling w) (w_table w) v (w_now w)) (worlds s)))
      end
  | Read i k f =>
      match nth_error (worlds s) i with
      | None => (Nothing, s)
      | Some w =>
          if kind_eqb k Source && Nat.eqb f detached then (Content detached_source, s)
          else
            let (x, t) := read (w_compiling w) k f (w_view w k f)
                               (nth (w_table w) (tables s) []) in
            (Content x, mkState (set (w_table w) t (tables s)) (worlds s))
      end
  | Deps i =>
      match nth_error (worlds s) i with
      | None => (Nothing, s)
      | Some w => (Files (dependencies (nth (w_table w) (tables s) [])), s)
      end
  | Today i clock =>
      match nth_error (worlds s) i with
      | None => (Nothing, s)
      | Some w => let (t, w') := fetch clock w in
          (Time t, mkState (tables s) (set i w' (worlds s)))
      end
  end.

(** An execution: one step after the other, since the table is locked during
    a step (crates/tinymist-world/src/source.rs 99-115). *)
Fixpoint run (es : list event) (s : state) : state :=
  match es with [] => s | e :: es' => run es' (snd (step e s)) end.

(** No worlds (crates/tinymist-world/src/source.rs 27-32). *)
Definition start : state := mkState [] [].

(** What a step shows after an execution
    (crates/tinymist-world/src/source.rs 83-96). *)
Definition shows (es : list event) (e : event) : shown := fst (step e (run es start)).

(** [CompileTask::execute]: the compilation works on a clone of the world it
    is given, whose flag is switched on and off; [n] is the number of the clone
    (crates/tinymist-world/src/compute.rs 258-282; the world is borrowed, so
    [to_mut] clones it, and [paged_task] and [html_task] own a clone already). *)
Definition execute (w n clock : nat) (reads : list (kind * nat)) : list event :=
  Task w clock :: Compiling n true :: map (fun x => Read n (fst x) (snd x)) reads
  ++ [Compiling n false].
