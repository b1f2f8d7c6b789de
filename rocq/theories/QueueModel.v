(** Model of the background queue of exports and word counts:
    crates/tinymist/src/task/mod.rs:44-111 (FutureFolder), used by
    crates/tinymist/src/task/export.rs:63-130. *)
From Coq Require Import List Arith Bool.
Import ListNotations.

(** A job: the project it belongs to, the revision of its world and its content
    (the captured artifact and settings); export.rs:84-92. *)
Record job := mkJob { j_proj : nat; j_rev : nat; j_data : nat }.
(** mod.rs:46-50 [FoldingState], and the futures that [spawn] returned and that still run
    (mod.rs:97-109), each with the job it awaits. *)
Record queue := mkQ { q_running : bool; q_task : option job; q_loops : list (option job) }.
(** mod.rs:46 [Default]. *)
Definition queue0 : queue := mkQ false None [].
(** What can happen: a submission (export.rs:85,110; the caller hands the future to the
    executor at export.rs:94,127), a future takes the lock (mod.rs:99-106), the awaited job of
    a future ends or panics (mod.rs:107). *)
Inductive qev := Submit (j : job) | Take (i : nat) | Done (i : nat) | Panicked (i : nat).
(** Effects: a job is started, has ended, or has panicked; mod.rs:107. *)
Inductive qout := Started (j : job) | Ended (j : job) | Broken (j : job).
(** Replace the future at a place; for mod.rs:97-109. *)
Fixpoint set_nth {A} (i : nat) (x : A) (l : list A) : list A :=
  match l, i with [], _ => [] | _ :: r, 0 => x :: r | y :: r, S i => y :: set_nth i x r end.
(** Remove the future at a place; for mod.rs:103. *)
Fixpoint del_nth {A} (i : nat) (l : list A) : list A :=
  match l, i with [], _ => [] | _ :: r, 0 => r | y :: r, S i => y :: del_nth i r end.
(** mod.rs:67-94: the part of [spawn] under the lock. *)
Definition submit (q : queue) (j : job) : queue :=
  match q_task q with
  | Some p => if j_rev p <? j_rev j then mkQ (q_running q) (Some j) (q_loops q) else q
  | None => if q_running q then mkQ true (Some j) (q_loops q) else mkQ true (Some j) (q_loops q ++ [None])
  end.
(** One step; mod.rs:67-110. *)
Definition qstep (q : queue) (ev : qev) : queue * list qout :=
  match ev with
  | Submit j => (submit q j, [])
  | Take i => match nth_error (q_loops q) i with
              | Some None => match q_task q with
                             | Some j => (mkQ (q_running q) None (set_nth i (Some j) (q_loops q)), [Started j])
                             | None => (mkQ false None (del_nth i (q_loops q)), [])
                             end
              | _ => (q, [])
              end
  | Done i => match nth_error (q_loops q) i with
              | Some (Some j) => (mkQ (q_running q) (q_task q) (set_nth i None (q_loops q)), [Ended j])
              | _ => (q, [])
              end
  | Panicked i => match nth_error (q_loops q) i with
                  | Some (Some j) => (mkQ (q_running q) (q_task q) (del_nth i (q_loops q)), [Broken j])
                  | _ => (q, [])
                  end
  end.
(** A history; driver of [qstep], mod.rs:67-110. *)
Fixpoint qrun (q : queue) (evs : list qev) : queue * list qout :=
  match evs with
  | [] => (q, [])
  | ev :: r => let '(q1, o1) := qstep q ev in let '(q2, o2) := qrun q1 r in (q2, o1 ++ o2)
  end.
