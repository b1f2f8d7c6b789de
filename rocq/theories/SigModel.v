(** Model of the decisions that depend on why a compilation was made: exports and lints.
    crates/tinymist-world/src/snapshot.rs, crates/tinymist/src/task/export.rs, crates/tinymist/src/project.rs.
    The reasons themselves are those of SchedModel. *)
From Coq Require Import List Arith Bool.
From Verif Require Import SchedModel.
Import ListNotations.

(** crates/tinymist-world/src/args.rs:242-255 [TaskWhen]. *)
Inductive when := Never | OnSave | OnType | OnTitle.
(** snapshot.rs:59-79 [should_run_task]; a document is given by whether it has a title. *)
Definition should_run (r : reasons) (w : when) (doc : option bool) : option bool :=
  if match w with Never => false | _ => true end && by_entry r then Some true
  else match w with
       | Never => Some false
       | OnType => Some (by_mem r)
       | OnSave => Some (by_fs r)
       | OnTitle => if by_fs r then doc else Some false
       end.
(** export.rs:63-82 [signal_export] up to the queue: only with a document. *)
Definition need_export (r : reasons) (w : when) (doc : option bool) : bool :=
  match doc with
  | None => false
  | Some title =>
      (match w with Never => false | _ => true end && by_entry r)
      || match w with Never => false | OnType => by_mem r | OnSave => by_fs r | OnTitle => by_fs r && title end
  end.
(** project.rs:445-449: whether [notify_diagnostics] lints. *)
Definition should_lint (r : reasons) (w : when) (doc : option bool) : bool :=
  match should_run r w doc with Some b => b | None => false end.
