(** What is expected of the map with undo log (C33): a stack of copies. *)
From Coq Require Import List Arith Bool.
From Verif Require Import SnapModel.
Import ListNotations.

(** Contents as a function, and the copies taken by the open snapshots. *)
Definition rstate := ((nat -> option nat) * list (nat -> option nat))%type.
Definition put (m : nat -> option nat) (k : nat) (v : option nat) : nat -> option nat := fun x => if x =? k then v else m x.
Definition rstep (x : rstate) (c : scall) : rstate * option bool :=
  let '(m, ms) := x in
  match c with
  | SInsert k v => ((put m k (Some v), ms), Some (match m k with None => true | Some _ => false end))
  | SRemove k => ((put m k None, ms), Some (match m k with None => false | Some _ => true end))
  | SClear => ((fun _ => None, ms), None)
  | SSnapshot => ((m, m :: ms), None)
  | SRollback => match ms with [] => (x, None) | m' :: r => ((m', r), None) end
  | SCommit => match ms with [] => (x, None) | _ :: r => ((m, r), None) end
  end.
Fixpoint rrun (x : rstate) (cs : list scall) : rstate * list (option bool) :=
  match cs with [] => (x, []) | c :: r => let '(x1, b) := rstep x c in let '(x2, bs) := rrun x1 r in (x2, b :: bs) end.
Definition rstate0 : rstate := (fun _ => None, []).
(** Nobody clears the map while a snapshot is open. *)
Fixpoint no_clear_inside (depth : nat) (cs : list scall) : Prop :=
  match cs with
  | [] => True
  | SClear :: r => depth = 0 /\ no_clear_inside depth r
  | SSnapshot :: r => no_clear_inside (S depth) r
  | SRollback :: r | SCommit :: r => no_clear_inside (pred depth) r
  | _ :: r => no_clear_inside depth r
  end.
(** A piece of a history that closes the snapshots it opens, no others, and does not clear. *)
Inductive balanced : list scall -> Prop :=
| bal_nil : balanced []
| bal_insert k v r : balanced r -> balanced (SInsert k v :: r)
| bal_remove k r : balanced r -> balanced (SRemove k :: r)
| bal_rollback b r : balanced b -> balanced r -> balanced (SSnapshot :: b ++ SRollback :: r)
| bal_commit b r : balanced b -> balanced r -> balanced (SSnapshot :: b ++ SCommit :: r).
