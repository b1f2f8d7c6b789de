(** What C23 and C65 say. *)
From Coq Require Import List Arith Bool.
From Verif Require Import MemModel.
Import ListNotations.

(** The contents of a file in the editor after an update of it: the last insert
    of the update, otherwise nothing if it is removed or everything is
    replaced, otherwise as before. *)
Definition after (u : update) (before : option nat) (p : nat) : option nat :=
  match find (fun x => fst x =? p) (rev (u_inserts u)) with
  | Some (_, c) => Some c
  | None => if existsb (fun x => x =? p) (u_removes u) || u_sync u then None else before
  end.
(** The contents of a file in the editor after a history. *)
Fixpoint editor (p : nat) (es : list event) (now : option nat) : option nat :=
  match es with
  | [] => now
  | Edit u :: r => editor p r (after u now p)
  | Return :: r => editor p r now
  end.
(** No update overtakes others: an update arriving while others are on their
    way through the watcher is sent to the watcher too. *)
Fixpoint in_order (s : st) (es : list event) : Prop :=
  match es with
  | [] => True
  | e :: r =>
      (m_sent s <> [] -> forall u, snd (step s e) <> ODirect u) /\ in_order (fst (step s e)) r
  end.
