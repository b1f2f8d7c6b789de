(** Why a compilation is made, told from the events alone (C90, C91). *)
From Coq Require Import List Arith Bool.
From Verif Require Import SchedModel.
Import ListNotations.

(** What an interrupt is for a project. *)
Definition cause (i : intr) (id : nat) : reasons :=
  match i with
  | Compile j | ChangeTask j _ _ => if j =? id then mkReasons false false true else mkReasons false false false
  | Font ch => mkReasons false false (ch id)
  | Memory ch => mkReasons (ch id) false false
  | Fs ch => mkReasons false (ch id) false
  | _ => mkReasons false false false
  end.
(** A compilation of the project was started or found needless. *)
Definition decision (id : nat) (x : out) : bool := match x with OStart i _ | OSkip i _ => i =? id | _ => false end.
Definition both (a b : reasons) : reasons := mkReasons (by_mem a || by_mem b) (by_fs a || by_fs b) (by_entry a || by_entry b).
(** The causes with those of the event [e]. *)
Definition with_event (c : nat -> reasons) (e : event) (id : nat) : reasons :=
  match e with
  | Interrupt i _ => both (c id) (cause i id)
  | Recreate i _ => if i =? id then mkReasons false false true else c id
  | Reload _ => mkReasons false false false
  | _ => c id
  end.
(** The causes that no compilation was decided for yet. *)
Fixpoint causes (s : st) (es : list event) (c : nat -> reasons) : nat -> reasons :=
  match es with
  | [] => c
  | e :: r => causes (fst (step s e)) r
      (fun id => if existsb (decision id) (snd (step s e)) then mkReasons false false false else with_event c e id)
  end.
Definition since_last (entry : nat) (es : list event) : nat -> reasons := causes (init entry) es (fun _ => mkReasons false false false).
(** The compilations that the event starts. *)
Definition started (s : st) (e : event) : list (nat * snap) := skipn (length (s_tasks s)) (s_tasks (fst (step s e))).
