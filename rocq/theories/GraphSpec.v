(** What C92 and C93 say about histories of GraphModel. *)
From Coq Require Import List Arith Bool.
From Verif Require Import GraphModel.
Import ListNotations.

(** The computation of the graph is done, with this result. *)
Definition done (s : st) (g : nat) (T : task) (v : value) : Prop := exists c, entry s g T = Some c /\ content s c = Full v.
(** No thread is in a computation. *)
Definition quiet (s : st) : Prop := Forall (fun l => l = []) (s_threads s).
(** Only steps of threads. *)
Definition is_step (e : event) : bool := match e with Step _ => true | _ => false end.
Definition is_crash (e : event) : bool := match e with Crash _ => true | _ => false end.
Definition is_fork (e : event) : bool := match e with Fork _ _ => true | _ => false end.
(** What a computation asks for. *)
Definition deps (T : task) : list task := match T with Flag _ => [] | Comp h => [Flag h] | Doc h => [Comp h] | Diag => [Comp false; Comp true] end.
Definition is_flag (T : task) : bool := match T with Flag _ => true | _ => false end.
(** The flags are provided before anything is asked of a graph, and are not asked for themselves. *)
Definition proper_event (s : st) (e : event) : Prop :=
  match e with
  | Ask g T => is_flag T = false /\ (exists b, done s g (Flag true) (VFlag b)) /\ (exists b, done s g (Flag false) (VFlag b))
  | Get g T => is_flag T = false -> (exists b, done s g (Flag true) (VFlag b)) /\ (exists b, done s g (Flag false) (VFlag b))
  | _ => True
  end.
(** A graph is forked only when what its entries ask for has entries, too. *)
Definition closed_event (s : st) (e : event) : Prop :=
  match e with Fork g _ => forall T, entry s g T <> None -> forall T', In T' (deps T) -> entry s g T' <> None | _ => True end.
Fixpoint always (P : st -> event -> Prop) (O : nat -> outcome) (s : st) (es : list event) : Prop :=
  match es with [] => True | e :: r => P s e /\ always P O (step O s e) r end.
(** No fork is of another snapshot. *)
Definition keeps_snap (e : event) : bool := match e with Fork _ (Some _) => false | _ => true end.
