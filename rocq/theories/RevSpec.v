(** What the revisioned caches promise (C36, C67, C68). *)
From Coq Require Import List Arith Bool.
From Verif Require Import AssocModel RevModel.
Import ListNotations.

(** ** C36 *)
(** Request [i] is under way and holds a lock on revision [e]. *)
Definition holds_lock (s : ast) (i e : nat) : Prop := exists q, aget i (a_reqs s) = Some q /\ q_est q = e.
(** The cache has the slot [c] for revision [r]. *)
Definition has_slot (s : ast) (r : nat) (c : cache) : Prop := In (r, c) (m_slots (a_mgr s)).

(** ** C67 *)
(** Two requests on the same revision see the same files. *)
Definition one_view (es : list aevent) : Prop :=
  forall i j r w w', In (Lock i r w) es -> In (Lock j r w') es -> w = w'.
(** No request enters the cache for an older revision than another before it. *)
Fixpoint in_order (imports : nat -> list nat) (s : ast) (es : list aevent) : Prop :=
  match es with
  | [] => True
  | e :: r =>
      (forall i q, e = Enter i -> aget i (a_reqs s) = Some q -> m_est (a_mgr s) <= q_rev q) /\
      in_order imports (fst (astep imports s e)) r
  end.
(** Every answer is that of an analysis of the files the request sees. *)
Fixpoint answers_fresh (imports : nat -> list nat) (s : ast) (es : list aevent) : Prop :=
  match es with
  | [] => True
  | e :: r =>
      (forall i k q v, e = Compute i k -> aget i (a_reqs s) = Some q -> snd (astep imports s e) = AVal v ->
         v = map (q_view q) (imports k)) /\
      answers_fresh imports (fst (astep imports s e)) r
  end.

(** ** C68 *)
(** The ids answered so far. *)
Definition answered (os : list tout) : list nat :=
  flat_map (fun o => match o with TTok _ i _ => [i] | _ => [] end) os.
(** Every previous id a client names was answered to it before, for that path. *)
Definition known_ids (es : list tevent) : Prop :=
  forall pre post h p i, es = pre ++ Acquire h p (Some i) :: post ->
    exists b, In (TTok p i b) (snd (trun tst0 pre)).
