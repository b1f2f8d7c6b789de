(** What is expected of the registration of previews (C48, C81). *)
From Coq Require Import List Arith Bool.
From Verif Require Import AssocModel PrevModel.
Import ListNotations.

(** The previews that live: being started, announced to the actor, or known to it. *)
Definition announced (q : list request) : list tab := flat_map (fun r => match r with Started t => [t] | _ => [] end) q.
Definition living (s : st) : list tab := map fst (pending s) ++ announced (actorq s) ++ map snd (tabs s).
(** The slot of a project. *)
Definition slot (s : st) (pid : nat) : option (nat * nat) := aget pid (watchers s).
Definition free (s : st) (pid : nat) : bool := match slot s pid with None => true | Some _ => false end.
(** Whether a start is in order, and the slot it gets: that of the primary project if it asks for it (by
    browsing, or by giving an entry) and that is free, or else that of its own project. *)
Definition in_order (a : args) (k : kind) : bool :=
  a_parse a && match a_entry a with Some (_, abs) => abs | None => true end && negb (a_task a =? primary)
  && negb (a_not_primary a && match k with Background => true | _ => false end) && negb (a_static_host a).
Definition has_entry (a : args) : bool := match a_entry a with Some _ => true | None => false end.
Definition asks_primary (a : args) (k : kind) : bool := negb (a_not_primary a) && match k with Regular => has_entry a | _ => true end.
Definition expected (a : args) (k : kind) (s : st) : option nat :=
  if negb (in_order a k) then None
  else if asks_primary a k && free s primary then Some primary
  else match k with Background => None | _ => if has_entry a && free s (a_task a) then Some (a_task a) else None end.
(** Histories in which nothing fails or is reloaded, and no task id is used that a living preview has. *)
Definition orderly (s : st) (e : event) : Prop :=
  match e with EReload | EFail _ => False | EStart a _ => a_static_host a = false /\ ~ In (a_task a) (map t_task (living s)) | _ => True end.
(** Also, no task id is used again before its former project is settled. *)
Definition calm (s : st) (e : event) : Prop := orderly s e /\ match e with EStart a _ => ~ In (Settle (a_task a)) (mainq s) | _ => True end.
Fixpoint all_along (P : st -> event -> Prop) (s : st) (l : list event) : Prop :=
  match l with [] => True | e :: l => P s e /\ all_along P (fst (step s e)) l end.
