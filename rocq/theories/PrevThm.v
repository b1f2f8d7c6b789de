(** Theorems about the registration of previews (C48, C81). *)
From Coq Require Import List Arith Bool Lia.
From Verif Require Import AssocModel PrevModel PrevSpec PrevProof.
Import ListNotations.

(** C48: in every history, a project has at most one registered preview. *)
Theorem C48_exclusive : forall l, NoDup (akeys (watchers (fst (run init l)))).
Proof. intros l. apply run_exclusive. constructor. Qed.
Print Assumptions C48_exclusive.
(** C48: a start gets a slot exactly if it is in order and the slot is free (that of the primary project
    if it asks for it, or else that of its own); the slot is then its own, and the other slots are left
    alone.  A start that is refused leaves all slots alone, unless it gives [--static-file-host]. *)
Theorem C48_start : forall a k s, let '(s', o) := start_preview a k s in
  match expected a k s with
  | Some p => o = [Future (starts s) (p =? primary)] /\ slot s p = None /\ slot s' p = Some (a_task a, starts s) /\ forall q, q <> p -> slot s' q = slot s q
  | None => o = [Err] /\ (a_static_host a = false -> forall q, slot s' q = slot s q)
  end.
Proof. exact start_registers. Qed.
Print Assumptions C48_start.
(** C48: killing a preview (that is not a background preview) frees its slot and no other. *)
Theorem C48_kill : forall t x s, aget t (tabs s) = Some x -> t_background x = false ->
  let '(s', o) := kill t s in o = [Killed t] /\ slot s' (t_pid x) = None /\ (forall q, q <> t_pid x -> slot s' q = slot s q) /\ aget t (tabs s') = None.
Proof. exact kill_frees. Qed.
Print Assumptions C48_kill.
(** C48, in part: in histories without reloads and failures where living previews have different task
    ids, slots are held by exactly the living previews, which are of different projects. *)
Theorem C48_owner_partial : forall l, all_along orderly init l -> let s := fst (run init l) in
  NoDup (map t_pid (living s)) /\ forall p t i, slot s p = Some (t, i) <-> exists o, In o (living s) /\ t_pid o = p /\ t_task o = t /\ t_sid o = i.
Proof. exact owners. Qed.
Print Assumptions C48_owner_partial.
(** C48, in part: then, killing all previews frees all slots. *)
Theorem C48_drain_partial : forall l, all_along orderly init l -> let s := fst (run init l) in dead s = false -> pending s = [] -> actorq s = [] -> Forall (fun x => t_background (snd x) = false) (tabs s) ->
  forall p, slot (fst (run s (flat_map (fun x => [EKill [fst x]; EActor]) (tabs s)))) p = None.
Proof. exact drain. Qed.
Print Assumptions C48_drain_partial.

(** A preview of file 7 with a task id, and how it comes up. *)
Definition plain (t : nat) : args := mkArgs true t (Some (7, true)) false false.
Definition up (i : nat) : list event := [EBuilt i; EMain; EBound i; EActor].
Definition two : list event := EStart (plain 1) Regular :: up 0 ++ EStart (plain 2) Regular :: up 1.
Example C48_nonvacuous : let s := fst (run init two) in
  all_along calm init two /\ all_along orderly init two /\ dead s = false /\ pending s = [] /\ actorq s = [] /\ Forall (fun x => t_background (snd x) = false) (tabs s) /\
  slot s primary = Some (1, 0) /\ slot s 2 = Some (2, 1) /\ tabs s = [(2, mkTab 2 2 false false 1); (1, mkTab 1 primary true false 0)] /\ expected (plain 3) Regular s = Some 3.
Proof. vm_compute. repeat split; auto; try (intuition discriminate); repeat constructor. Qed.
(** C48 fails after a reload: the late kill of the old preview unregisters the new one, and two live
    previews have the same project. *)
Definition reloaded : list event := EStart (plain 1) Regular :: up 0 ++ [EReload; EStart (plain 2) Regular; EActor; EStart (plain 3) Regular].
Theorem C48_reload_refuted : exists l x y, let s := fst (run init l) in In x (living s) /\ In y (living s) /\ x <> y /\ t_pid x = t_pid y.
Proof. exists reloaded, (mkTab 2 0 true false 1), (mkTab 3 0 true false 2). vm_compute. repeat split; auto; discriminate. Qed.
Print Assumptions C48_reload_refuted.
(** C48 fails if the address cannot be bound, or with [--static-file-host]: the slot is taken and no
    preview lives, so that no kill can free it and no start gets it. *)
Theorem C48_leak_refuted :
  (exists l, let s := fst (run init l) in living s = [] /\ slot s primary = Some (1, 0) /\ expected (mkArgs true 2 None false false) Browsing s = None /\ snd (run s [EKill [1]; EActor]) = [NotFound 1]) /\
  (exists a, let s := fst (run init [EStart a Regular]) in living s = [] /\ slot s primary = Some (1, 0)).
Proof.
  split; [exists [EStart (plain 1) Regular; EBuilt 0; EFail 0]; vm_compute; auto|]. exists (mkArgs true 1 (Some (7, true)) false true). vm_compute. auto.
Qed.
Print Assumptions C48_leak_refuted.
(** C48 fails for two previews with the same task id (such as the default one): the second replaces the
    first, whose slot is never freed. *)
Theorem C48_same_id_refuted : exists l, let s := fst (run init l) in living s = [] /\ slot s primary = Some (1, 0) /\ snd (run s [EKill [1]; EActor]) = [NotFound 1].
Proof. exists (EStart (plain 1) Regular :: up 0 ++ EStart (plain 1) Regular :: up 1 ++ [EKill [1]; EActor]). vm_compute. auto. Qed.
Print Assumptions C48_same_id_refuted.
(** C48 fails for background previews: a kill is answered but does nothing. *)
Theorem C48_background_refuted : exists l t, let s := fst (run init l) in slot s primary = Some (t, 0) /\ slot (fst (run s [EKill [t]; EActor])) primary = Some (t, 0) /\ snd (run s [EKill [t]; EActor]) = [NotKilled t].
Proof. exists (EStart (mkArgs true 1 None false false) Background :: up 0), 1. vm_compute. auto. Qed.
Print Assumptions C48_background_refuted.
(** The command to kill without arguments, meant to kill all previews, is an error, and the actor is
    never asked to kill all. *)
Theorem C48_no_kill_all : (forall s, kill_preview [] s = (s, [Err])) /\ forall l s, ~ In KillAll (actorq s) -> ~ In KillAll (actorq (fst (kill_preview l s))).
Proof. split; [reflexivity|]. intros [|t l] s H; [exact H|]. cbn. rewrite in_app_iff. intros [A|[A|[]]]; [auto|discriminate]. Qed.
Print Assumptions C48_no_kill_all.
(** A start with the task id of a living preview is refused but restarts its project. *)
Example C48_refused_restart : let s := fst (run init two) in let '(s', o) := step s (EStart (plain 2) Regular) in
  o = [Err] /\ dedicates s = [(2, 1)] /\ dedicates s' = [(2, 2)] /\ slot s' 2 = Some (2, 1).
Proof. vm_compute. auto. Qed.
(** Kill and start of a primary preview, with the unpinning of the first after the second. *)
Example C48_late_unpin : let l := EStart (plain 1) Regular :: up 0 ++ [EKill [1]; EActor; EStart (plain 2) Regular; EMain] in
  all_along calm init l /\ slot (fst (run init l)) primary = Some (2, 1) /\ pinned (fst (run init l)) = (false, false).
Proof. vm_compute. repeat split; auto; try (intuition discriminate). Qed.

(** C81, in part: the server thread does not panic in histories without reloads and failures, where
    living previews have different task ids and a task id is used again only after its project is
    settled. *)
Theorem C81_alive_partial : forall l, all_along calm init l -> dead (fst (run init l)) = false.
Proof. exact run_alive. Qed.
Print Assumptions C81_alive_partial.
(** C81 fails: a reload between the start of a dedicated preview and its first compilation. *)
Theorem C81_reload_refuted : exists l, dead (fst (run init l)) = true /\ forall e, In e l -> match e with EFail _ => False | EStart a _ => in_order a Regular = true | _ => True end.
Proof.
  exists (EStart (plain 1) Regular :: up 0 ++ [EStart (plain 2) Regular; EReload; EBuilt 1; EMain]). split; [vm_compute; reflexivity|]. cbn. intros e H. repeat (destruct H as [<-|H]; [cbn; auto|]). destruct H.
Qed.
Print Assumptions C81_reload_refuted.
(** C81 fails: a dedicated preview is killed and started again before its project is settled. *)
Theorem C81_settle_refuted : exists l, dead (fst (run init l)) = true /\ all_along orderly init l.
Proof.
  exists (two ++ [EKill [2]; EActor; EStart (plain 2) Regular; EMain; EBuilt 2; EMain]). vm_compute. repeat split; auto; try (intuition discriminate).
Qed.
Print Assumptions C81_settle_refuted.
Example C81_nonvacuous : all_along calm init (two ++ [EKill [2]; EActor; EMain; EStart (plain 2) Regular] ++ up 2).
Proof. vm_compute. repeat split; auto; try (intuition discriminate). Qed.
