(** Theorems about the compiler universe (C49). *)
From Coq Require Import List Arith Bool Lia.
From Verif Require Import UnivModel UnivSpec UnivProof.
Import ListNotations.

(** C49.  Between two points of a history with the same revision, reached by
    sessions of [increment_revision], nothing a compilation can see has changed.
    Missing: the operations refuted below. *)
Theorem C49_same_revision_partial : forall frev rrev v before between, honest frev -> honest rrev -> Forall regular between ->
  v_revision (run frev rrev v (before ++ between)) = v_revision (run frev rrev v before) ->
  view (run frev rrev v (before ++ between)) = view (run frev rrev v before).
Proof. intros frev rrev v a b Hf Hr. exact (same_revision frev rrev Hf Hr v a b). Qed.
Print Assumptions C49_same_revision_partial.
(** Hence a project hands out snapshots of the current state, although it keeps
    the last one and compares only revisions. *)
Theorem C49_snapshots_are_current_partial : forall frev rrev v es w, honest frev -> honest rrev -> Forall regular_event es ->
  let p := prun frev rrev (v, None) es in
  snd (pstep frev rrev p Snap) = Some w -> view w = view (fst p) /\ v_revision w = v_revision (fst p).
Proof. intros frev rrev v es w Hf Hr. exact (snap_current frev rrev Hf Hr v es w). Qed.
Print Assumptions C49_snapshots_are_current_partial.

(** Font resolvers 1-9 report their number, others nothing. *)
Definition rev1 (n : nat) : option nat := if n <? 10 then Some n else None.
Lemma rev1_honest : honest rev1.
Proof. intros a b r. unfold rev1. destruct (a <? 10), (b <? 10); congruence. Qed.
Definition v0 : verse := new_raw (mkEntry 1 1) 0 1 1.
Example C49_nonvacuous :
  let a := [Session [SetFonts 2; Vfs true]; Session [MutateEntry (mkEntry 2 5)]] in
  let b := [Session [SetFonts 5; SetFonts 2; Vfs false]; Evict; Session [SetPackage 1]] in
  honest rev1 /\ Forall regular b /\
  v_revision (run rev1 rev1 v0 (a ++ b)) = v_revision (run rev1 rev1 v0 a) /\ v_revision (run rev1 rev1 v0 a) = 3 /\
  view (run rev1 rev1 v0 a) = (mkEntry 2 5, 0, 2, 1, 4) /\
  v_revision (run rev1 rev1 v0 (a ++ b ++ [Session [SetFonts 10]])) = 4.
Proof. split; [exact rev1_honest|]. split; [repeat constructor|]. vm_compute. auto. Qed.
Example C49_snapshots_nonvacuous :
  let es := [Op (Session [Vfs true]); Snap; Op (Session [SetInputs 4]); Snap; Op Evict] in
  Forall regular_event es /\ snd (pstep rev1 rev1 (prun rev1 rev1 (v0, None) es) Snap) = Some (mkVerse (mkEntry 1 1) 4 1 1 3 3).
Proof. split; [repeat constructor|]. vm_compute. auto. Qed.

(** [EntryManager::mutate_entry] and [with_entry_file] change the entry without
    raising the revision: their sessions call private functions of the universe
    instead of the methods of the session. *)
Theorem C49_entry_manager_refuted : exists v e, v_revision (step rev1 rev1 v (ManagerMutate e)) = v_revision v /\
  view (step rev1 rev1 v (ManagerMutate e)) <> view v.
Proof. exists v0, (mkEntry 2 7). split; [reflexivity|]. vm_compute. discriminate. Qed.
Print Assumptions C49_entry_manager_refuted.
Theorem C49_with_entry_file_refuted : exists v e, v_revision (step rev1 rev1 v (WithEntryFile (Some e))) = v_revision v /\
  view (step rev1 rev1 v (WithEntryFile (Some e))) <> view v.
Proof. exists v0, (mkEntry 1 7). split; [reflexivity|]. vm_compute. discriminate. Qed.
Print Assumptions C49_with_entry_file_refuted.
(** The snapshot a project keeps is then out of date. *)
Theorem C49_stale_snapshot_refuted : exists es w, let p := prun rev1 rev1 (v0, None) es in
  snd (pstep rev1 rev1 p Snap) = Some w /\ v_entry w <> v_entry (fst p).
Proof. exists [Snap; Op (ManagerMutate (mkEntry 2 7))]. eexists. split; [vm_compute; reflexivity|]. vm_compute. discriminate. Qed.
Print Assumptions C49_stale_snapshot_refuted.
(** [reset] drops what is known about files without raising the revision. *)
Theorem C49_reset_refuted : exists v, v_revision (step rev1 rev1 v Reset_) = v_revision v /\ view (step rev1 rev1 v Reset_) <> view v.
Proof. exists v0. split; [reflexivity|]. vm_compute. discriminate. Qed.
Print Assumptions C49_reset_refuted.
(** Worlds made for a task carry the revision of the universe whatever their
    entry and inputs are; the analysis caches are looked up by it. *)
Theorem C49_task_world_refuted : exists v e i, v_revision (snapshot_with v (Some e) (Some i)) = v_revision (snapshot_with v None None) /\
  view (snapshot_with v (Some e) (Some i)) <> view (snapshot_with v None None).
Proof. exists v0, (mkEntry 1 9), 3. split; [reflexivity|]. vm_compute. discriminate. Qed.
Print Assumptions C49_task_world_refuted.
