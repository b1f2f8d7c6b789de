(** Theorems about the file watcher (C24, C25, C66). *)
From Coq Require Import List Arith Bool Lia.
From Verif Require Import AssocModel WatchModel WatchSpec WatchProof.
Import ListNotations.

(** C24.  For every tracked path that is readable and not empty, and whose last
    change the operating system has announced, the reports received so far carry
    what is on disk.  Missing: paths that end up deleted or empty, see below. *)
Theorem C24_current_content_partial : forall disk es s o p, run (init disk) es = (s, o) ->
  tracked s p -> unseen p es false = false -> full (w_disk s p) = true -> reported p o None = Some (w_disk s p).
Proof. exact reports_current. Qed.
Print Assumptions C24_current_content_partial.

Definition disk0 : nat -> file := fun _ => Ok 7.
Definition all : nat -> bool := fun _ => true.

(** A file that is deleted and stays deleted is never reported: the watcher
    stores the error as the previous result when it starts to wait, and after the
    delay finds that nothing has changed.  No recheck is left waiting. *)
Theorem C24_deletion_refuted : exists es s o p, run (init disk0) es = (s, o) /\
  tracked s p /\ unseen p es false = false /\ w_disk s p = Err 0 /\ w_wait s = [] /\ reported p o None = Some (Ok 7).
Proof.
  exists [Sync [1] all; Disk 1 (Err 0); Os [1] true; Recheck 0]. eexists. eexists. exists 1.
  split; [vm_compute; reflexivity|]. split; [eexists; reflexivity|]. repeat split.
Qed.
Print Assumptions C24_deletion_refuted.
(** The same for a file that becomes empty. *)
Theorem C24_truncation_refuted : exists es s o p, run (init disk0) es = (s, o) /\
  tracked s p /\ unseen p es false = false /\ w_disk s p = Ok 0 /\ w_wait s = [] /\ reported p o None = Some (Ok 7).
Proof.
  exists [Sync [1] all; Disk 1 (Ok 0); Os [1] false; Recheck 0]. eexists. eexists. exists 1.
  split; [vm_compute; reflexivity|]. split; [eexists; reflexivity|]. repeat split.
Qed.
Print Assumptions C24_truncation_refuted.
(** A file replaced by deletion and creation within the delay: the event of the
    deletion ends the watch, the recheck does not look at the disk again, and the
    new content goes unnoticed while nothing else happens. *)
Theorem C24_replacement_refuted : exists es s o p, run (init disk0) es = (s, o) /\
  tracked s p /\ w_disk s p = Ok 8 /\ w_wait s = [] /\ reported p o None = Some (Ok 7) /\ ~ watched s p.
Proof.
  exists [Sync [1] all; Disk 1 (Err 0); Os [1] true; Disk 1 (Ok 8); Recheck 0]. eexists. eexists. exists 1.
  split; [vm_compute; reflexivity|]. split; [eexists; reflexivity|]. repeat split.
  intros (e & H1 & H2). vm_compute in H1. inversion H1; subst. discriminate.
Qed.
Print Assumptions C24_replacement_refuted.
Example C24_nonvacuous : exists disk es s o p, run (init disk) es = (s, o) /\
  tracked s p /\ unseen p es false = false /\ full (w_disk s p) = true /\ w_disk s p <> disk p.
Proof.
  exists disk0, [Sync [1; 2] all; Disk 1 (Ok 0); Os [1] false; Disk 1 (Ok 9); Os [1] false; Recheck 0]. eexists. eexists. exists 1.
  split; [vm_compute; reflexivity|]. split; [eexists; reflexivity|]. repeat split. discriminate.
Qed.

(** C25.  A path that is readable and not empty all the time is never reported
    twice in a row with the same content.  Missing: paths that are empty or
    unreadable for a while. *)
Theorem C25_no_duplicate_reports_partial : forall disk es s o p, run (init disk) es = (s, o) ->
  full (disk p) = true -> always_full p es = true -> ~ repeats p o.
Proof. exact reports_change. Qed.
Print Assumptions C25_no_duplicate_reports_partial.
(** A file that is empty for a moment, as while an editor saves it, and comes
    back unchanged is reported again. *)
Theorem C25_save_unchanged_refuted : exists es s o p, run (init disk0) es = (s, o) /\ repeats p o.
Proof.
  exists [Sync [1] all; Disk 1 (Ok 0); Os [1] false; Disk 1 (Ok 7); Os [1] false]. eexists. eexists. exists 1.
  split; [vm_compute; reflexivity|]. exists [], (Ok 7), [], []. repeat split; auto.
Qed.
Print Assumptions C25_save_unchanged_refuted.
(** A file that becomes unreadable after it went missing: the error is reported
    after the delay but not remembered, so the next event reports it again. *)
Theorem C25_error_repeats_refuted : exists es s o p, run (init disk0) es = (s, o) /\ repeats p o /\
  reported p o None = Some (Err 2).
Proof.
  exists [Sync [1] all; Disk 1 (Err 0); Os [1] false; Disk 1 (Err 2); Os [1] false; Recheck 0; Os [1] false]. eexists. eexists. exists 1.
  split; [vm_compute; reflexivity|]. split; [|reflexivity]. exists [Now 1 (Ok 7)], (Err 2), [], []. repeat split; auto.
Qed.
Print Assumptions C25_error_repeats_refuted.
Example C25_nonvacuous : exists disk es s o p, run (init disk) es = (s, o) /\
  full (disk p) = true /\ always_full p es = true /\ o = [Now p (Ok 7); Now p (Ok 8); Now p (Ok 7)].
Proof.
  exists disk0, [Sync [1] all; Os [1] false; Disk 1 (Ok 8); Os [1] false; Disk 1 (Ok 7); Os [1] false; Sync [1] all]. eexists. eexists. exists 1.
  split; [vm_compute; reflexivity|]. repeat split.
Qed.

(** C66.  After the compiler hands over its dependencies, the operating system
    watches exactly those of them that can be watched or were watched before.
    Missing: the time until the next such list. *)
Theorem C66_dependencies_watched_partial : forall disk es ps w s o p, run (init disk) (es ++ [Sync ps w]) = (s, o) ->
  (watched s p <-> In p ps /\ (w p = true \/ watched (fst (run (init disk) es)) p)).
Proof. exact dependencies_watched. Qed.
Print Assumptions C66_dependencies_watched_partial.
(** An update from the editor passes the list of files it wants read to the same
    function, which ends the watch of every other dependency. *)
Theorem C66_upstream_unwatches_refuted : exists es s o p, run (init disk0) es = (s, o) /\
  (exists ps, es = [Sync ps all; Upstream [1] all] /\ In p ps) /\ tracked s p /\ ~ watched s p.
Proof.
  exists [Sync [1; 2] all; Upstream [1] all]. eexists. eexists. exists 2. split; [vm_compute; reflexivity|].
  split; [exists [1; 2]; cbn; auto|]. split; [eexists; reflexivity|].
  intros (e & H1 & H2). vm_compute in H1. inversion H1; subst. discriminate.
Qed.
Print Assumptions C66_upstream_unwatches_refuted.
Example C66_nonvacuous : exists disk es ps w s o p, run (init disk) (es ++ [Sync ps w]) = (s, o) /\
  In p ps /\ w p = false /\ watched (fst (run (init disk) es)) p /\ watched s p /\ exists q, tracked s q /\ ~ watched s q.
Proof.
  exists disk0, [Sync [1; 2] all], [1], (fun _ => false). eexists. eexists. exists 1. split; [vm_compute; reflexivity|].
  split; [now left|]. split; [reflexivity|]. split; [eexists; split; reflexivity|]. split; [eexists; split; reflexivity|].
  exists 2. split; [eexists; reflexivity|]. intros (e & H1 & H2). vm_compute in H1. inversion H1; subst. discriminate.
Qed.
