(** Theorems about atomic writes: C28. *)
From Coq Require Import List Arith NArith Bool.
From Verif Require Import AssocModel AssocProof AtomModel AtomSpec AtomProof.
Import ListNotations.

(** C28: at every moment of every interleaving of writers, with failures and killed
    processes anywhere, a name that existed or is written to holds the complete
    contents of the last write that succeeded, or what it held at first. *)
Theorem C28_atomic_partial : forall d es s os p, arun (start d) es = (s, os) -> temps_apart es -> no_power_loss es ->
  aget p d <> None \/ In p (dests es) -> data_at p s = last_put p (option_map f_data (aget p d)) os.
Proof. exact contents_atomic. Qed.
Print Assumptions C28_atomic_partial.
(** C28: a result of a write is one that was asked for. *)
Theorem C28_done_was_asked : forall d es s os i p x, arun (start d) es = (s, os) -> In (ODone i p x) os -> In (ABegin i p x) es.
Proof. exact done_was_asked. Qed.
Print Assumptions C28_done_was_asked.
(** C28: an existing file keeps its permission bits; a new one gets 0o600. *)
Theorem C28_mode_kept_partial : forall d es s os p f, arun (start d) es = (s, os) -> temps_apart es -> no_power_loss es ->
  aget p d <> None \/ In p (dests es) -> aget p (a_dir s) = Some f ->
  match aget p d with Some f0 => f_mode f = f_mode f0 \/ f_mode f = N.land (f_mode f0) 511%N | None => f_mode f = 384%N end.
Proof. exact mode_kept. Qed.
Print Assumptions C28_mode_kept_partial.
(** C28: unless a process is killed, no temporary file is left. *)
Theorem C28_nothing_left_partial : forall d es s os p, arun (start d) es = (s, os) -> no_kill es -> no_power_loss es -> a_ws s = [] ->
  aget p (a_dir s) <> None -> aget p d <> None \/ exists i x, In (ODone i p x) os.
Proof. exact nothing_left. Qed.
Print Assumptions C28_nothing_left_partial.
Definition one_write (i dest t : nat) (data : list nat) : list aevent :=
  [ABegin i dest data; AMeta i; ACreate i t; AWrite i 1; AWrite i 100; AChmod i; ARename i].
Example C28_nonvacuous :
  let d := [(1, mkF [7; 7] 33188%N false); (2, mkF [8] 0%N false)] in
  let es := [ABegin 1 1 [1; 2; 3]; AMeta 1; ACreate 1 2; ACreate 1 50; AWrite 1 2] ++ one_write 2 1 51 [4; 5] ++
            [ABegin 3 9 [6]; AMeta 3; ACreate 3 52; AFail 3; AWrite 1 1; AChmod 1; ARename 1] in
  temps_apart es /\ no_power_loss es /\ no_kill es /\
  arun (start d) es = (mkA [(1, mkF [1; 2; 3] 420%N true); (2, mkF [8] 0%N false)] [], [ODone 2 1 [4; 5]; OFailed 3; ODone 1 1 [1; 2; 3]]).
Proof.
  cbn. split; [|split; [|split]].
  - intros t H K. vm_compute in H, K. repeat (destruct H as [<-|H]; [repeat (destruct K as [K|K]; [discriminate|]); destruct K|]). destruct H.
  - intros k H. vm_compute in H. repeat (destruct H as [H|H]; [discriminate|]). destruct H.
  - intros k H. vm_compute in H. repeat (destruct H as [H|H]; [discriminate|]). destruct H.
  - vm_compute. reflexivity.
Qed.
(** C28: nothing is flushed before the rename, so a power loss can leave an empty file where
    a complete one was. *)
Theorem C28_power_refuted : exists d es s os p, arun (start d) es = (s, os) /\ temps_apart es /\
  option_map f_data (aget p d) = Some [7; 7] /\ os = [ODone 1 p [1; 2; 3]] /\ data_at p s = Some [].
Proof.
  exists [(1, mkF [7; 7] 420%N false)], (one_write 1 1 50 [1; 2; 3] ++ [APower 0]). do 2 eexists. exists 1.
  split; [vm_compute; reflexivity|]. split; [intros t H K; vm_compute in H, K; repeat (destruct H as [<-|H]; [repeat (destruct K as [K|K]; [discriminate|]); destruct K|]); destruct H|]. repeat split.
Qed.
Print Assumptions C28_power_refuted.
(** C28: a killed process leaves its temporary file. *)
Theorem C28_kill_leaves_refuted : exists d es s os p, arun (start d) es = (s, os) /\ no_power_loss es /\ a_ws s = [] /\
  aget p (a_dir s) <> None /\ aget p d = None /\ os = [].
Proof.
  exists [], [ABegin 1 1 [1]; AMeta 1; ACreate 1 50; AKill 1]. do 2 eexists. exists 50. split; [vm_compute; reflexivity|].
  split; [intros k H; vm_compute in H; repeat (destruct H as [H|H]; [discriminate|]); destruct H|]. repeat split. discriminate.
Qed.
Print Assumptions C28_kill_leaves_refuted.
