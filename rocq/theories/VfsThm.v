(** Theorems about the virtual file system (C15-C19). *)
From Coq Require Import List NArith Arith Bool Lia.
From Verif Require Import NumModel MsgModel AssocModel VfsModel VfsSpec VfsProof VfsLayer.
Import ListNotations.

(** For the examples: every file id has the path with the same number, except 99. *)
Definition same_path (f : nat) : option nat := if f =? 99 then None else Some f.
Definition hello : fres := FOk [104; 105]%N.
Definition bye : fres := FOk [98; 121; 101]%N.
Definition disk0 (p : nat) : fres := FOk [100]%N.

(** ** C15 *)

(** In orderly histories (see [orderly]: reads are not torn, no shadows by id,
    every batch that changes the layers changes the view) a read returns what
    the editor said, otherwise what the watcher said, otherwise some content
    the file had on disk. *)
Theorem C15_editor_shadows_disk_partial : forall resolve disk ops i f p t r, orderly resolve (init disk) ops ->
  resolve f = Some p -> knowledge0 ops i = Some t ->
  snd (step resolve (fst (run resolve (init disk) ops)) (Read i f)) = RBytes r ->
  match t_editor t p with
  | Some c => r = c
  | None => match t_watch t p with Some c => r = c | None => on_disk disk ops p r end
  end.
Proof. exact layered_reads. Qed.
Print Assumptions C15_editor_shadows_disk_partial.

Definition edits : list op :=
  [Read 0 5; Revise 0 [RNotify [] [(5, bye)]]; Snapshot 0; Read 1 5; Revise 0 [RMap 5 hello; RUnmap 7]; Read 0 5; Snapshot 0;
   Disk 5 bye; ReadSource 2 5; Revise 0 [RUnmap 5]; Evict 0 60; Read 1 5].
Example C15_nonvacuous :
  orderly same_path (init disk0) edits /\
  snd (run same_path (init disk0) edits) =
    [RBytes (disk0 5); RNone; RNew 1; RBytes bye; RNone; RBytes hello; RNew 2; RNone; RSource (SOk 5 [104; 105]%N);
     RNone; RNone; RBytes bye] /\
  (exists t, knowledge0 edits 2 = Some t /\ t_editor t 5 = Some hello) /\
  (exists t, knowledge0 edits 0 = Some t /\ t_editor t 5 = None /\ t_watch t 5 = Some bye).
Proof.
  split; [|split; [vm_compute; reflexivity|split; eexists; split; try reflexivity; vm_compute; auto]].
  cbn [orderly edits]. repeat (split; [first [exact I|split; [repeat constructor|vm_compute; auto]]|]). exact I.
Qed.

(** Not so when a snapshot's read is interleaved with revisions of the live
    system: the live system then ignores the text the editor sends. *)
Theorem C15_torn_read_refuted : exists ops t c r, knowledge0 ops 0 = Some t /\ t_editor t 5 = Some c /\
  same_path 5 = Some 5 /\ r <> c /\
  snd (step same_path (fst (run same_path (init disk0) ops)) (Read 0 5)) = RBytes r.
Proof.
  exists [Snapshot 0; BeginRead 1 1 5; Revise 0 [RMap 9 bye]; EndRead 1; Revise 0 [RMap 5 hello]].
  eexists. exists hello, (disk0 5). split; [reflexivity|]. split; [reflexivity|]. split; [reflexivity|].
  split; [discriminate|]. vm_compute. reflexivity.
Qed.
Print Assumptions C15_torn_read_refuted.
(** Nor when the watcher reports a file nobody has read yet while a snapshot is alive. *)
Theorem C15_unread_notification_refuted : exists ops t c r, knowledge0 ops 0 = Some t /\ t_editor t 5 = None /\
  t_watch t 5 = Some c /\ same_path 5 = Some 5 /\ r <> c /\
  snd (step same_path (fst (run same_path (init disk0) ops)) (Read 0 5)) = RBytes r.
Proof.
  exists [Revise 0 [RNotify [] [(5, hello)]]; Snapshot 0; Revise 0 [RNotify [] [(5, bye)]]; Read 1 5].
  eexists. exists bye, hello. split; [reflexivity|]. split; [reflexivity|]. split; [reflexivity|]. split; [reflexivity|].
  split; [discriminate|]. vm_compute. reflexivity.
Qed.
Print Assumptions C15_unread_notification_refuted.
(** Nor when a shadow by id was removed before. *)
Theorem C15_shadow_by_id_refuted : exists ops t c r, knowledge0 ops 0 = Some t /\ t_editor t 5 = Some c /\
  same_path 5 = Some 5 /\ r <> c /\
  snd (step same_path (fst (run same_path (init disk0) ops)) (Read 0 5)) = RBytes r.
Proof.
  exists [Revise 0 [RMapId 5 bye; RUnmapId 5]; Snapshot 0; Revise 0 [RMap 5 hello]; Read 1 5].
  eexists. exists hello, (disk0 5). split; [reflexivity|]. split; [reflexivity|]. split; [reflexivity|].
  split; [discriminate|]. vm_compute. reflexivity.
Qed.
Print Assumptions C15_shadow_by_id_refuted.

(** ** C16 *)

(** As long as nothing is evicted and the instance itself is not revised,
    reading a file again returns the same result. *)
Theorem C16_snapshot_isolation_partial : forall resolve s i f r s1 ops, reachable resolve s ->
  step resolve s (Read i f) = (s1, RBytes r) -> Forall (undisturbed i) ops ->
  snd (step resolve (fst (run resolve s1 ops)) (Read i f)) = RBytes r.
Proof. exact snapshot_isolation. Qed.
Print Assumptions C16_snapshot_isolation_partial.
Example C16_nonvacuous :
  let s := fst (run same_path (init disk0) [Read 0 5; Revise 0 [RMap 5 bye]; Snapshot 0; BeginRead 3 1 6]) in
  let ops := [Revise 0 [RMap 5 hello; RMap 6 hello]; Read 0 5; EndRead 3; Disk 5 hello; Revise 0 [RUnmap 5; RResetCache]; Read 0 5] in
  reachable same_path s /\ Forall (undisturbed 1) ops /\
  (exists s1, step same_path s (Read 1 5) = (s1, RBytes bye) /\
     snd (run same_path s1 ops) = [RNone; RBytes hello; RBytes (disk0 6); RNone; RNone; RBytes hello]).
Proof.
  cbn zeta. split; [eexists; eexists; reflexivity|]. split; [repeat constructor; discriminate|].
  eexists. split; [vm_compute; reflexivity|vm_compute; reflexivity].
Qed.

(** Evicting with the threshold the server uses (60) breaks it: the age of an
    entry is the revision of its first read, so a file that was read long ago
    is evicted from under a snapshot that has just read it. *)
Theorem C16_eviction_refuted : exists s s1 i f r r', reachable same_path s /\ r <> r' /\
  step same_path s (Read i f) = (s1, RBytes r) /\
  snd (step same_path (fst (run same_path s1 [Disk f r'; Evict i 60])) (Read i f)) = RBytes r'.
Proof.
  eexists (fst (run same_path (init disk0) (Read 0 5 :: repeat (Revise 0 [RMap 9 bye]) 61 ++ [Snapshot 0]))), _, 1, 5, (disk0 5), hello.
  split; [eexists; eexists; reflexivity|]. split; [discriminate|]. split; [vm_compute; reflexivity|vm_compute; reflexivity].
Qed.
Print Assumptions C16_eviction_refuted.

(** ** C17 *)

(** No operation decreases the revision of any instance. *)
Theorem C17_revision_never_decreases : forall resolve s ops i v, reachable resolve s -> s_vfs s i = Some v ->
  exists v', s_vfs (fst (run resolve s ops)) i = Some v' /\ v_rev v <= v_rev v'.
Proof. intros resolve s ops i v Hr. apply run_rev. eapply reachable_wf, Hr. Qed.
Print Assumptions C17_revision_never_decreases.

(** A batch raises it by at most one, and does if it maps or unmaps a shadow or resets the cache. *)
Theorem C17_batch_raises_revision : forall resolve s i v l, reachable resolve s -> s_vfs s i = Some v ->
  exists v', s_vfs (fst (step resolve s (Revise i l))) i = Some v' /\
    (v_rev v' = v_rev v \/ v_rev v' = S (v_rev v)) /\
    (forall o, In o l -> match o with RNotify _ _ | RResetShadow => False | _ => True end -> v_rev v' = S (v_rev v)).
Proof.
  intros resolve s i v l Hr Hi. apply reachable_wf in Hr. cbn [step]. rewrite Hi. cbn [fst].
  destruct (revise_rev i v l s Hr) as (v' & H1 & H2 & H3). exists v'. split; [exact H1|]. split; [exact H2|].
  intros o Ho Hm. apply H3. eapply rsteps_view; eauto. now apply revise_begin_wf.
Qed.
Print Assumptions C17_batch_raises_revision.

(** In orderly histories it also does for a watcher notification about a file the instance has read. *)
Theorem C17_notification_raises_revision_partial : forall resolve disk ops i v f p l rm ins, orderly resolve (init disk) ops ->
  let s := fst (run resolve (init disk) ops) in
  s_vfs s i = Some v -> resolve f = Some p -> Forall by_path l -> In (RNotify rm ins) l -> In p (rm ++ map fst ins) ->
  let s1 := fst (step resolve s (Read i f)) in
  exists v', s_vfs (fst (step resolve s1 (Revise i l))) i = Some v' /\ v_rev v' = S (v_rev v).
Proof. exact rev_notify. Qed.
Print Assumptions C17_notification_raises_revision_partial.
Example C17_nonvacuous :
  let s := fst (run same_path (init disk0) edits) in
  (exists v, s_vfs s 0 = Some v /\ v_rev v = 5) /\
  (exists v, s_vfs (fst (run same_path s [Read 0 5; Revise 0 [RNotify [6] [(5, bye)]]])) 0 = Some v /\ v_rev v = 6) /\
  (exists v, s_vfs (fst (run same_path s [Revise 0 [RMap 77 bye]])) 0 = Some v /\ v_rev v = 6).
Proof. vm_compute. split; [|split]; eexists; (split; [reflexivity|reflexivity]). Qed.

(** A notification about a file that was never read changes what reads return
    but not the revision. *)
Theorem C17_unread_notification_refuted : exists s l f v v' r r', reachable same_path s /\
  s_vfs s 0 = Some v /\ s_vfs (fst (step same_path s (Revise 0 l))) 0 = Some v' /\ v_rev v' = v_rev v /\
  snd (step same_path s (Read 0 f)) = RBytes r /\
  snd (step same_path (fst (step same_path s (Revise 0 l))) (Read 0 f)) = RBytes r' /\ r <> r'.
Proof.
  exists (init disk0), [RNotify [] [(5, hello)]], 5. do 2 eexists. exists (disk0 5), hello.
  split; [exists disk0, []; reflexivity|]. split; [reflexivity|]. split; [vm_compute; reflexivity|].
  repeat (split; [vm_compute; reflexivity|]). discriminate.
Qed.
Print Assumptions C17_unread_notification_refuted.

(** ** C18 *)

(** A compilation runs on a snapshot [j] of [i] and reads the files [fs]
    before [i] is revised.  If later, without evictions and cache resets, [i]
    judges the compilation clean, it reads the same contents. *)
Theorem C18_skip_is_sound_partial : forall resolve s0 i v s1 j a b fs vb,
  reachable resolve s0 -> s_vfs s0 i = Some v -> step resolve s0 (Snapshot i) = (s1, RNew j) ->
  Forall (undisturbed i) a -> Forall (undisturbed j) a -> (forall f, In f fs -> In (Read j f) a) ->
  Forall cache_kept b ->
  let sa := fst (run resolve s1 a) in
  let sb := fst (run resolve sa b) in
  s_vfs sb i = Some vb -> is_clean vb (v_rev v) fs sb = true ->
  forall f, In f fs -> snd (step resolve sb (Read i f)) = snd (step resolve sa (Read j f)).
Proof. exact skip_sound. Qed.
Print Assumptions C18_skip_is_sound_partial.
Example C18_nonvacuous :
  let s0 := fst (run same_path (init disk0) [Read 0 5; Revise 0 [RMap 5 bye]]) in
  let s1 := fst (step same_path s0 (Snapshot 0)) in
  let sa := fst (run same_path s1 [Read 1 5; Read 1 6; Disk 6 hello]) in
  let sb := fst (run same_path sa [Revise 0 [RMap 7 hello; RNotify [] [(9, bye)]]; Disk 6 bye; Read 0 7]) in
  let sc := fst (run same_path sa [Revise 0 [RMap 7 hello; RNotify [] [(6, bye)]]]) in
  (exists v, s_vfs s0 0 = Some v /\ v_rev v = 3) /\ snd (step same_path s0 (Snapshot 0)) = RNew 1 /\
  (exists v, s_vfs sb 0 = Some v /\ v_rev v = 4 /\ is_clean v 3 [5; 6] sb = true) /\
  (exists v, s_vfs sc 0 = Some v /\ v_rev v = 4 /\ is_clean v 3 [5; 6] sc = false).
Proof.
  vm_compute. split; [eexists; split; reflexivity|]. split; [reflexivity|].
  split; eexists; repeat (split; [reflexivity|]); reflexivity.
Qed.

(** Without the restriction on when the compilation reads: a file read by the
    compilation after the live system was revised is judged clean although the
    live system has the editor's new text. *)
Theorem C18_late_read_refuted : exists s1 a vb r r',
  step same_path (init disk0) (Snapshot 0) = (s1, RNew 1) /\
  let sa := fst (run same_path s1 a) in
  Forall cache_kept a /\ Forall (undisturbed 1) a /\ In (Read 1 5) a /\
  s_vfs sa 0 = Some vb /\ is_clean vb 2 [5] sa = true /\
  snd (step same_path sa (Read 1 5)) = RBytes r /\ snd (step same_path sa (Read 0 5)) = RBytes r' /\ r <> r'.
Proof.
  eexists. exists [Revise 0 [RMap 5 hello]; Snapshot 0; Read 2 5; Read 1 5]. eexists. exists (disk0 5), hello.
  split; [reflexivity|]. cbn zeta.
  split; [repeat constructor; cbn; intuition discriminate|]. split; [repeat constructor; discriminate|]. split; [cbn; auto|].
  split; [vm_compute; reflexivity|]. repeat (split; [vm_compute; reflexivity|]). discriminate.
Qed.
Print Assumptions C18_late_read_refuted.
(** With a cache reset: the re-read file counts as unchanged. *)
Theorem C18_cache_reset_refuted : exists s1 a b vb r r',
  step same_path (init disk0) (Snapshot 0) = (s1, RNew 1) /\
  Forall (undisturbed 0) a /\ Forall (undisturbed 1) a /\ In (Read 1 5) a /\
  let sa := fst (run same_path s1 a) in
  let sb := fst (run same_path sa b) in
  s_vfs sb 0 = Some vb /\ is_clean vb 2 [5] sb = true /\
  snd (step same_path sa (Read 1 5)) = RBytes r /\ snd (step same_path sb (Read 0 5)) = RBytes r' /\ r <> r'.
Proof.
  eexists. exists [Read 1 5], [Disk 5 hello; Revise 0 [RResetCache]; Read 0 5]. eexists. exists (disk0 5), hello.
  split; [reflexivity|]. split; [repeat constructor|]. split; [repeat constructor|]. split; [cbn; auto|]. cbn zeta.
  split; [vm_compute; reflexivity|]. repeat (split; [vm_compute; reflexivity|]). discriminate.
Qed.
Print Assumptions C18_cache_reset_refuted.

(** Directly after a revision that ends in a cache reset no compilation with a
    dependency is judged clean. *)
Theorem C18_reset_recompiles : forall resolve s i ops vb rev fs, fs <> [] ->
  let sb := fst (step resolve s (Revise i (ops ++ [RResetCache]))) in
  s_vfs sb i = Some vb -> is_clean vb rev fs sb = false.
Proof. exact reset_recompiles. Qed.
Print Assumptions C18_reset_recompiles.
Example C18_reset_nonvacuous :
  let s := fst (run same_path (init disk0) [Read 0 5]) in
  let sb := fst (step same_path s (Revise 0 ([RMap 6 hello] ++ [RResetCache]))) in
  exists vb va, s_vfs sb 0 = Some vb /\ is_clean vb 2 [5] sb = false /\
    s_vfs s 0 = Some va /\ is_clean va 2 [5] s = true.
Proof. vm_compute. do 2 eexists. repeat (split; [reflexivity|]). reflexivity. Qed.

(** ** C19 *)

(** The source of a file is the decoding of the bytes read from the same
    instance, whichever is asked for first and whatever happens in between
    (other than revising the instance or evicting). *)
Theorem C19_source_then_bytes : forall resolve s i f r b ops, reachable resolve s -> Forall (undisturbed i) ops ->
  snd (step resolve s (ReadSource i f)) = RSource r ->
  snd (step resolve (fst (run resolve (fst (step resolve s (ReadSource i f))) ops)) (Read i f)) = RBytes b ->
  r = decoded f b.
Proof. exact source_then_bytes. Qed.
Print Assumptions C19_source_then_bytes.
Theorem C19_bytes_then_source : forall resolve s i f r b ops, reachable resolve s -> Forall (undisturbed i) ops ->
  snd (step resolve s (Read i f)) = RBytes b ->
  snd (step resolve (fst (run resolve (fst (step resolve s (Read i f))) ops)) (ReadSource i f)) = RSource r ->
  r = decoded f b.
Proof. exact bytes_then_source. Qed.
Print Assumptions C19_bytes_then_source.
Example C19_nonvacuous :
  let bom := FOk [239; 187; 191; 104; 105]%N in
  let s := fst (run same_path (init (fun p => if p =? 6 then FOk [255]%N else bom)) [ReadSource 0 5; Snapshot 0; EvictCache 0 0]) in
  let ops := [Revise 0 [RMap 5 bye]; ReadSource 0 5; Disk 5 hello] in
  reachable same_path s /\ Forall (undisturbed 1) ops /\
  snd (step same_path s (ReadSource 1 5)) = RSource (SOk 5 [104; 105]%N) /\
  snd (step same_path (fst (run same_path s ops)) (Read 1 5)) = RBytes bom /\
  snd (step same_path s (ReadSource 1 6)) = RSource (SErr invalid_utf8) /\
  snd (step same_path s (ReadSource 1 99)) = RSource (SErr unresolved).
Proof.
  cbn zeta. split; [eexists; eexists; reflexivity|]. split; [repeat constructor; discriminate|].
  repeat (split; [vm_compute; reflexivity|]). vm_compute. reflexivity.
Qed.
