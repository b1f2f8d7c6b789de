(** Theorems about the background queue of exports (C39, C40). *)
From Coq Require Import List Arith Bool Lia.
From Verif Require Import QueueModel QueueSpec QueueProof.
Import ListNotations.

(** C39: at every moment of every history (panics included) at most one job runs. *)
Theorem C39_one evs : active 0 (snd (qrun queue0 evs)) <= 1.
Proof. exact (one_at_a_time evs). Qed.
Print Assumptions C39_one.
(** C39: a submission that is newer than all before and not older than any after is
    pending or has been started; when the queue is idle it has been started. *)
Theorem C39_newest_partial evs j : calm evs -> newest evs j ->
  let q := fst (qrun queue0 evs) in let os := snd (qrun queue0 evs) in
  (q_task q = Some j \/ In j (started os)) /\ (q_loops q = [] -> In j (started os)).
Proof.
  intros C N q os. destruct (newest_kept evs j N) as [T|I]; split; auto.
  intros L. pose proof (idle_empty evs C L) as E. unfold q in *. rewrite T in E. discriminate.
Qed.
Print Assumptions C39_newest_partial.
(** C39: without panics the steps of the future itself always lead to an idle queue in
    which that submission has been started. *)
Theorem C39_progress_partial evs j : calm evs -> newest evs j ->
  exists more, submitted more = [] /\ calm more /\ q_loops (fst (qrun queue0 (evs ++ more))) = [] /\
    In j (started (snd (qrun queue0 (evs ++ more)))).
Proof.
  intros C N. destruct (can_finish _ (proj2 (run_shape evs) C)) as (more & M1 & M2 & M3). exists more.
  assert (L : q_loops (fst (qrun queue0 (evs ++ more))) = []).
  { rewrite qrun_app. destruct (qrun queue0 evs) as [q o]. cbn [fst] in M3. destruct (qrun q more). exact M3. }
  repeat split; auto.
  assert (N' : newest (evs ++ more) j).
  { destruct N as (a & b & E & A & B). exists a, b. rewrite submitted_app, M2, app_nil_r. auto. }
  exact (proj2 (C39_newest_partial (evs ++ more) j (proj2 (calm_app _ _) (conj C M1)) N') L).
Qed.
Print Assumptions C39_progress_partial.
(** C39: increasing submissions are started in increasing order. *)
Theorem C39_order evs : increasing (submitted evs) -> increasing (started (snd (qrun queue0 evs))).
Proof. intros H. exact (proj1 (in_order evs H)). Qed.
Print Assumptions C39_order.
(** C39: nothing is started that was not submitted. *)
Theorem C39_only_submitted evs j : In j (started (snd (qrun queue0 evs))) -> In j (submitted evs).
Proof. exact (proj2 (known evs) j). Qed.
Print Assumptions C39_only_submitted.
(** C39, refuted without the assumption on panics: after a job panicked nothing is ever
    started again, whatever is submitted and whatever happens. *)
Theorem C39_panic_refuted : exists evs, forall more,
  started (snd (qrun queue0 (evs ++ more))) = started (snd (qrun queue0 evs)).
Proof.
  exists [Submit (mkJob 0 1 0); Take 0; Panicked 0]. intros more. rewrite qrun_app.
  assert (D : forall q, q_running q = true -> q_loops q = [] -> started (snd (qrun q more)) = []).
  { induction more as [|e more IH]; intros q R L; [reflexivity|].
    assert (S : exists q', qstep q e = (q', []) /\ q_running q' = true /\ q_loops q' = []).
    { destruct e as [j|i|i|i]; cbn [qstep]; try (rewrite L; destruct i; cbn; eauto).
      unfold submit. rewrite R. destruct (q_task q) as [p|]; [destruct (_ <? _)|]; eexists; split; try reflexivity; auto. }
    destruct S as (q' & E & R' & L'). specialize (IH q' R' L'). cbn [qrun]. rewrite E. destruct (qrun q' more). exact IH. }
  match goal with |- context [qrun queue0 ?l] => set (r := qrun queue0 l) end. vm_compute in r. subst r. cbv iota beta zeta.
  specialize (D (mkQ true None []) eq_refl eq_refl). destruct (qrun (mkQ true None []) more) as [q o]. cbn [snd] in *.
  rewrite started_app, D. reflexivity.
Qed.
Print Assumptions C39_panic_refuted.
(** C39, refuted when submissions are not in order: the older one is run after the newer. *)
Theorem C39_disorder_refuted : exists evs a b, calm evs /\ j_rev a < j_rev b /\ started (snd (qrun queue0 evs)) = [b; a].
Proof.
  exists [Submit (mkJob 0 2 0); Take 0; Submit (mkJob 0 1 0); Done 0; Take 0], (mkJob 0 1 0), (mkJob 0 2 0).
  split; [intros i H; repeat (destruct H as [H|H]; [discriminate|]); destruct H|]. split; [cbn; lia|reflexivity].
Qed.
Print Assumptions C39_disorder_refuted.
(** C40, partial: a pending job is only displaced by a submission of a greater revision, and
    a submission is accepted when nothing is pending.  Missing: the projects, see below. *)
Theorem C40_displaced_partial evs j k :
  let q := fst (qrun queue0 evs) in
  (q_task q = Some j -> q_task (fst (qstep q (Submit k))) <> Some j -> j_rev j < j_rev k /\ q_task (fst (qstep q (Submit k))) = Some k) /\
  (q_task q = None -> q_task (fst (qstep q (Submit k))) = Some k).
Proof. intros q. split; [exact (displaced q j k)|exact (accepted q k)]. Qed.
Print Assumptions C40_displaced_partial.
(** C40, partial: a queue used by one project alone keeps its last submission, when the
    revisions grow. *)
Theorem C40_single_partial evs j : calm evs -> increasing (submitted evs) -> (exists a, submitted evs = a ++ [j]) ->
  q_task (fst (qrun queue0 evs)) = Some j \/ In j (started (snd (qrun queue0 evs))).
Proof.
  intros C I (a & E). apply newest_kept. exists a, []. split; [exact E|]. split; [|constructor].
  rewrite E in I. apply increasing_app in I as (_ & _ & F). rewrite Forall_forall in *. intros k K. specialize (F k K). now inversion F.
Qed.
Print Assumptions C40_single_partial.
(** C40, refuted: the only export of a project is discarded by that of another project, in
    both directions, although the queue becomes idle. *)
Theorem C40_refuted : exists evs evs' a b, calm evs /\ calm evs' /\ j_proj a <> j_proj b /\
  submitted evs = [b; a; b] /\ q_loops (fst (qrun queue0 evs)) = [] /\ ~ In a (started (snd (qrun queue0 evs))) /\
  submitted evs' = [a; b] /\ q_loops (fst (qrun queue0 evs')) = [] /\ ~ In a (started (snd (qrun queue0 evs'))).
Proof.
  exists [Submit (mkJob 2 7 0); Take 0; Submit (mkJob 1 3 0); Submit (mkJob 2 7 0); Done 0; Take 0; Done 0; Take 0],
    [Submit (mkJob 1 3 0); Submit (mkJob 2 7 0); Take 0; Done 0; Take 0], (mkJob 1 3 0), (mkJob 2 7 0).
  repeat split; try (intros i H; repeat (destruct H as [H|H]; [discriminate|]); destruct H); try discriminate; cbn; intuition discriminate.
Qed.
Print Assumptions C40_refuted.

(** A history that meets the hypotheses: three submissions while the first job runs. *)
Definition evs_ex := [Submit (mkJob 0 1 10); Take 0; Submit (mkJob 0 2 20); Submit (mkJob 0 3 30); Done 0; Take 0; Done 0; Take 0].
Example C39_nonvacuous : calm evs_ex /\ increasing (submitted evs_ex) /\ newest evs_ex (mkJob 0 3 30) /\
  started (snd (qrun queue0 evs_ex)) = [mkJob 0 1 10; mkJob 0 3 30] /\ q_loops (fst (qrun queue0 evs_ex)) = [].
Proof.
  split; [intros i H; repeat (destruct H as [H|H]; [discriminate|]); destruct H|].
  split; [cbn; repeat constructor|]. split; [exists [mkJob 0 1 10; mkJob 0 2 20], []; repeat constructor|split; reflexivity].
Qed.
Example C40_nonvacuous : exists a, submitted evs_ex = a ++ [mkJob 0 3 30].
Proof. exists [mkJob 0 1 10; mkJob 0 2 20]. reflexivity. Qed.
