(** Theorems about the reasons of compilations: C90, C91. *)
From Coq Require Import List Arith Bool.
From Verif Require Import SchedModel SchedSpec SigModel SigSpec SigProof.
Import ListNotations.

(** ** C90: a compilation tells why it was made *)
(** The compilations started by an event are those it reports, and each carries
    exactly the causes since the last decision for its project. *)
Theorem C90_started : forall entry es e, tame_run (init entry) (es ++ [e]) ->
  let s := fst (run (init entry) es) in
  Forall (fun t => sn_signal (snd t) = with_event (since_last entry es) e (sn_id (snd t))) (started s e) /\
  forall id rev, In (OStart id rev) (snd (step s e)) <-> exists t, In t (started s e) /\ sn_id (snd t) = id /\ sn_rev (snd t) = rev.
Proof.
  intros entry es e T. destruct (started_why entry es e T) as (A & B & _). split; [exact A|]. intros id rev. split.
  - intros I. assert (K : In (id, rev) (starts (snd (step (fst (run (init entry) es)) e)))) by (apply in_flat_map; exists (OStart id rev); cbn; auto).
    rewrite <- B in K. apply in_map_iff in K as (t & E & I'). injection E as E1 E2. eauto.
  - intros (t & I & <- & <-). assert (K : In (sn_id (snd t), sn_rev (snd t)) (starts (snd (step (fst (run (init entry) es)) e)))) by (rewrite <- B; apply in_map_iff; eauto).
    apply in_flat_map in K as (y & Y1 & Y2). destruct y; cbn in Y2; try contradiction. destruct Y2 as [Y2|[]]. injection Y2 as <- <-. exact Y1.
Qed.
Print Assumptions C90_started.
(** An announced result carries the causes of the compilation that made it. *)
Theorem C90_announced : forall entry es a, tame_run (init entry) es -> In (ONotify a) (snd (run (init entry) es)) ->
  exists es1 e es2, es = es1 ++ e :: es2 /\ In (OStart (sn_id (a_snap a)) (sn_rev (a_snap a))) (snd (step (fst (run (init entry) es1)) e)) /\
  sn_signal (a_snap a) = with_event (since_last entry es1) e (sn_id (a_snap a)).
Proof. exact notified_why. Qed.
Print Assumptions C90_announced.
(** What is exported when: on save, after changes of files and of the entry; on
    type, after edits and changes of the entry; on save of a titled document. *)
Theorem C90_export : forall r title,
  (forall w, need_export r w None = false) /\
  need_export r Never (Some title) = false /\
  (need_export r OnSave (Some title) = true <-> by_fs r = true \/ by_entry r = true) /\
  (need_export r OnType (Some title) = true <-> by_mem r = true \/ by_entry r = true) /\
  (need_export r OnTitle (Some title) = true <-> (by_fs r = true /\ title = true) \/ by_entry r = true).
Proof. intros [m f e] t. cbn. destruct m, f, e, t; cbn; intuition discriminate. Qed.
Print Assumptions C90_export.
(** Lints run on the same terms, also without a document unless they ask for a
    title. *)
Theorem C90_lint : forall r w doc, match doc with Some _ => should_lint r w doc = need_export r w doc
  | None => (w = OnTitle -> should_lint r w doc = by_entry r) /\ (w <> OnTitle -> should_lint r w doc = need_export r w (Some false)) end.
Proof. intros [m f e] w [t|]; [symmetry; apply export_iff|]. split; intros H; destruct w; try discriminate H; try contradiction; destruct m, f, e; reflexivity. Qed.
Print Assumptions C90_lint.
(** A task change without a change: the compilation is started again with the
    reasons of the last one. *)
Definition again : list event := [Interrupt (Memory (fun _ => true)) (fun _ => false); Finish 0 true; Deliver (fun _ => false)].
Theorem C90_empty_refuted : exists entry es e t, tame_run (init entry) es /\ e = Interrupt (ChangeTask 0 false None) (fun _ => false) /\
  In t (started (fst (run (init entry) es)) e) /\ with_event (since_last entry es) e (sn_id (snd t)) = mkReasons false false true /\ sn_signal (snd t) = mkReasons true false false.
Proof. exists 5, again, (Interrupt (ChangeTask 0 false None) (fun _ => false)). eexists. split; [vm_compute; intuition|]. split; [reflexivity|]. split; [vm_compute; left; reflexivity|split; reflexivity]. Qed.
Print Assumptions C90_empty_refuted.
(** A save while a compilation runs, an edit, and then the compilation for both:
    it is exported on save. *)
Definition busy : list event :=
  [Interrupt (Compile 0) (fun _ => false); Interrupt (Fs (fun _ => true)) (fun _ => false); Finish 0 true; Interrupt (Memory (fun _ => true)) (fun _ => false)].
Example C90_nonvacuous : tame_run (init 5) (busy ++ [Deliver (fun _ => false); Finish 0 true]) /\
  map (fun t => sn_signal (snd t)) (started (fst (run (init 5) busy)) (Deliver (fun _ => false))) = [mkReasons true true false] /\
  need_export (mkReasons true true false) OnSave (Some false) = true /\
  length (filter (fun x => match x with ONotify _ => true | _ => false end) (snd (run (init 5) (busy ++ [Deliver (fun _ => false); Finish 0 true])))) = 2.
Proof. vm_compute. intuition. Qed.

(** ** C91: the reason of a harmless change is announced with the last document *)
(** It never is: results are announced only when a compilation ends, with the
    reasons that compilation was started with. *)
Theorem C91_only_finish : forall entry es e a, tame_run (init entry) (es ++ [e]) -> In (ONotify a) (snd (step (fst (run (init entry) es)) e)) ->
  exists n ok g, e = Finish n ok /\ nth_error (s_tasks (fst (run (init entry) es))) n = Some (g, a_snap a).
Proof. exact only_finish. Qed.
Print Assumptions C91_only_finish.
(** A save of a file that the last document does not use: no compilation, and
    no second announcement. *)
Definition harmless : list event :=
  [Interrupt (Memory (fun _ => true)) (fun _ => false); Finish 0 true; Deliver (fun _ => false); Interrupt (Fs (fun _ => true)) (fun _ => true)].
Theorem C91_refuted : exists entry es, tame_run (init entry) es /\ In (OSkip 0 3) (snd (run (init entry) es)) /\
  since_last entry (firstn 3 es) 0 = mkReasons false false false /\ (exists clean, nth_error es 3 = Some (Interrupt (Fs (fun _ => true)) clean)) /\
  (forall a, In (ONotify a) (snd (run (init entry) es)) -> by_fs (sn_signal (a_snap a)) = false).
Proof.
  exists 5, harmless. split; [vm_compute; intuition|]. split; [vm_compute; tauto|]. split; [reflexivity|]. split; [eexists; reflexivity|].
  assert (K : forallb (fun x => match x with ONotify a => negb (by_fs (sn_signal (a_snap a))) | _ => true end) (snd (run (init 5) harmless)) = true) by (vm_compute; reflexivity).
  intros a I. rewrite forallb_forall in K. specialize (K _ I). apply negb_true_iff in K. exact K.
Qed.
Print Assumptions C91_refuted.
Example C91_nonvacuous : tame_run (init 5) harmless /\ exists a, In (ONotify a) (snd (step (fst (run (init 5) (firstn 1 harmless))) (Finish 0 true))).
Proof. split; [vm_compute; intuition|]. eexists. vm_compute. right. left. reflexivity. Qed.
