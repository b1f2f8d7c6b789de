(** Theorems about diagnostics and compile status at the client (C37, C38, C79). *)
From Coq Require Import List Arith Bool Lia Permutation.
From Verif Require Import AssocModel AssocProof DiagModel DiagSpec DiagProof.
Import ListNotations.

(** C37: for every sequence of requests that the editor actor handles, and every list [ps] of
    projects that includes those with diagnostics, the client shows for each file the union over
    the projects of their latest diagnostics. *)
Theorem C37_actor : forall b rs ps u, Forall req_ok rs -> NoDup ps -> (forall id, latest rs id <> None -> In id ps) ->
  Permutation (view (snd (handles (actor0 b) rs)) u) (flat_map (fun p => of_file (latest rs p) u) ps).
Proof. exact actor_union. Qed.
Print Assumptions C37_actor.
(** C37: files that no project has diagnostics for are clear. *)
Theorem C37_cleared : forall b rs u, Forall req_ok rs -> (forall id, of_file (latest rs id) u = []) -> view (snd (handles (actor0 b) rs)) u = [].
Proof.
  intros b rs u F Z.
  assert (X : exists ps, NoDup ps /\ forall id, latest rs id <> None -> In id ps).
  { assert (Y : exists ps, forall id, latest rs id <> None -> In id ps).
    { clear. induction rs as [|r rs IH] using rev_ind; [exists []; intros id H; exfalso; apply H; reflexivity|]. destruct IH as (ps & H).
      destruct r as [|q rev m|q r|q r]; try (exists ps; intros k; rewrite latest_snoc; apply H).
      exists (q :: ps). intros id. rewrite latest_snoc. destruct (Nat.eqb_spec q id) as [->|]; [now left|right; auto]. }
    destruct Y as (ps & Y). exists (nodup Nat.eq_dec ps). split; [apply NoDup_nodup|]. intros id H. apply nodup_In. auto. }
  destruct X as (ps & NP & C). pose proof (actor_union b rs ps u F NP C) as U. apply Permutation_nil. symmetry. rewrite U.
  erewrite flat_map_ext with (g := fun _ => []); [|exact Z]. clear. induction ps; auto.
Qed.
Print Assumptions C37_cleared.
(** C37, from the compilations on: when nothing is under way, the client shows the union of the
    current results of all projects, if every compilation has sent its diagnostics before the
    next change of the same project.  Missing: other orders, see below. *)
Theorem C37_current_partial : forall b es ps u, Forall pev_ok es -> prompt (pipe0 b) es -> NoDup ps ->
  (forall id, n_diag (current es id) <> None -> In id ps) ->
  p_jobs (fst (prun (pipe0 b) es)) = [] -> p_chan (fst (prun (pipe0 b) es)) = [] ->
  Permutation (view (snd (prun (pipe0 b) es)) u) (flat_map (fun p => of_file (n_diag (current es p)) u) ps).
Proof. exact pipe_union. Qed.
Print Assumptions C37_current_partial.
(** C37, refuted otherwise: diagnostics of a removed project stay. *)
Theorem C37_removed_refuted : exists es u, Forall pev_ok es /\ p_jobs (fst (prun (pipe0 false) es)) = [] /\ p_chan (fst (prun (pipe0 false) es)) = [] /\
  (forall id, n_diag (current es id) = None) /\ view (snd (prun (pipe0 false) es)) u <> [].
Proof.
  exists [Notify 1 5 (Some [(7, [3])]); Removed 1; Deliver 0; Recv; Recv], 7.
  split; [repeat constructor; intros []|]. split; [reflexivity|]. split; [reflexivity|]. split; [|vm_compute; discriminate].
  intros [|[|id]]; reflexivity.
Qed.
Print Assumptions C37_removed_refuted.
(** C38: if the diagnostics of a project are sent in time, the client ends up with those of the
    newest compilation, in whatever order the compilations are announced. *)
Theorem C38_newest_partial : forall b es id u, Forall pev_ok es -> prompt (pipe0 b) es ->
  (forall e k, In e es -> touches e = Some k -> exists rev m, e = Notify id rev m) ->
  p_jobs (fst (prun (pipe0 b) es)) = [] -> p_chan (fst (prun (pipe0 b) es)) = [] ->
  forall rev m, In (Notify id rev m) es -> rev > 0 ->
    (exists rev' m', In (Notify id rev' m') es /\ rev <= rev' /\ Permutation (view (snd (prun (pipe0 b) es)) u) (of_file m' u)).
Proof.
  intros b es id u F P T J C rev m I R. destruct (current_newest es id) as (A & _ & B).
  { intros e E X. now apply (T e id). }
  specialize (A rev m I). exists (n_rev (current es id)), (n_diag (current es id)). split; [apply B; lia|]. split; [exact A|].
  pose proof (pipe_union b es [id] u F P) as U. cbn [flat_map] in U. rewrite app_nil_r in U. apply U; auto; [repeat constructor; intros []|].
  intros k K. left. destruct (Nat.eq_dec k id) as [->|NE]; [reflexivity|exfalso]. apply K.
  assert (X : forall l, (forall e k, In e l -> touches e = Some k -> exists rev m, e = Notify id rev m) -> n_diag (current l k) = None).
  { clear -NE. induction l as [|e l IH] using rev_ind; intros T; [reflexivity|]. rewrite current_snoc. rewrite <- IH by (intros; eapply T; eauto; apply in_or_app; auto).
    assert (TE : touches e <> Some k). { intros H. destruct (T e k) as (r & m & ->); [apply in_or_app; right; now left|exact H|]. cbn in H. congruence. }
    destruct e as [q r m|i|q|q r rp|c|q n|]; cbn in *; auto.
    - destruct (Nat.eqb_spec q k) as [->|]; [now destruct TE|reflexivity].
    - destruct (Nat.eqb_spec q k) as [->|]; [now destruct TE|reflexivity].
    - destruct (Nat.eqb_spec q k) as [->|]; [|reflexivity]. cbn. destruct (n_stat (current l k) <=? r); [|reflexivity]. cbn. destruct (rp_stat rp); auto. now destruct TE. }
  now apply X.
Qed.
Print Assumptions C38_newest_partial.
(** C38: refuted when they are sent out of order. *)
Theorem C38_order_refuted : exists es u, Forall pev_ok es /\ p_jobs (fst (prun (pipe0 false) es)) = [] /\ p_chan (fst (prun (pipe0 false) es)) = [] /\
  (forall e, In e es -> touches e <> None -> exists rev m, e = Notify 0 rev m) /\
  current es 0 = mkNow 2 (Some [(u, [20])]) 0 /\ view (snd (prun (pipe0 false) es)) u = [10].
Proof.
  exists [Notify 0 1 (Some [(7, [10])]); Notify 0 2 (Some [(7, [20])]); Deliver 1; Deliver 0; Recv; Recv], 7.
  split; [repeat constructor; intros []|]. split; [reflexivity|]. split; [reflexivity|]. split; [|split; reflexivity].
  intros e H T. cbn in H. intuition (subst; cbn in *; try congruence; eauto).
Qed.
Print Assumptions C38_order_refuted.
Definition es_ex := [Notify 0 1 (Some [(7, [10]); (8, [11])]); Deliver 0; Notify 1 1 (Some [(7, [12])]); Recv; Notify 0 3 (Some [(7, [30])]); Deliver 1; Notify 0 2 (Some [(9, [99])]); Deliver 0; Recv; Recv].
Ltac prompt_run := match goal with
  | |- prompt _ [] => exact Logic.I
  | |- prompt ?s (?e :: ?r) => split; [intros id E; vm_compute in E; first [discriminate E | injection E as <-; vm_compute; intuition discriminate] | let t := eval vm_compute in (fst (pstep s e)) in change (prompt t r); prompt_run]
  end.
Lemma one1 {A} (k : nat) (v : A) : NoDup (akeys [(k, v)]).
Proof. repeat constructor. intros []. Qed.
Example C37_nonvacuous : prompt (pipe0 true) es_ex /\ Forall pev_ok es_ex /\ p_jobs (fst (prun (pipe0 true) es_ex)) = [] /\ p_chan (fst (prun (pipe0 true) es_ex)) = [] /\
  (forall id, n_diag (current es_ex id) <> None -> In id [0; 1]) /\
  view (snd (prun (pipe0 true) es_ex)) 7 = [30; 12] /\ view (snd (prun (pipe0 true) es_ex)) 8 = [] /\ view (snd (prun (pipe0 true) es_ex)) 9 = [] /\
  flat_map (fun p => of_file (n_diag (current es_ex p)) 7) [0; 1] = [30; 12].
Proof.
  assert (N2 : NoDup (akeys [(7, [10]); (8, [11])])) by (cbn; repeat constructor; cbn; intuition discriminate).
  split; [|split].
  - unfold es_ex. prompt_run.
  - unfold es_ex. repeat (constructor; [cbn [pev_ok]; auto using one1|]). constructor.
  - repeat split; try reflexivity. intros [|[|id]] H; cbn; auto; now destruct H.
Qed.
Definition es_ex2 := [Notify 0 1 (Some [(7, [10])]); Deliver 0; Notify 0 3 (Some [(7, [30])]); Deliver 0; Notify 0 2 (Some [(7, [20])]); Recv; Recv].
Example C38_nonvacuous : Forall pev_ok es_ex2 /\ prompt (pipe0 true) es_ex2 /\ (forall e k, In e es_ex2 -> touches e = Some k -> exists rev m, e = Notify 0 rev m) /\
  p_jobs (fst (prun (pipe0 true) es_ex2)) = [] /\ p_chan (fst (prun (pipe0 true) es_ex2)) = [] /\ view (snd (prun (pipe0 true) es_ex2)) 7 = [30].
Proof.
  split; [|split; [|split]].
  - unfold es_ex2. repeat (constructor; [cbn [pev_ok]; auto using one1|]). constructor.
  - unfold es_ex2. prompt_run.
  - intros e k H. cbn in H. repeat (destruct H as [<-|H]; [cbn; try discriminate; eauto|]). destruct H.
  - repeat split; reflexivity.
Qed.

(** C79: as long as the notifications are not switched off, exactly the requests of the primary
    project lead to a status message, and it shows the latest report and word count of it. *)
Theorem C79_status_partial : forall rs r, ~ In (RConfig false) rs ->
  forall s, In (StatusAll s) (snd (handle (fst (handles (actor0 true) rs)) r)) <->
    s = status_of (last_report (rs ++ [r])) (last_count (rs ++ [r])) /\ match r with RStatus 0 _ | RCount 0 _ => True | _ => False end.
Proof. exact status_right. Qed.
Print Assumptions C79_status_partial.
(** C79: the actor is told every word count, change of settings and report that is not older than
    one of the project before, in order. *)
Theorem C79_told : forall b es, Forall pev_ok es -> let s := fst (prun (pipe0 b) es) in
  exists rs, handles (actor0 b) rs = (p_actor s, snd (prun (pipe0 b) es)) /\ filter no_diag (rs ++ p_chan s) = told [] es.
Proof. exact told_right. Qed.
Print Assumptions C79_told.
(** C79: without notifications nothing is sent. *)
Theorem C79_silent : forall rs r, ~ In (RConfig true) rs -> forall s, ~ In (StatusAll s) (snd (handle (fst (handles (actor0 false) rs)) r)).
Proof.
  intros rs r N s. assert (A : a_notify (fst (handles (actor0 false) rs)) = false).
  { induction rs as [|x rs IH] using rev_ind; [reflexivity|]. rewrite handles_snoc. assert (N' : ~ In (RConfig true) rs) by (intros H; apply N, in_or_app; auto). specialize (IH N').
    destruct (handles (actor0 false) rs) as [a o]. cbn [fst] in IH. destruct x as [b|id rev m|id x|id n]; cbn [handle].
    - destruct b; [exfalso; apply N, in_or_app; right; now left|reflexivity].
    - destruct (publish a id m) as [a2 o2] eqn:E. destruct (publish_same _ _ _ _ _ E) as (_ & T & _). cbn. congruence.
    - rewrite IH. exact IH.
    - rewrite IH. exact IH. }
  destruct r as [b|id rev m|id x|id n]; cbn [handle]; rewrite ?A; cbn; auto.
  destruct (publish _ id m) as [a2 o2] eqn:E. now destruct (publish_same _ _ _ _ _ E) as (_ & _ & X).
Qed.
Print Assumptions C79_silent.
(** C79: refuted when notifications are switched on later: reports were dropped before, and the
    status shown with the next word count is not that of the last report. *)
Theorem C79_late_refuted : exists rs r s, In (StatusAll s) (snd (handle (fst (handles (actor0 false) rs)) r)) /\
  s <> status_of (last_report (rs ++ [r])) (last_count (rs ++ [r])).
Proof.
  exists [RStatus 0 (mkRep 5 2 Success); RConfig true], (RCount 0 100), (mkSA ECompiling 0 0 (Some 100)). split; [left; reflexivity|discriminate].
Qed.
Print Assumptions C79_late_refuted.
(** C79: refuted for the page: a project removed and started again reports nothing until its
    revision has caught up. *)
Theorem C79_restart_refuted : exists es id rev r, rev > 0 /\
  let s := fst (prun (pipe0 true) (es ++ [Removed id])) in p_chan (fst (pstep s (Report id rev r))) = p_chan s.
Proof. exists [Report 1 9 (mkRep 5 0 Compiling)], 1, 1, (mkRep 5 0 Compiling). split; [lia|reflexivity]. Qed.
Print Assumptions C79_restart_refuted.
Example C79_nonvacuous : snd (handle (fst (handles (actor0 true) [RStatus 0 (mkRep 5 2 Failure); RStatus 1 (mkRep 6 3 Success)])) (RCount 0 100)) = [StatusAll (mkSA EBad 5 2 (Some 100))].
Proof. reflexivity. Qed.
