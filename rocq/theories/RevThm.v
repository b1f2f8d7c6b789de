(** The theorems about the revisioned caches (C36, C67, C68). *)
From Coq Require Import List Arith Bool Lia.
From Verif Require Import AssocModel AssocProof RevModel RevSpec RevProof.
Import ListNotations.

(** ** C36 *)
Theorem C36_locked_slots_kept : forall imports es s os i e r c more,
  arun imports ast0 es = (s, os) -> holds_lock s i e -> has_slot s r c -> e <= r ->
  ~ In Clear more -> ~ In (Release i) more -> has_slot (fst (arun imports s more)) r c.
Proof.
  intros imports es s os i e r c more R H S L N1 N2. pose proof (arun_locks imports es ast0 locks_ok_0) as [I _].
  rewrite R in I. apply (arun_keeps imports i e r c more s I H S L N1 N2).
Qed.
Print Assumptions C36_locked_slots_kept.
Theorem C36_no_unlock_panic : forall imports es, ~ In APanic (snd (arun imports ast0 es)).
Proof. intros imports es. apply (arun_locks imports es ast0 locks_ok_0). Qed.
Print Assumptions C36_no_unlock_panic.
Theorem C36_last_release_leaves_newest : forall imports es s os i q r c r' c',
  arun imports ast0 es = (s, os) -> a_reqs s = [(i, q)] ->
  has_slot (fst (arun imports s [Release i; Gc (length (a_gcs s))])) r c -> has_slot s r' c' -> r' <= r.
Proof.
  intros imports es s os i q r c r' c' R Q. pose proof (arun_locks imports es ast0 locks_ok_0) as [I _].
  rewrite R in I. apply (last_release imports s i q r c r' c' I Q).
Qed.
Print Assumptions C36_last_release_leaves_newest.
(** Two requests for revisions 3 and 4 and a third that ends: the slots stay. *)
Definition ex36 : list aevent := [Lock 0 3 (fun f => f); Enter 0; Lock 1 3 (fun f => f); Lock 2 4 (fun f => f); Enter 1; Enter 2].
Example C36_nonvacuous :
  let s := fst (arun (fun k => [k]) ast0 ex36) in
  holds_lock s 1 3 /\ has_slot s 3 (mkCache 0 0 1) /\ has_slot s 4 (mkCache 4 1 4) /\
  has_slot (fst (arun (fun k => [k]) s [Release 0; Gc 0; Release 2; Gc 0])) 3 (mkCache 0 0 1).
Proof. vm_compute. repeat split; eauto. Qed.
Example C36_last_nonvacuous :
  let s := fst (arun (fun k => [k]) ast0 (ex36 ++ [Release 0; Release 2])) in
  exists q, a_reqs s = [(1, q)] /\
  m_slots (a_mgr (fst (arun (fun k => [k]) s [Release 1; Gc (length (a_gcs s))]))) = [(4, mkCache 4 1 4)].
Proof. eexists. vm_compute. split; reflexivity. Qed.
(** A request that turns out to use an older revision than the estimate of its
    lock loses its slot. *)
Theorem C36_used_revision_refuted : exists imports es s os i q c,
  arun imports ast0 es = (s, os) /\ aget i (a_reqs s) = Some q /\ q_slot q = Some c /\
  has_slot s (q_rev q) c /\
  exists more, ~ In Clear more /\ ~ In (Release i) more /\ ~ has_slot (fst (arun imports s more)) (q_rev q) c.
Proof.
  exists (fun k => [k]), [Lock 0 5 (fun f => f); Enter 0; Lock 1 3 (fun f => f); Enter 1].
  eexists. eexists. exists 1. eexists. eexists. split; [reflexivity|]. split; [reflexivity|]. split; [reflexivity|].
  split; [vm_compute; auto|]. exists [Release 0; Gc 0].
  split; [intros [H|[H|[]]]; discriminate|]. split; [intros [H|[H|[]]]; discriminate|].
  vm_compute. intros [H|[]]. discriminate.
Qed.
Print Assumptions C36_used_revision_refuted.

(** ** C67 *)
Ltac view_tac H := repeat (destruct H as [H|H]; [try discriminate H|]); [..|destruct H].
Ltac order_tac :=
  repeat match goal with
  | |- _ /\ _ => split
  | |- True => exact I
  | |- forall i q, Enter _ = Enter i -> _ => intros ? ? E H; injection E as <-; injection H as <-; lia
  | |- forall i q, _ = Enter i -> _ => discriminate
  end.
Theorem C67_answers_fresh_partial : forall imports es,
  one_view es -> in_order imports ast0 es -> answers_fresh imports ast0 es.
Proof. exact answers_in_order. Qed.
Print Assumptions C67_answers_fresh_partial.
(** File 0 imports file 1, whose exports change between revisions 3 and 4; the
    first request is still running. *)
Definition ex67 : list aevent :=
  [Lock 0 3 (fun _ => 7); Enter 0; Compute 0 0; Lock 1 4 (fun _ => 8); Enter 1; Compute 1 0; Compute 0 0; Release 0; Gc 0;
   Clear; Lock 2 4 (fun _ => 8); Enter 2; Compute 2 0].
Example C67_nonvacuous :
  one_view ex67 /\ in_order (fun k => [S k]) ast0 ex67 /\
  snd (arun (fun k => [S k]) ast0 ex67) =
    [ANone; ANone; AVal [7]; ANone; ANone; AVal [8]; AVal [7]; ANone; ANone; ANone; ANone; ANone; AVal [8]].
Proof.
  split; [|split; [|reflexivity]].
  - unfold one_view, ex67. cbn. intros i j r w w' H1 H2.
    view_tac H1; view_tac H2; congruence.
  - vm_compute. order_tac.
Qed.
(** Projects count their revisions separately and share the cache: a request of
    another project with the same number gets the answer of the first. *)
Theorem C67_two_projects_refuted : exists imports es, in_order imports ast0 es /\ ~ answers_fresh imports ast0 es.
Proof.
  exists (fun k => [S k]), [Lock 0 3 (fun _ => 7); Enter 0; Compute 0 0; Lock 1 3 (fun _ => 8); Enter 1; Compute 1 0]. split.
  - vm_compute. order_tac.
  - vm_compute. intros (_ & _ & _ & _ & _ & H & _). specialize (H 1 0 _ _ eq_refl eq_refl eq_refl). discriminate.
Qed.
Print Assumptions C67_two_projects_refuted.
(** Slots made without a base share the maps of the default slot. *)
Theorem C67_default_slot_refuted : exists imports es, one_view es /\ ~ answers_fresh imports ast0 es.
Proof.
  exists (fun k => [S k]), [Lock 0 3 (fun _ => 7); Lock 1 5 (fun _ => 8); Enter 1; Compute 1 0; Enter 0; Compute 0 0]. split.
  - unfold one_view. cbn. intros i j r w w' H1 H2.
    view_tac H1; view_tac H2; congruence.
  - vm_compute. intros (_ & _ & _ & _ & _ & H & _). specialize (H 0 0 _ _ eq_refl eq_refl eq_refl). discriminate.
Qed.
Print Assumptions C67_default_slot_refuted.

(** ** C68 *)
Theorem C68_base_was_answered_partial : forall es pre p id i b post,
  ~ In TClear es -> snd (trun tst0 es) = pre ++ TAcq p id (Some i) (Some b) :: post -> In (TTok p i b) pre.
Proof.
  intros es pre p id i b post N H. destruct (trun_ok es tst0 [] tok_ok_0 N) as (_ & _ & B). exact (B _ _ _ H).
Qed.
Print Assumptions C68_base_was_answered_partial.
Theorem C68_ids_unique_partial : forall es, ~ In TClear es -> NoDup (answered (snd (trun tst0 es))).
Proof. intros es N. apply (trun_ok es tst0 [] tok_ok_0 N). Qed.
Print Assumptions C68_ids_unique_partial.
Theorem C68_no_panic_partial : forall es, ~ In TClear es -> ~ In TPanic (snd (trun tst0 es)).
Proof. intros es N. apply (trun_ok es tst0 [] tok_ok_0 N). Qed.
Print Assumptions C68_no_panic_partial.
Theorem C68_latest_usable_partial : forall es s os h p i b,
  trun tst0 es = (s, os) -> ~ In TClear es -> known_ids es ->
  In (TTok p i b) os -> (forall id a a', In (TAcq p id a a') os -> id <= i) -> aget h (t_ctxs s) = None ->
  exists id, snd (tstep s (Acquire h p (Some i))) = TAcq p id (Some i) (Some b).
Proof. exact latest_usable. Qed.
Print Assumptions C68_latest_usable_partial.
(** Two files and two overlapping requests on the first. *)
Definition ex68 : list tevent :=
  [Acquire 0 0 None; Finish 0 10; Drop 0; Acquire 1 1 None; Acquire 2 0 (Some 1); Acquire 3 0 (Some 1);
   Finish 2 11; Drop 2; Finish 3 12; Drop 3; Drop 1].
Example C68_nonvacuous :
  snd (trun tst0 ex68) = [TAcq 0 1 None None; TTok 0 1 10; TNone; TAcq 1 2 None None; TAcq 0 3 (Some 1) (Some 10);
     TAcq 0 4 (Some 1) (Some 10); TTok 0 3 11; TNone; TTok 0 4 12; TNone; TNone] /\
  snd (tstep (fst (trun tst0 ex68)) (Acquire 9 0 (Some 4))) = TAcq 0 5 (Some 4) (Some 12).
Proof. vm_compute. auto. Qed.
Example C68_known_nonvacuous : known_ids [Acquire 0 0 None; Finish 0 10; Acquire 1 0 (Some 1)].
Proof.
  intros pre post h p i E.
  destruct pre as [|e1 [|e2 [|e3 [|e4 pre]]]]; cbn in E; try discriminate.
  injection E as <- <- <- <- <- <-. exists 10. vm_compute. auto.
Qed.
(** After the cache is cleared an older request that ends panics. *)
Theorem C68_clear_panic_refuted : exists es, In TPanic (snd (trun tst0 es)).
Proof. exists [Acquire 0 0 None; Finish 0 10; Drop 0; Acquire 1 0 (Some 1); TClear; Acquire 2 0 None; Finish 1 11; Drop 1]. vm_compute. tauto. Qed.
Print Assumptions C68_clear_panic_refuted.
(** Ids start again after a clear: tokens for another text become the base of
    the delta of a client that never received them. *)
Theorem C68_clear_ids_refuted : exists es a b id,
  a <> b /\ snd (trun tst0 es) = [TAcq 0 1 None None; TTok 0 1 a; TNone; TNone; TAcq 0 1 None None; TTok 0 1 b; TAcq 0 id (Some 1) (Some b)].
Proof.
  exists [Acquire 0 0 None; Finish 0 10; Drop 0; TClear; Acquire 1 0 None; Finish 1 11; Acquire 2 0 (Some 1)], 10, 11, 2.
  split; [discriminate|reflexivity].
Qed.
Print Assumptions C68_clear_ids_refuted.
(** An id the server never gave makes it forget every later answer up to it. *)
Theorem C68_unknown_id_refuted : exists es s os h p i b,
  trun tst0 es = (s, os) /\ ~ In TClear es /\ In (TTok p i b) os /\ (forall id a a', In (TAcq p id a a') os -> id <= i) /\
  aget h (t_ctxs s) = None /\ exists id, snd (tstep s (Acquire h p (Some i))) = TAcq p id (Some i) None.
Proof.
  exists [Acquire 0 0 (Some 100); Finish 0 10; Drop 0]. eexists. eexists. exists 1, 0, 1, 10.
  split; [reflexivity|]. split; [intros [H|[H|[H|[]]]]; discriminate|]. split; [vm_compute; auto|].
  split; [|split; [reflexivity|exists 2; reflexivity]].
  intros id a a' [H|[H|[H|[]]]]; try discriminate. injection H as <- _ _. auto.
Qed.
Print Assumptions C68_unknown_id_refuted.
