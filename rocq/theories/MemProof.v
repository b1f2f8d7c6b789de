From Coq Require Import List Arith Bool Lia.
From Verif Require Import AssocModel AssocProof MemModel MemSpec.
Import ListNotations.

Lemma removes_spec : forall l f p, fold_left (fun f p => put f p None) l f p = if existsb (fun x => x =? p) l then None else f p.
Proof.
  induction l as [|q l IH]; intros f p; cbn; [reflexivity|]. rewrite IH. unfold put, upd. rewrite (Nat.eqb_sym q p).
  destruct (p =? q); cbn; destruct (existsb _ l); reflexivity.
Qed.
Lemma find_snoc : forall A (f : A -> bool) l x, find f (l ++ [x]) = match find f l with Some y => Some y | None => if f x then Some x else None end.
Proof. induction l as [|y l IH]; intro x; cbn; [reflexivity|]. destruct (f y); auto. Qed.
Lemma inserts_spec : forall l f p, fold_left (fun f '(p, c) => put f p (Some c)) l f p =
  match find (fun x => fst x =? p) (rev l) with Some (_, c) => Some c | None => f p end.
Proof.
  induction l as [|[q c] l IH]; intros f p; cbn; [reflexivity|]. rewrite IH, find_snoc. cbn.
  destruct (find _ (rev l)) as [[? ?]|]; [reflexivity|]. unfold put, upd. rewrite (Nat.eqb_sym q p). destruct (p =? q); reflexivity.
Qed.
Lemma apply_spec : forall u f p, apply u f p = after u (f p) p.
Proof.
  intros u f p. unfold apply, after. rewrite inserts_spec, removes_spec. destruct (find _ _) as [[? ?]|]; [reflexivity|].
  destruct (existsb _ _); [reflexivity|]. destruct (u_sync u); reflexivity.
Qed.

(** The shadow with the pending updates applied is the editor's view. *)
Definition pending (s : st) (p : nat) : option nat := fold_left (fun v '(_, u) => after u v p) (m_sent s) (m_shadow s p).
Lemma pending_step : forall s e p, (m_sent s <> [] -> forall u, snd (step s e) <> ODirect u) ->
  pending (fst (step s e)) p = editor p [e] (pending s p).
Proof.
  intros s [u|] p H; cbn in *.
  - destruct (estimate u (m_est s)) as [est files].
    destruct (_ && _); cbn in *.
    + destruct (m_sent s) as [|x r] eqn:E; [unfold pending; cbn; rewrite E; cbn; apply apply_spec|].
      exfalso. exact (H ltac:(discriminate) u eq_refl).
    + unfold pending. cbn. rewrite fold_left_app. reflexivity.
  - destruct (m_sent s) as [|[t u] r] eqn:E; cbn; [reflexivity|]. unfold pending. rewrite E. cbn. now rewrite apply_spec.
Qed.
Lemma editor_cons : forall p e es v, editor p (e :: es) v = editor p es (editor p [e] v).
Proof. intros p [u|] es v; reflexivity. Qed.
Lemma pending_run : forall es s p, in_order s es -> pending (run s es) p = editor p es (pending s p).
Proof.
  induction es as [|e es IH]; intros s p H; [reflexivity|]. destruct H as [H1 H2]. unfold run. cbn [fold_left].
  fold (run (fst (step s e)) es). rewrite (IH _ p H2), (pending_step s e p H1). now rewrite (editor_cons p e es).
Qed.
Lemma in_order_delivered : forall es, in_order init es -> m_sent (run init es) = [] ->
  forall p, m_shadow (run init es) p = editor p es None.
Proof.
  intros es H E p. pose proof (pending_run es init p H) as X. unfold pending in X at 1. rewrite E in X. exact X.
Qed.

(** The estimated set is the set of files the editor has open. *)
Lemma in_drop : forall p q l, In q (drop p l) <-> In q l /\ q <> p.
Proof. intros p q l. unfold drop. rewrite filter_In, negb_true_iff, Nat.eqb_neq. tauto. Qed.
Lemma est_removes : forall l e f q,
  (In q (fst (fold_left (fun '(e, f) p => (drop p e, p :: drop p f)) l (e, f))) <-> In q e /\ ~ In q l) /\
  (In q (snd (fold_left (fun '(e, f) p => (drop p e, p :: drop p f)) l (e, f))) <-> In q f \/ In q l).
Proof.
  induction l as [|p l IH]; intros e f q; cbn; [tauto|]. destruct (IH (drop p e) (p :: drop p f) q) as [A B].
  rewrite A, B. cbn. rewrite !in_drop. destruct (Nat.eq_dec q p) as [->|N]; [tauto|]. intuition congruence.
Qed.
Lemma est_inserts : forall l e f q,
  (In q (fst (fold_left (fun '(e, f) '(p, _) => (p :: drop p e, drop p f)) l (e, f))) <-> In q e \/ In q (map fst l)) /\
  (In q (snd (fold_left (fun '(e, f) '((p, _) : nat * nat) => (p :: drop p e, drop p f)) l (e, f))) <-> In q f /\ ~ In q (map fst l)).
Proof.
  induction l as [|[p c] l IH]; intros e f q; cbn; [tauto|]. destruct (IH (p :: drop p e) (drop p f) q) as [A B].
  rewrite A, B. cbn. rewrite !in_drop. destruct (Nat.eq_dec q p) as [->|N]; [tauto|]. intuition congruence.
Qed.
Lemma estimate_spec : forall u est q,
  (In q (fst (estimate u est)) <-> In q (map fst (u_inserts u)) \/ (In q est /\ u_sync u = false /\ ~ In q (u_removes u))) /\
  (In q (snd (estimate u est)) <-> ~ In q (map fst (u_inserts u)) /\ (In q (u_removes u) \/ (u_sync u = true /\ In q est))).
Proof.
  intros u est q. unfold estimate. destruct (u_sync u) eqn:S.
  - destruct (fold_left _ (u_removes u) ([], est)) as [e1 f1] eqn:R. pose proof (est_removes (u_removes u) [] est q) as [A B].
    rewrite R in A, B. cbn in A, B. destruct (est_inserts (u_inserts u) e1 f1 q) as [C D]. rewrite C, D, A, B. intuition congruence.
  - destruct (fold_left _ (u_removes u) (est, [])) as [e1 f1] eqn:R. pose proof (est_removes (u_removes u) est [] q) as [A B].
    rewrite R in A, B. cbn in A, B. destruct (est_inserts (u_inserts u) e1 f1 q) as [C D]. rewrite C, D, A, B. intuition congruence.
Qed.
Lemma find_rev_in : forall (l : list (nat * nat)) p, (exists x, find (fun x => fst x =? p) (rev l) = Some x) <-> In p (map fst l).
Proof.
  intros l p. split.
  - intros [x H]. apply find_some in H. destruct H as [H1 H2]. apply Nat.eqb_eq in H2. subst. apply in_map. now apply in_rev.
  - intro H. apply in_map_iff in H. destruct H as [[q c] [E H]]. cbn in E. subst.
    destruct (find (fun x => fst x =? p) (rev l)) as [x|] eqn:F; [now exists x|].
    exfalso. pose proof (find_none _ _ F (p, c)) as X. rewrite <- in_rev in X. specialize (X H). cbn in X. rewrite Nat.eqb_refl in X. discriminate.
Qed.
Lemma after_some : forall u v p, (exists c, after u v p = Some c) <->
  In p (map fst (u_inserts u)) \/ ((exists c, v = Some c) /\ u_sync u = false /\ ~ In p (u_removes u)).
Proof.
  intros u v p. unfold after. rewrite <- find_rev_in. destruct (find _ (rev (u_inserts u))) as [[q c]|] eqn:F.
  - split; [intros _; left; now exists (q, c)|intros _; now exists c].
  - assert (X : existsb (fun x => x =? p) (u_removes u) = true <-> In p (u_removes u)).
    { rewrite existsb_exists. split; [intros (x & H & E); apply Nat.eqb_eq in E; now subst|intro H; exists p; now rewrite Nat.eqb_refl]. }
    destruct (existsb _ _); destruct (u_sync u); cbn.
    + split; [intros [c H]; discriminate|]. intros [[x H]|(_ & H & _)]; discriminate.
    + split; [intros [c H]; discriminate|]. intros [[x H]|(_ & _ & H)]; [discriminate|]. exfalso. apply H. now apply X.
    + split; [intros [c H]; discriminate|]. intros [[x H]|(_ & H & _)]; discriminate.
    + split; [intros H; right; split; [exact H|split; [reflexivity|]]; intro Y; apply X in Y; discriminate|].
      intros [[x H]|(H & _)]; [discriminate|exact H].
Qed.
Lemma est_step : forall s e p v, (In p (m_est s) <-> exists c, v = Some c) ->
  (In p (m_est (fst (step s e))) <-> exists c, editor p [e] v = Some c).
Proof.
  intros s [u|] p v H; cbn.
  - pose proof (estimate_spec u (m_est s) p) as [A _]. destruct (estimate u (m_est s)) as [est files]. cbn in A.
    rewrite after_some, <- H. destruct (_ && _); cbn; rewrite A; reflexivity.
  - destruct (m_sent s) as [|[t u] r]; cbn; exact H.
Qed.
Lemma est_run : forall es s p v, (In p (m_est s) <-> exists c, v = Some c) -> (In p (m_est (run s es)) <-> exists c, editor p es v = Some c).
Proof.
  induction es as [|e es IH]; intros s p v H; [exact H|]. rewrite editor_cons. unfold run. cbn [fold_left]. apply IH. now apply est_step.
Qed.
Lemma estimate_exact : forall es p, In p (m_est (run init es)) <-> exists c, editor p es None = Some c.
Proof. intros es p. apply est_run. cbn. split; [intros []|intros [c H]; discriminate]. Qed.

Lemma editor_app : forall p a b v, editor p (a ++ b) v = editor p b (editor p a v).
Proof. induction a as [|[u|] a IH]; intros b v; cbn; auto. Qed.
Lemma closed_is_reread : forall es u p c, editor p es None = Some c -> editor p (es ++ [Edit u]) None = None ->
  exists files, snd (step (run init es) (Edit u)) = OSent files /\ In p files.
Proof.
  intros es u p c H1 H2. rewrite editor_app, H1 in H2. cbn in H2.
  assert (Est : In p (m_est (run init es))) by (apply estimate_exact; now exists c).
  pose proof (estimate_spec u (m_est (run init es)) p) as [_ B]. cbn.
  destruct (estimate u (m_est (run init es))) as [est files] eqn:E. cbn in B.
  assert (F : In p files).
  { apply B. assert (X : ~ (exists c0, after u (Some c) p = Some c0)) by (intros [c0 Y]; congruence). rewrite after_some in X. split.
    - intro Y. apply X. now left.
    - destruct (u_sync u) eqn:S; [right; auto|]. left. destruct (in_dec Nat.eq_dec p (u_removes u)) as [Y|Y]; [exact Y|].
      exfalso. apply X. right. split; [now exists c|auto]. }
  destruct files as [|f files]; [destruct F|]. cbn. eexists. split; [reflexivity|exact F].
Qed.
