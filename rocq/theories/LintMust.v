(** Proofs about what must happen after a warning of late linting. *)
From Coq Require Import List Bool Arith Lia.
From Verif Require Import LintModel LintSpec LintProof LintEval.
Import ListNotations.

Definition must (q : flow) (K : Prop) : Prop := q = Ret true \/ (q = Run /\ K).
Lemma nr_weaken e : no_return true e = true -> no_return false e = true.
Proof.
  assert (L : forall es, Forall (fun e => no_return true e = true -> no_return false e = true) es -> forallb (no_return true) es = true -> forallb (no_return false) es = true).
  { induction 1; cbn; auto. intro E. apply andb_true_iff in E. destruct E as (E1 & E2). rewrite H; auto. }
  induction e using expr_rect'; intro E; auto; try (apply (L _ H E)); try (apply IHe, E).
  - cbn in *. apply andb_true_iff in E. destruct E as (E1 & E2). rewrite IHe2 by auto. destruct e3; auto.
Qed.
(** Without [return], there is none. *)
Definition noret (e : expr) : Prop := tame e = true -> no_return true e = true -> forall o q, ev Run e o q -> forall v, q <> Ret v.
Lemma noret_calm e : calm e = true -> noret e.
Proof. intros C _ _ o q X v. rewrite (calm_run _ _ _ C X). discriminate. Qed.
Lemma noret_blk es : Forall noret es -> forallb stmt_ok es = true -> forallb (no_return true) es = true -> forall o q, blk Run es o q -> forall v, q <> Ret v.
Proof.
  induction 1 as [|e es He Hes IH]; intros T N o q X v; cbn [forallb] in *.
  - inversion X; subst; discriminate.
  - apply andb_true_iff in T. destruct T as (T1 & T2). apply andb_true_iff in N. destruct N as (N1 & N2).
    inversion X; subst; try (eapply IH; eauto; fail).
    match goal with Y : ev Run e _ _ |- _ => rename Y into Y0 end. unfold stmt_ok in T1. destruct (is_show_set e); [rewrite (calm_run e _ _ T1 Y0); discriminate|]. eapply He; eauto.
Qed.
Lemma noret_whl c b o q : whl c b o q -> calm c = true -> noret b -> tame b = true -> no_return true b = true -> q = Run.
Proof.
  induction 1; intros C NB T N; auto.
  - exact (calm_run _ _ _ C H).
  - pose proof (calm_run _ _ _ C H); subst q1. destruct (NB T N _ _ H0 v eq_refl).
Qed.
Lemma noret_itr p b o q : itr p b o q -> p = Run -> noret b -> tame b = true -> no_return true b = true -> q = Run.
Proof.
  induction 1; intros E NB T N; subst; auto.
  destruct (NB T N _ _ H v eq_refl).
Qed.
Lemma noret_all e : noret e.
Proof.
  induction e using expr_rect'; intros T N o' q X v; try (eapply noret_calm; [exact T|exact T|exact N|exact X]; fail).
  - inversion X; subst. eapply noret_blk; eauto.
  - rewrite tame_all, andb_true_iff in T. destruct T as (_ & C). inversion X; subst. match goal with Y : ops Run _ _ _ |- _ => rewrite (calm_ops _ _ _ C Y) end. discriminate.
  - inversion X; subst. eapply IHe; eauto.
  - inversion X; subst. eapply noret_blk; eauto.
  - inversion X; subst. eapply IHe; eauto.
  - cbn in N. apply (noret_calm (Binary n e1 e2)) with (o := o'); auto.
  - cbn in T. apply andb_true_iff in T. destruct T as (C & T). inversion X; subst. match goal with Y0 : ops Run [_; _] _ _ |- _ => rename Y0 into Y end.
    inversion Y as [|? ? ? ? ? ? ? Y1 Y2]; subst. inversion Y2 as [|? ? ? ? ? ? ? Y3 Y4]; subst. inversion Y4; subst.
    assert (D : q1 = Run \/ q1 <> Run) by (destruct q1; auto; right; discriminate). destruct D as [->|D].
    + rewrite (calm_run _ _ _ C Y3). discriminate.
    + rewrite (ev_keep _ _ _ _ Y3 D). eapply IHe2; eauto.
  - discriminate.
  - discriminate.
  - cbn in T, N. rewrite !andb_true_iff in T. destruct T as ((C & T1) & T2). apply andb_true_iff in N. destruct N as (N1 & N2).
    inversion X; subst; match goal with X : ev Run e1 _ ?q1 |- _ => pose proof (calm_run _ _ _ C X); subst q1 end.
    + eapply IHe2; eauto.
    + eapply H; eauto.
    + discriminate.
  - cbn in T, N. apply andb_true_iff in T. destruct T as (C & T). inversion X; subst. cbn.
    match goal with X : whl _ _ _ ?q |- _ => rewrite (noret_whl _ _ _ _ X C IHe2 T N) end. discriminate.
  - cbn in T, N. apply andb_true_iff in T. destruct T as (C & T). inversion X; subst. cbn.
    match goal with X : ev Run e1 _ ?q1 |- _ => pose proof (calm_run _ _ _ C X); subst q1 end.
    match goal with X : itr _ _ _ ?q |- _ => rewrite (noret_itr _ _ _ _ X eq_refl IHe2 T N) end. discriminate.
  - inversion X; subst. discriminate.
  - inversion X; subst. discriminate.
  - discriminate.
Qed.
(** What was looked at stays known. *)
Lemma late_some e : forall s, l_ri s <> None -> l_ri (late e s) <> None.
Proof.
  assert (V : forall n k b s, l_ri s <> None -> l_ri (value n k b s) <> None).
  { intros n k b s H E. apply value_none in E. auto. }
  assert (L : forall es, Forall (fun e => forall s, l_ri s <> None -> l_ri (late e s) <> None) es -> forall s, l_ri s <> None -> l_ri (lates es s) <> None).
  { induction 1; intros s Hs; cbn [lates]; auto. }
  induction e using expr_rect'; intros st0 Hs; try (apply V; auto; fail); try exact Hs; try (apply (L _ H); auto; fail); try (apply IHe; auto; fail);
    try (apply IHe2; auto; fail); try (cbn; discriminate).
  - cbn. apply IHe1, IHe2. exact Hs.
  - cbn. pose proof (IHe2 _ Hs) as A. set (a := late e2 st0) in *. set (b := set_ri (l_ri st0) a).
    assert (C : l_ri (match e3 with Some e => late e b | None => b end) <> None) by (destruct e3; [apply H; exact Hs|exact Hs]).
    destruct (l_ri (match e3 with Some e => late e b | None => b end)); [|congruence]. destruct (l_ri a); [|congruence]. cbn. destruct (Bool.eqb _ _); discriminate.
  - cbn. destruct o; discriminate.
Qed.
Lemma lates_some es s : l_ri s <> None -> l_ri (lates es s) <> None.
Proof. intro H. induction es; cbn [lates]; auto. apply late_some; auto. Qed.
Lemma join_both a b : a <> None -> b <> None -> match join a b with Some r => return_value r | None => false end = true ->
  match a with Some r => return_value r | None => false end = true /\ match b with Some r => return_value r | None => false end = true.
Proof.
  destruct a as [a|], b as [b|]; try congruence. intros _ _. cbn. destruct (Bool.eqb _ _) eqn:E; cbn; intro H; [apply Bool.eqb_prop in E; split; congruence|apply andb_true_iff in H; tauto].
Qed.
Lemma must_calm e : calm e = true -> forall s (K : Prop), (rv s = true -> K) -> rv (late e s) = true -> forall o q, ev Run e o q -> must q K.
Proof.
  intros C s K K1 E o q X. destruct (calm_ri e C s) as (A & _). rewrite A in E. right. split; [exact (calm_run _ _ _ C X)|auto].
Qed.
Definition must_b (es : list expr) (K : Prop) : Prop := forall o q, blk Run es o q -> must q K.
(** What is known about returns is certain. *)
Definition sureP (e : expr) : Prop := tame e = true -> no_return false e = true -> forall s (K : Prop),
  l_ri s <> None -> (rv s = true -> K) -> rv (late e s) = true -> forall o q, ev Run e o q -> must q K.
Lemma sure_calm e : calm e = true -> sureP e.
Proof. intros C T N s K S K1. apply must_calm; auto. Qed.
Lemma sure_list es : Forall sureP es -> forallb stmt_ok es = true -> forallb (no_return false) es = true -> forall s (K : Prop),
  l_ri s <> None -> (rv s = true -> K) -> rv (lates es s) = true -> must_b es K.
Proof.
  induction 1 as [|e es He Hes IH]; intros T N s K S K1.
  - cbn. intros E o q X. inversion X; subst. right; auto.
  - cbn [forallb] in *. apply andb_true_iff in T. destruct T as (T1 & T2). apply andb_true_iff in N. destruct N as (R1 & R2).
    specialize (IH T2 R2 s K S K1). cbn [lates]. unfold stmt_ok in T1. destruct (is_show_set e) eqn:R.
    + destruct (rule_front e es R T1) as (n & Mn & Vn & _). rewrite Vn, value_rv. intros E o q X. inversion X; subst; eauto; try (eapply IH; eauto; fail).
      exfalso. match goal with Y : ev Run e _ q |- _ => rewrite (calm_run _ _ _ T1 Y) in *; congruence end.
    + intros E o q X. specialize (He T1 R1 (lates es s) (must_b es K) (lates_some es s S) IH E). inversion X; subst; try discriminate.
      * match goal with Y : ev Run e _ _ |- _ => destruct (He _ _ Y) as [->|(-> & _)]; [left; auto|congruence] end.
      * match goal with Y : ev Run e _ _ |- _ => destruct (He _ _ Y) as [[=]|(_ & M)] end. eauto.
Qed.
Lemma sure_loop b s (K : Prop) : sureP b -> tame b = true -> no_return true b = true -> l_ri s <> None -> (rv s = true -> K) -> rv (late b s) = true -> K.
Proof.
  intros M T N S K1 E. destruct (total b Run) as (o & q & X). destruct (M T (nr_weaken _ N) s (rv s = true) S (fun H => H) E _ _ X) as [->|(_ & H)]; [|auto].
  destruct (noret_all b T N _ _ X true eq_refl).
Qed.
Lemma sure_all e : sureP e.
Proof.
  induction e using expr_rect'; intros T N; try (apply sure_calm; auto; fail).
  - intros s K S K1 E o q X. inversion X; subst. eapply sure_list; eauto.
  - rewrite tame_all, andb_true_iff in T. destruct T as (T & C). intros s K S K1. apply must_calm; auto.
  - intros s K S K1 E o q X. inversion X; subst. eapply IHe; eauto.
  - intros s K S K1 E o q X. inversion X; subst. eapply (sure_list es H T N (set_ctx (nest (l_ctx s) CBlock) s)); eauto.
  - intros s K S K1 E o q X. inversion X; subst. eapply (IHe T N (set_ctx (nest (l_ctx s) CExpr) s)); eauto.
  - intros s K S K1 E o q X. cbn in T. apply andb_true_iff in T. destruct T as (C & T).
    inversion X; subst. match goal with Y0 : ops Run [_; _] _ _ |- _ => rename Y0 into Y end.
    inversion Y as [|? ? ? ? ? ? ? Y1 Y2]; subst. inversion Y2 as [|? ? ? ? ? ? ? Y3 Y4]; subst. inversion Y4; subst.
    destruct (IHe2 T N (set_ctx (nest (l_ctx s) CExpr) s) K S K1 E _ _ Y1) as [->|(-> & HK)].
    + rewrite (ev_keep _ _ _ _ Y3) by discriminate. left; auto.
    + right. split; [exact (calm_run _ _ _ C Y3)|auto].
  - discriminate.
  - discriminate.
  - intros s K S K1 E o q X. cbn in T, N. rewrite !andb_true_iff in T. destruct T as ((C & T1) & T2). apply andb_true_iff in N. destruct N as (N1 & N2).
    cbn [late] in E. set (a := late e2 s) in *. set (b := set_ri (l_ri s) a) in *.
    assert (SC : l_ri (match e3 with Some e => late e b | None => b end) <> None) by (destruct e3; [apply late_some; exact S|exact S]).
    apply join_both in E; [|exact SC|apply late_some; auto]. destruct E as (Ec & Ea).
    inversion X; subst; match goal with X : ev Run e1 _ ?q1 |- _ => pose proof (calm_run _ _ _ C X); subst q1 end.
    + eapply (IHe2 T1 N1 s K S K1 Ea); eauto.
    + eapply (H T2 N2 b K S K1 Ec); eauto.
    + right. split; [auto|]. apply K1. exact Ec.
  - intros s K S K1 E o q X. cbn in T, N. apply andb_true_iff in T. destruct T as (C & T). inversion X; subst. cbn.
    match goal with X : whl _ _ _ ?q |- _ => rewrite (noret_whl _ _ _ _ X C (noret_all e2) T N) end. right. split; [auto|]. eapply sure_loop; eauto.
  - intros s K S K1 E o q X. cbn in T, N. apply andb_true_iff in T. destruct T as (C & T). inversion X; subst. cbn.
    match goal with X : ev Run e1 _ ?q1 |- _ => pose proof (calm_run _ _ _ C X); subst q1 end.
    match goal with X : itr _ _ _ ?q |- _ => rewrite (noret_itr _ _ _ _ X eq_refl (noret_all e2) T N) end. right. split; [auto|]. eapply sure_loop; eauto.
  - intros s K S K1 E; discriminate.
  - intros s K S K1 E; discriminate.
  - intros s K S K1 E o' q X. destruct o as [e|]; [|discriminate]. cbn in T. inversion X; subst.
    match goal with X : ev Run e _ ?q1 |- _ => pose proof (calm_run _ _ _ T X); subst q1 end. left; auto.
Qed.
(** What was reported. *)
Definition mustP (e : expr) : Prop := tame e = true -> no_return false e = true -> NoDup (marks e) -> forall s (K : Prop),
  l_ri s <> None -> (rv s = true -> K) ->
  forall n, In (Discard n) (l_diags (late e s)) -> In (Discard n) (l_diags s) \/ (In n (marks e) /\ forall o q, ev Run e o q -> joined n o -> must q K).
Lemma must_value n k e : (forall s, late e s = value n k false s) -> calm e = true -> marks e = [n] -> mustP e.
Proof.
  intros Hl C M T N _ s K S K1 m Hm. rewrite Hl in Hm. apply value_new in Hm.
  destruct Hm as [Hm|(-> & _ & _ & [E|(_ & [=])])]; [auto|]. right. rewrite M. split; [left; auto|].
  intros o q X _. right. split; [exact (calm_run _ _ _ C X)|auto].
Qed.
Lemma must_quiet e : (forall s, l_diags (late e s) = l_diags s) -> mustP e.
Proof. intros Hl T N _ s K S K1 m Hm. rewrite Hl in Hm. auto. Qed.
Lemma must_list es : Forall mustP es -> forallb stmt_ok es = true -> forallb (no_return false) es = true -> NoDup (markss es) -> forall s (K : Prop),
  l_ri s <> None -> (rv s = true -> K) ->
  forall n, In (Discard n) (l_diags (lates es s)) -> In (Discard n) (l_diags s) \/ (In n (markss es) /\ forall o q, blk Run es o q -> joined n o -> must q K).
Proof.
  induction 1 as [|e es He Hes IH]; intros T N ND s K S K1; [cbn; auto|].
  cbn [forallb markss flat_map] in *. apply andb_true_iff in T. destruct T as (T1 & T2). apply andb_true_iff in N. destruct N as (R1 & R2).
  apply NoDup_split in ND. destruct ND as (N1 & N2 & N3). specialize (IH T2 R2 N2 s K S K1). cbn [lates].
  assert (A1 : rv (lates es s) = true -> must_b es K) by (apply sure_list; auto; apply Forall_forall; intros; apply sure_all).
  assert (REST : forall n, In n (markss es) -> (forall o q, blk Run es o q -> joined n o -> must q K) -> forall o q, blk Run (e :: es) o q -> joined n o -> must q K).
  { intros n Hn M o q X HJ. assert (NI : ~ In n (marks e)) by (intro; eapply N3; eauto).
    destruct (rest n (joined n) e es (joined_like n) NI _ _ X HJ) as (o2 & X2 & J2 & _). eauto. }
  unfold stmt_ok in T1. destruct (is_show_set e) eqn:R.
  - destruct (rule_front e es R T1) as (n & Mn & Vn & _). rewrite Vn. intros m Hm. apply value_new in Hm. destruct Hm as [Hm|(-> & _ & _ & Hm)].
    + destruct (IH m Hm) as [?|(I & M)]; auto. right. split; [apply in_or_app; auto|]. apply (REST _ I M).
    + right. split; [apply in_or_app; rewrite Mn; left; left; auto|]. intros o q X HJ. exfalso.
      assert (B : forall o2 q2, blk Run es o2 q2 -> joined n o2 -> False).
      { intros o2 q2 X2 J2. apply (N3 n); [rewrite Mn; left; auto|]. eapply blk_marks; [eauto|left; auto]. }
      inversion X; subst.
      * match goal with Y : ev Run e _ _ |- _ => rename Y into HH end. destruct e; try discriminate; inversion HH; subst; exact (joined_nil _ HJ).
      * unfold plain in *. congruence.
      * eapply B; [eauto|]. apply (joined_under n n0 o2); auto.
      * eapply B; eauto.
      * eapply B; [eauto|]. apply (joined_under n n0 o2); auto.
      * eapply B; [eauto|]. apply (joined_under n n0 o2); auto.
  - intros n Hn. destruct (He T1 R1 N1 (lates es s) (must_b es K) (lates_some es s S) A1 n Hn) as [Hn'|(I & M)].
    + destruct (IH n Hn') as [?|(I & M)]; auto. right. split; [apply in_or_app; auto|]. apply (REST _ I M).
    + right. split; [apply in_or_app; auto|]. intros o q X HJ. inversion X; subst; try discriminate.
      * match goal with Y : ev Run e _ _ |- _ => destruct (M _ _ Y HJ) as [->|(-> & _)]; [left; auto|congruence] end.
      * apply joined_app in HJ. destruct HJ as [HJ|HJ].
        -- match goal with Y : ev Run e _ _ |- _ => destruct (M _ _ Y HJ) as [[=]|(_ & M')] end. eauto.
        -- exfalso. apply (N3 n); auto. eapply blk_marks; [eauto|left; auto].
Qed.
Lemma must_ops es : Forall mustP es -> forallb tame es = true -> forallb calm es = true -> forallb (no_return false) es = true -> NoDup (markss es) -> forall s (K : Prop),
  l_ri s <> None -> (rv s = true -> K) -> forall n, In (Discard n) (l_diags (lates es s)) -> In (Discard n) (l_diags s) \/
  (In n (markss es) /\ forall o q, ops Run es o q -> joined n o -> must q K).
Proof.
  induction 1 as [|e es He Hes IH]; intros T C N ND s K S K1 n Hn; [left; exact Hn|].
  cbn [forallb markss flat_map lates] in *. apply andb_true_iff in T. destruct T as (T1 & T2). apply andb_true_iff in C. destruct C as (C1 & C2).
  apply andb_true_iff in N. destruct N as (R1 & R2). apply NoDup_split in ND. destruct ND as (N1 & N2 & N3).
  destruct (calm_ri (All es) C2 s) as (A1 & _).
  assert (HK1 : rv (lates es s) = true -> K) by (intro E; apply K1; rewrite <- A1; exact E).
  destruct (He T1 R1 N1 (lates es s) K (lates_some es s S) HK1 n Hn) as [Hn'|(I & M)].
  - destruct (IH T2 C2 R2 N2 s K S K1 n Hn') as [?|(I & M)]; [auto|]. right. split; [apply in_or_app; auto|]. intros o q X HJ.
    inversion X as [|p' e' es' o1 q1 o2 q2 X1 X2]; subst. pose proof (calm_run _ _ _ C1 X1); subst q1. apply joined_app in HJ. destruct HJ as [HJ|HJ]; [|eauto].
    exfalso. apply (N3 n); [|auto]. eapply ev_marks; [eauto|left; auto].
  - right. split; [apply in_or_app; auto|]. intros o q X HJ.
    inversion X as [|p' e' es' o1 q1 o2 q2 X1 X2]; subst. pose proof (calm_run _ _ _ C1 X1); subst q1. pose proof (calm_ops _ _ _ C2 X2); subst q.
    apply joined_app in HJ. destruct HJ as [HJ|HJ].
    + eauto.
    + exfalso. apply (N3 n); [auto|]. eapply ops_marks; [eauto|left; auto].
Qed.
Lemma must_loop b s (K : Prop) : mustP b -> tame b = true -> no_return true b = true -> NoDup (marks b) -> l_ri s <> None -> (rv s = true -> K) ->
  forall n, In (Discard n) (l_diags (late b s)) -> In (Discard n) (l_diags s) \/ (In n (marks b) /\ ((exists o q, ev Run b o q /\ joined n o) -> K)).
Proof.
  intros M T N ND S K1 n Hn. destruct (M T (nr_weaken _ N) ND s (rv s = true) S (fun H => H) n Hn) as [?|(I & H)]; [auto|]. right. split; [auto|].
  intros (o & q & X & HJ). destruct (H _ _ X HJ) as [->|(_ & HH)]; [destruct (noret_all b T N _ _ X true eq_refl)|auto].
Qed.
Lemma must_all e : mustP e.
Proof.
  induction e using expr_rect'.
  - intro T. apply (must_value n k); auto.
  - apply must_quiet; auto.
  - apply must_quiet; auto.
  - intros T N ND s K S K1 n Hn. destruct (must_list es H T N ND s K S K1 n Hn) as [?|(I & M)]; [auto|].
    right. split; [auto|]. intros o q X HJ. inversion X; subst. eauto.
  - intros T N ND s K S K1 n Hn. rewrite tame_all, andb_true_iff in T. destruct T as (T & C).
    destruct (must_ops es H T C N ND s K S K1 n Hn) as [?|(I & M)]; [auto|]. right. split; [auto|]. intros o q X HJ. inversion X; subst. eauto.
  - intros T N ND s K S K1 n Hn. destruct (IHe T N ND s K S K1 n Hn) as [?|(I & M)]; [auto|]. right. split; [auto|]. intros o q X HJ. inversion X; subst. eauto.
  - intros T N ND s K S K1 n Hn. destruct (must_list es H T N ND (set_ctx (nest (l_ctx s) CBlock) s) K S K1 n Hn) as [?|(I & M)]; [auto|].
    right. split; [auto|]. intros o q X HJ. inversion X; subst. eauto.
  - intro T. apply (must_value n KOther); auto.
  - intro T. apply (must_value n KOther); auto.
  - apply must_quiet; auto.
  - apply must_quiet. intro s. apply (quiet_ctx CExpr (late e)); [apply quiet|discriminate].
  - apply must_quiet. intro s. apply (quiet_ctx CExpr (fun s => late e1 (late e2 s))); [|discriminate].
    intros s' Hs. rewrite quiet by (rewrite late_ctx; auto). apply quiet; auto.
  - apply must_quiet. intro s. apply (quiet_ctx CExpr (late e2)); [apply quiet|discriminate].
  - apply must_quiet; auto.
  - apply must_quiet; auto.
  - intro T. apply must_quiet; auto. intro s. change (l_diags (lates ps s) = l_diags s). rewrite params_late; auto.
  - apply must_quiet; auto.
  - apply must_quiet; auto.
  - intro T; discriminate.
  - intro T; discriminate.
  - apply must_quiet; auto.
  - intros T N ND s K S K1 n Hn. cbn in T, N. rewrite !andb_true_iff in T. destruct T as ((C & T1) & T2). apply andb_true_iff in N. destruct N as (R1 & R2).
    cbn [marks] in ND. apply NoDup_split in ND. destruct ND as (N1 & N2 & N3).
    cbn [late] in Hn. set (a := late e2 s) in *. set (b := set_ri (l_ri s) a) in *.
    assert (Hi : In (Discard n) (l_diags a) -> In (Discard n) (l_diags s) \/ In n (marks (If e1 e2 e3)) /\ forall o q, ev Run (If e1 e2 e3) o q -> joined n o -> must q K).
    { intro Hi. destruct (IHe2 T1 R1 N1 s K S K1 n Hi) as [?|(I & M)]; [auto|]. right. split; [cbn; apply in_or_app; auto|]. intros o q X HJ.
      inversion X; subst; match goal with X : ev Run e1 _ ?q1 |- _ => pose proof (calm_run _ _ _ C X); subst q1 end.
      - eauto.
      - exfalso. apply (N3 n); [auto|]. eapply ev_marks; [eauto|left; auto].
      - destruct (joined_nil _ HJ). }
    destruct e3 as [e|]; cbn [set_ri l_diags] in Hn; [|auto].
    destruct (H T2 R2 N2 b K S K1 n Hn) as [?|(I & M)]; [auto|]. right. split; [cbn; apply in_or_app; auto|]. intros o q X HJ.
    inversion X; subst; match goal with X : ev Run e1 _ ?q1 |- _ => pose proof (calm_run _ _ _ C X); subst q1 end.
    + exfalso. apply (N3 n); [|auto]. eapply ev_marks; [eauto|left; auto].
    + eauto.
  - intros T N ND s K S K1 m Hm. cbn in T, N. apply andb_true_iff in T. destruct T as (C & T).
    destruct (must_loop e2 s K IHe2 T N ND S K1 m Hm) as [?|(I & M)]; [auto|]. right. split; [auto|]. intros o q X HJ. inversion X; subst. cbn.
    match goal with X : whl _ _ _ ?q |- _ => rewrite (noret_whl _ _ _ _ X C (noret_all e2) T N) end. right. split; [auto|].
    apply M. eapply j_iter; eauto. apply joined_like.
  - intros T N ND s K S K1 m Hm. cbn in T, N. apply andb_true_iff in T. destruct T as (C & T).
    destruct (must_loop e2 s K IHe2 T N ND S K1 m Hm) as [?|(I & M)]; [auto|]. right. split; [auto|]. intros o q X HJ. inversion X; subst. cbn.
    match goal with X : ev Run e1 _ ?q1 |- _ => pose proof (calm_run _ _ _ C X); subst q1 end.
    match goal with X : itr _ _ _ ?q |- _ => rewrite (noret_itr _ _ _ _ X eq_refl (noret_all e2) T N) end. right. split; [auto|].
    apply M. eapply j_itr; eauto. apply joined_like.
  - intro T. apply (must_value n KOther); auto.
  - apply must_quiet; reflexivity.
  - apply must_quiet; reflexivity.
  - apply must_quiet. intro s. destruct o; reflexivity.
Qed.

(** ** Bodies which end with [return]. *)
Lemma lates_app es es' s : lates (es ++ es') s = lates es (lates es' s).
Proof. induction es; cbn [app lates]; congruence. Qed.
Lemma joined_styled_in n m o : joined n o -> joined n [Styled m o].
Proof. intro H. eapply joined_styled; [left; reflexivity|auto]. Qed.
Lemma blk_split es es' o q : blk Run (es ++ es') o q ->
  (q <> Run /\ blk Run es o q) \/ exists o1 o2, blk Run es o1 Run /\ blk Run es' o2 q /\ forall n, joined n o -> joined n o1 \/ joined n o2.
Proof.
  revert o. induction es as [|e es IH]; intros o X.
  - right. exists [], o. split; [constructor|auto].
  - cbn [app] in X. inversion X; subst.
    + left. split; [auto|]. apply blk_stop; auto.
    + match goal with B : blk Run (es ++ es') _ _ |- _ => destruct (IH _ B) as [(N & Y)|(a & b & Y1 & Y2 & Y3)] end.
      * left. split; [auto|]. apply blk_plain; auto.
      * right. exists (o1 ++ a), b. split; [apply blk_plain; auto|]. split; [auto|]. intro n. rewrite !joined_app. intros [?|?]; [auto|]. destruct (Y3 n); auto.
    + match goal with B : blk Run (es ++ es') _ _ |- _ => destruct (IH _ B) as [(N & Y)|(a & b & Y1 & Y2 & Y3)] end.
      * left. split; [auto|]. eapply blk_set; eauto.
      * right. exists [Styled n a], b. split; [eapply blk_set; eauto|]. split; [auto|]. intros m Hm.
        destruct (Y3 m) as [J|J]; [apply (joined_under m n o2); auto|left; eapply joined_styled; [left; reflexivity|auto]|auto].
    + match goal with B : blk Run (es ++ es') _ _ |- _ => destruct (IH _ B) as [(N & Y)|(a & b & Y1 & Y2 & Y3)] end.
      * left. split; [auto|]. eapply blk_set_off; eauto.
      * right. exists a, b. split; [eapply blk_set_off; eauto|]. split; auto.
    + match goal with B : blk Run (es ++ es') _ _ |- _ => destruct (IH _ B) as [(N & Y)|(a & b & Y1 & Y2 & Y3)] end.
      * left. split; [auto|]. eapply blk_show; eauto.
      * right. exists [Applied n a], b. split; [eapply blk_show; eauto|]. split; [auto|]. intros m Hm.
        destruct (Y3 m) as [J|J]; [apply (joined_under m n o2); auto|left; eapply joined_applied; [left; reflexivity|auto]|auto].
    + match goal with B : blk Run (es ++ es') _ _ |- _ => destruct (IH _ B) as [(N & Y)|(a & b & Y1 & Y2 & Y3)] end.
      * left. split; [auto|]. eapply blk_show_sel; eauto.
      * right. exists [Styled n a], b. split; [eapply blk_show_sel; eauto|]. split; [auto|]. intros m Hm.
        destruct (Y3 m) as [J|J]; [apply (joined_under m n o2); auto|left; eapply joined_styled; [left; reflexivity|auto]|auto].
Qed.
Lemma blk_last e o q : is_show_set e = false -> blk Run [e] o q -> ev Run e o q.
Proof.
  intros R X. inversion X; subst; try discriminate; auto.
  match goal with B : blk Run [] _ _ |- _ => inversion B; subst end. rewrite app_nil_r. auto.
Qed.
Lemma ends_plain e : ends e -> is_show_set e = false.
Proof. destruct 1; reflexivity. Qed.
Lemma ends_must e : ends e -> tame e = true -> no_return false e = true -> NoDup (marks e) -> forall s,
  l_ri (late e s) <> None
  /\ (rv (late e s) = true -> forall o q, ev Run e o q -> q = Ret true)
  /\ (forall n, In (Discard n) (l_diags (late e s)) -> In (Discard n) (l_diags s) \/ (In n (marks e) /\ forall o q, ev Run e o q -> joined n o -> q = Ret true)).
Proof.
  induction 1 as [n v|es e He IH|c i e Hi IHi He IHe]; intros T N ND s.
  - split; [destruct v; discriminate|]. split.
    + destruct v as [v|]; [|discriminate]. intros _ o q X. cbn in T. inversion X; subst.
      match goal with Y : ev Run v _ ?q1 |- _ => rewrite (calm_run _ _ _ T Y) end. reflexivity.
    + destruct v; cbn; auto.
  - rewrite tame_block, forallb_app in T. apply andb_true_iff in T. destruct T as (T1 & T2). cbn in T2. rewrite andb_true_r in T2.
    unfold stmt_ok in T2. rewrite (ends_plain _ He) in T2. rewrite nr_block, forallb_app in N. apply andb_true_iff in N. destruct N as (N1 & N2). cbn in N2. rewrite andb_true_r in N2.
    rewrite marks_block in *. unfold markss in *. rewrite flat_map_app in *. cbn [flat_map] in *. rewrite app_nil_r in *. apply NoDup_split in ND. destruct ND as (M1 & M2 & M3).
    rewrite late_block. unfold expr_ctx. set (c := nest (l_ctx s) CBlock) in *. rewrite lates_app. cbn [lates].
    destruct (IH T2 N2 M2 (set_ctx c s)) as (A1 & A2 & A3). set (s1 := late e (set_ctx c s)) in *.
    assert (SL : rv (lates es s1) = true -> must_b es (rv s1 = true)).
    { apply sure_list; auto. apply Forall_forall; intros; apply sure_all. }
    split; [apply lates_some; auto|]. split.
    + intros E o q X. inversion X; subst. match goal with B : blk Run (es ++ [e]) _ _ |- _ => apply blk_split in B; destruct B as [(NR & Y)|(a & b & Y1 & Y2 & _)] end.
      * destruct (SL E _ _ Y) as [?|(? & _)]; [auto|congruence].
      * destruct (SL E _ _ Y1) as [[=]|(_ & E1)]. apply blk_last in Y2; [|apply ends_plain; auto]. eauto.
    + intros n Hn. cbn [set_ctx l_diags] in Hn.
      assert (ML : forall n, In (Discard n) (l_diags (lates es s1)) -> In (Discard n) (l_diags s1) \/ (In n (markss es) /\ forall o q, blk Run es o q -> joined n o -> must q (rv s1 = true))).
      { apply must_list; auto. apply Forall_forall; intros; apply must_all. }
      destruct (ML n Hn) as [Hn'|(I & M)].
      * destruct (A3 n Hn') as [?|(I & M)]; [auto|]. right. split; [apply in_or_app; auto|]. intros o q X HJ. inversion X; subst.
        match goal with B : blk Run (es ++ [e]) _ _ |- _ => apply blk_split in B; destruct B as [(NR & Y)|(a & b & Y1 & Y2 & Y3)] end.
        -- exfalso. apply (M3 n); [|auto]. eapply blk_marks; [eauto|left; auto].
        -- apply blk_last in Y2; [|apply ends_plain; auto]. destruct (Y3 n HJ) as [J|J]; [|eauto]. exfalso. apply (M3 n); [|auto]. eapply blk_marks; [eauto|left; auto].
      * right. split; [apply in_or_app; auto|]. intros o q X HJ. inversion X; subst.
        match goal with B : blk Run (es ++ [e]) _ _ |- _ => apply blk_split in B; destruct B as [(NR & Y)|(a & b & Y1 & Y2 & Y3)] end.
        -- destruct (M _ _ Y HJ) as [?|(? & _)]; [auto|congruence].
        -- apply blk_last in Y2; [|apply ends_plain; auto]. destruct (Y3 n HJ) as [J|J].
           ++ destruct (M _ _ Y1 J) as [[=]|(_ & E1)]. eauto.
           ++ exfalso. apply (M3 n); [auto|]. eapply ev_marks; [eauto|left; auto].
  - cbn in T, N. rewrite !andb_true_iff in T. destruct T as ((C & T1) & T2). apply andb_true_iff in N. destruct N as (N1 & N2).
    cbn [marks] in *. apply NoDup_split in ND. destruct ND as (M1 & M2 & M3). cbn [late]. set (a := late i s) in *. set (b := set_ri (l_ri s) a) in *.
    destruct (IHi T1 N1 M1 s) as (A1 & A2 & A3). destruct (IHe T2 N2 M2 b) as (B1 & B2 & B3). fold a in A1, A2, A3. cbn [set_ri l_ri l_diags].
    split; [destruct (l_ri (late e b)); [|congruence]; destruct (l_ri a); [|congruence]; cbn; destruct (Bool.eqb _ _); discriminate|]. split.
    + intros E o q X. apply join_both in E; auto. destruct E as (Ee & Ei).
      inversion X; subst; match goal with X : ev Run c _ ?q1 |- _ => pose proof (calm_run _ _ _ C X); subst q1 end; eauto.
    + intros n Hn. destruct (B3 n Hn) as [Hn'|(I & M)].
      * destruct (A3 n Hn') as [?|(I & M)]; [auto|]. right. split; [apply in_or_app; auto|]. intros o q X HJ.
        inversion X; subst; match goal with X : ev Run c _ ?q1 |- _ => pose proof (calm_run _ _ _ C X); subst q1 end; [eauto|].
        exfalso. apply (M3 n); [auto|]. eapply ev_marks; [eauto|left; auto].
      * right. split; [apply in_or_app; auto|]. intros o q X HJ.
        inversion X; subst; match goal with X : ev Run c _ ?q1 |- _ => pose proof (calm_run _ _ _ C X); subst q1 end; [|eauto].
        exfalso. apply (M3 n); [|auto]. eapply ev_marks; [eauto|left; auto].
Qed.
