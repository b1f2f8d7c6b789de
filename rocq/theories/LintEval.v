(** Proofs about evaluation, and about what late linting says of it. *)
From Coq Require Import List Bool Arith Lia.
From Verif Require Import LintModel LintSpec LintProof.
Import ListNotations.

Scheme ev_min := Minimality for ev Sort Prop
  with blk_min := Minimality for blk Sort Prop
  with ops_min := Minimality for ops Sort Prop
  with whl_min := Minimality for whl Sort Prop
  with itr_min := Minimality for itr Sort Prop.
Combined Scheme ev_mut from ev_min, blk_min, ops_min, whl_min, itr_min.

Definition stmt_ok (e : expr) : bool := if is_show_set e then calm e else tame e.
Fixpoint params (es : list expr) : bool :=
  match es with [] => true | Ident _ :: es => params es | Item e :: es => calm e && params es | _ :: _ => false end.
Definition calm_o (o : option expr) : bool := match o with Some e => calm e | None => true end.
Lemma calm_seq es : calm (Seq es) = forallb calm es. Proof. reflexivity. Qed.
Lemma calm_all es : calm (All es) = forallb calm es. Proof. reflexivity. Qed.
Lemma calm_block es : calm (Block es) = forallb calm es. Proof. reflexivity. Qed.
Lemma calm_closure n ps b : calm (Closure n ps b) = params ps. Proof. reflexivity. Qed.
Lemma tame_block es : tame (Block es) = forallb stmt_ok es. Proof. reflexivity. Qed.
Lemma tame_seq es : tame (Seq es) = forallb stmt_ok es. Proof. reflexivity. Qed.
Lemma tame_all es : tame (All es) = forallb tame es && forallb calm es. Proof. reflexivity. Qed.
Lemma nr_block b es : no_return b (Block es) = forallb (no_return b) es. Proof. reflexivity. Qed.
Definition markss (es : list expr) : list nat := flat_map marks es.
Lemma marks_block es : marks (Block es) = markss es. Proof. reflexivity. Qed.

Lemma first_keep p q : p <> Run -> first p q = p.
Proof. destruct p; cbn; congruence. Qed.
(** What is pending stays. *)
Lemma keep :
  (forall p e o q, ev p e o q -> p <> Run -> q = p)
  /\ (forall p es o q, blk p es o q -> p <> Run -> q = p)
  /\ (forall p es o q, ops p es o q -> p <> Run -> q = p)
  /\ (forall (c b : expr) (o : list piece) (q : flow), whl c b o q -> True)
  /\ (forall p (b : expr) (o : list piece) (q : flow), itr p b o q -> True).
Proof.
  apply ev_mut; intros; auto; try (rewrite first_keep; auto; fail);
    repeat match goal with H : ?p <> Run -> _, N : ?p <> Run |- _ => specialize (H N); subst end; auto; try congruence.
  apply first_keep; auto.
Qed.
Definition ev_keep := proj1 keep.
Lemma ops_keep p es o q : ops p es o q -> p <> Run -> q = p.
Proof. apply (proj1 (proj2 (proj2 keep))). Qed.

Lemma params_calm es : params es = true -> forallb calm es = true.
Proof.
  induction es as [|e es IH]; cbn; auto. destruct e; try discriminate; cbn; auto.
  intro H. apply andb_true_iff in H. destruct H as (-> & H). auto.
Qed.
(** A calm expression leaves nothing pending. *)
Lemma calm_keep :
  (forall p e o q, ev p e o q -> calm e = true -> q = p)
  /\ (forall p es o q, blk p es o q -> forallb calm es = true -> q = p)
  /\ (forall p es o q, ops p es o q -> forallb calm es = true -> q = p)
  /\ (forall (c b : expr) (o : list piece) (q : flow), whl c b o q -> calm c = true -> calm b = true -> q = Run)
  /\ (forall p (b : expr) (o : list piece) (q : flow), itr p b o q -> calm b = true -> p = Run -> q = Run).
Proof.
  apply ev_mut; intros; cbn [calm] in *; auto; try discriminate;
    try match goal with H : (_ -> ?q = ?p), C : _ |- ?q = ?p => apply H; first [exact C | exact (params_calm _ C) | idtac] end;
    cbn [forallb calm] in *; rewrite ?andb_true_iff, ?andb_true_r in *;
    repeat match goal with H : _ /\ _ |- _ => destruct H end; auto.
  all: repeat match goal with H : ?A -> _, C : ?A |- _ => specialize (H C) end; subst; auto.
  - destruct p; auto.
  - destruct p; auto.
Qed.
Lemma calm_run e o q : calm e = true -> ev Run e o q -> q = Run.
Proof. intros C H. exact (proj1 calm_keep _ _ _ _ H C). Qed.
Lemma calm_ops es o q : forallb calm es = true -> ops Run es o q -> q = Run.
Proof. intros C H. exact (proj1 (proj2 (proj2 calm_keep)) _ _ _ _ H C). Qed.

(** Evaluation is always possible. *)
Lemma total e : forall p, exists o q, ev p e o q.
Proof.
  assert (B : forall es, Forall (fun e => forall p, exists o q, ev p e o q) es -> forall p, exists o q, blk p es o q).
  { induction 1 as [|e' es He Hes IH]; intro p; [eexists _, _; constructor|].
    destruct (He p) as (o & q & H). destruct q; try (eexists _, _; eapply blk_stop; [eauto|discriminate]).
    destruct (IH Run) as (o2 & q2 & H2).
    destruct e'; try (eexists _, _; eapply blk_plain; [reflexivity|eauto|eauto]).
    - eexists _, _. eapply blk_set; eauto.
    - destruct sel; eexists _, _; [eapply blk_show_sel|eapply blk_show]; eauto. }
  assert (O : forall es, Forall (fun e => forall p, exists o q, ev p e o q) es -> forall p, exists o q, ops p es o q).
  { induction 1 as [|e' es He Hes IH]; intro p; [eexists _, _; constructor|].
    destruct (He p) as (o & q & H). destruct (IH q) as (o2 & q2 & H2). eexists _, _. econstructor; eauto. }
  induction e using expr_rect'; intro p.
  - eexists _, _; constructor.
  - eexists _, _; constructor.
  - eexists _, _; constructor.
  - destruct (B _ H p) as (? & ? & ?); eexists _, _; econstructor; eauto.
  - destruct (O _ H p) as (? & ? & ?); eexists _, _; econstructor; eauto.
  - destruct (IHe p) as (? & ? & ?); eexists _, _; econstructor; eauto.
  - destruct (B _ H p) as (? & ? & ?); eexists _, _; econstructor; eauto.
  - destruct (O _ H p) as (? & ? & ?); eexists _, _; econstructor; eauto.
  - destruct (O _ H p) as (? & ? & ?); eexists _, _; econstructor; eauto.
  - destruct (IHe p) as (? & ? & ?); eexists _, _; econstructor; eauto.
  - destruct (IHe p) as (? & ? & ?); eexists _, _; econstructor; eauto.
  - destruct (IHe1 p) as (? & ? & ?); eexists _, _; eapply ev_short; eauto.
  - destruct (IHe2 p) as (? & q & ?). destruct (IHe1 q) as (? & ? & ?). eexists _, _; eapply ev_store. repeat (econstructor; eauto).
  - destruct (IHe p) as (? & ? & ?); eexists _, _; econstructor; eauto.
  - destruct (O (e :: args) (Forall_cons _ IHe H) p) as (? & ? & ?); eexists _, _; econstructor; eauto.
  - destruct (O _ H p) as (? & ? & ?); eexists _, _; econstructor; eauto.
  - destruct o as [e|]; [|eexists _, _; constructor]. destruct (H p) as (? & ? & ?); eexists _, _; econstructor; eauto.
  - destruct (IHe p) as (? & ? & ?); eexists _, _; econstructor; eauto.
  - destruct c as [c|].
    + destruct (H p) as (? & ? & ?); eexists _, _; eapply ev_set_off; eauto.
    + destruct (O (e :: args) (Forall_cons _ IHe H0) p) as (? & ? & ?); eexists _, _; econstructor; eauto.
  - destruct s as [s|].
    + destruct (H p) as (? & q & ?). destruct (IHe q) as (? & ? & ?). eexists _, _; eapply ev_show_sel. repeat (econstructor; eauto).
    + destruct (IHe p) as (? & ? & ?); eexists _, _; econstructor; eauto.
  - eexists _, _; constructor.
  - destruct (IHe1 p) as (? & q & ?). destruct (IHe2 q) as (? & ? & ?); eexists _, _; eapply ev_then; eauto.
  - destruct (IHe1 Run) as (? & ? & ?); eexists _, _; eapply ev_while; eapply whl_end; eauto.
  - destruct (IHe1 Run) as (? & ? & ?); eexists _, _; eapply ev_for; [eauto|eapply itr_end].
  - destruct (IHe p) as (? & ? & ?); eexists _, _; econstructor; eauto.
  - eexists _, _; constructor.
  - eexists _, _; constructor.
  - destruct o as [e|]; [|eexists _, _; constructor]. destruct (H p) as (? & ? & ?); eexists _, _; econstructor; eauto.
Qed.
Lemma ops_total es : forall p, exists o q, ops p es o q.
Proof.
  induction es as [|e es IH]; intro p; [eexists _, _; constructor|].
  destruct (total e p) as (o & q & H). destruct (IH q) as (o2 & q2 & H2). eexists _, _. econstructor; eauto.
Qed.
Lemma calm_can e : calm e = true -> exists o, ev Run e o Run.
Proof. intro C. destruct (total e Run) as (o & q & H). rewrite (calm_run _ _ _ C H) in H. eauto. Qed.
Lemma calm_can_ops es : forallb calm es = true -> exists o, ops Run es o Run.
Proof. intro C. destruct (ops_total es Run) as (o & q & H). rewrite (calm_ops _ _ _ C H) in H. eauto. Qed.

(** What is joined has a mark. *)
Definition touched (n : nat) (o : list piece) : Prop := joined n o \/ ruled n o.
Lemma joined_app n a b : joined n (a ++ b) <-> joined n a \/ joined n b.
Proof.
  split.
  - intro H. inversion H as [o Hi|m o o' Hi Hj|m o o' Hi Hj]; subst; apply in_app_or in Hi; destruct Hi; (left + right); econstructor; eauto; fail.
  - intros [H|H]; inversion H; subst;
      try (eapply joined_val; apply in_or_app; (left + right); eauto; fail);
      try (eapply joined_styled; [apply in_or_app; (left + right); eauto; fail|eauto]; fail);
      try (eapply joined_applied; [apply in_or_app; (left + right); eauto; fail|eauto]; fail).
Qed.
Lemma ruled_app n a b : ruled n (a ++ b) <-> ruled n a \/ ruled n b.
Proof.
  split.
  - intro H. inversion H as [o o' Hi|o o' Hi|m o o' Hi Hj|m o o' Hi Hj]; subst; apply in_app_or in Hi; destruct Hi as [Hi|Hi]; [left|right|left|right|left|right|left|right];
      first [eapply ruled_styled; eassumption | eapply ruled_applied; eassumption | eapply ruled_in_styled; eassumption | eapply ruled_in_applied; eassumption].
  - intros [H|H]; inversion H as [o o' Hi|o o' Hi|m o o' Hi Hj|m o o' Hi Hj]; subst.
    all: first [eapply ruled_styled; apply in_or_app; eauto; fail | eapply ruled_applied; apply in_or_app; eauto; fail
      | eapply ruled_in_styled; [apply in_or_app; eauto|exact Hj]; fail | eapply ruled_in_applied; [apply in_or_app; eauto|exact Hj]].
Qed.
Lemma joined_nil n : ~ joined n [].
Proof. intro H; inversion H; subst; cbn in *; auto. Qed.
Lemma ruled_nil n : ~ ruled n [].
Proof. intro H; inversion H; subst; cbn in *; auto. Qed.
Lemma joined_one n m : joined n [Val m] -> n = m.
Proof. intro H; inversion H as [o Hi|k o o' Hi Hj|k o o' Hi Hj]; subst; destruct Hi as [Hi|[]]; congruence. Qed.
Lemma ruled_one n m : ~ ruled n [Val m].
Proof. intro H; inversion H as [o o' Hi|o o' Hi|k o o' Hi Hj|k o o' Hi Hj]; subst; destruct Hi as [Hi|[]]; congruence. Qed.
Lemma joined_under n m o : joined n [Styled m o] \/ joined n [Applied m o] -> joined n o.
Proof. intros [H|H]; inversion H as [o' Hi|k o0 o' Hi Hj|k o0 o' Hi Hj]; subst; destruct Hi as [Hi|[]]; congruence. Qed.
Lemma ruled_under n m o : ruled n [Styled m o] \/ ruled n [Applied m o] -> n = m \/ ruled n o.
Proof. intros [H|H]; inversion H as [o1 o' Hi|o1 o' Hi|k o0 o' Hi Hj|k o0 o' Hi Hj]; subst; destruct Hi as [Hi|[]]; inversion Hi; subst; auto. Qed.
Lemma touched_app n a b : touched n (a ++ b) -> touched n a \/ touched n b.
Proof. unfold touched. rewrite joined_app, ruled_app. tauto. Qed.
Lemma touched_nil n : ~ touched n [].
Proof. intros [H|H]; [exact (joined_nil _ H)|exact (ruled_nil _ H)]. Qed.
Lemma touched_one n m : touched n [Val m] -> n = m.
Proof. intros [H|H]; [exact (joined_one _ _ H)|destruct (ruled_one _ _ H)]. Qed.
Lemma touched_under n m o : touched n [Styled m o] \/ touched n [Applied m o] -> n = m \/ touched n o.
Proof.
  unfold touched. intros [[H|H]|[H|H]].
  - right; left. eapply joined_under; eauto.
  - destruct (ruled_under n m o (or_introl H)); auto.
  - right; left. eapply joined_under; eauto.
  - destruct (ruled_under n m o (or_intror H)); auto.
Qed.
Lemma touched_marks n :
  (forall p e o q, ev p e o q -> touched n o -> In n (marks e))
  /\ (forall p es o q, blk p es o q -> touched n o -> In n (markss es))
  /\ (forall p es o q, ops p es o q -> touched n o -> In n (markss es))
  /\ (forall (c b : expr) (o : list piece) (q : flow), whl c b o q -> touched n o -> In n (marks b))
  /\ (forall (p : flow) (b : expr) (o : list piece) (q : flow), itr p b o q -> touched n o -> In n (marks b)).
Proof.
  apply ev_mut; intros; cbn [marks markss flat_map] in *; auto;
    try match goal with H : touched _ [] |- _ => destruct (touched_nil _ H) end;
    try match goal with H : touched _ [Val _] |- _ => left; symmetry; exact (touched_one _ _ H) end;
    try match goal with H : touched _ (_ ++ _) |- _ => destruct (touched_app _ _ _ H) end;
    auto; try (apply in_or_app; auto; fail).
  - destruct k; cbn in *; try (destruct (touched_nil _ H)). left; symmetry; exact (touched_one _ _ H).
  - destruct (touched_under _ _ _ (or_introl H3)); [left; auto|right; auto].
  - destruct (touched_under _ _ _ (or_intror H3)); [left; auto|right; auto].
  - destruct (touched_under _ _ _ (or_introl H3)); [left; auto|right; auto].
Qed.
Lemma ev_marks n p e o q : ev p e o q -> touched n o -> In n (marks e).
Proof. apply (touched_marks n). Qed.
Lemma blk_marks n p es o q : blk p es o q -> touched n o -> In n (markss es).
Proof. apply (touched_marks n). Qed.
Lemma ops_marks n p es o q : ops p es o q -> touched n o -> In n (markss es).
Proof. apply (touched_marks n). Qed.

(** A stray event has its statement. *)
Definition src (e : expr) (q : flow) : Prop :=
  match q with Run => True | Brk => exists n, has [] e (Break n) | Cnt => exists n, has [] e (Continue n) | Ret _ => returns e end.
Lemma src_calm e o q : ev Run e o q -> calm e = true -> src e q.
Proof. intros H C. rewrite (calm_run _ _ _ C H). exact Logic.I. Qed.
Lemma src_up e e' q : (forall x p, has p e x -> has p e' x) -> src e q -> src e' q.
Proof. intros H S. destruct q; cbn in *; auto; try (destruct S as (n & S); eauto). destruct S as (k & v' & S & N). exists n, k, v'. auto. Qed.
Lemma strays :
  (forall p e o q, ev p e o q -> p = Run -> tame e = true -> src e q)
  /\ (forall p es o q, blk p es o q -> p = Run -> forallb stmt_ok es = true -> q = Run \/ exists e, In e es /\ src e q)
  /\ (forall p es o q, ops p es o q -> p = Run -> forallb (fun e => tame e || calm e) es = true -> q = Run \/ exists e, In e es /\ src e q)
  /\ (forall (c b : expr) (o : list piece) (q : flow), whl c b o q -> calm c = true -> tame b = true -> q = Run \/ exists v, q = Ret v /\ returns b)
  /\ (forall (p : flow) (b : expr) (o : list piece) (q : flow), itr p b o q -> p = Run -> tame b = true -> q = Run \/ exists v, q = Ret v /\ returns b).
Proof.
  assert (FB : forall p e o q, ev p e o q -> p = Run -> tame e = true -> tame e = calm e -> src e q).
  { intros p e o q H -> T E. apply (src_calm _ _ _ H). congruence. }
  apply ev_mut; intros; subst.
  1-3: exact Logic.I.
  - destruct (H0 eq_refl H2) as [->|(x & Hx & S)]; [exact Logic.I|]. apply (src_up x); auto. intros; eapply has_seq; eauto.
  - rewrite tame_all, andb_true_iff in H2. destruct H2 as (T & C). rewrite (calm_ops _ _ _ C H). exact Logic.I.
  - apply (src_up e); [intros; constructor; auto|]. apply H0; auto.
  - destruct (H0 eq_refl H2) as [->|(x & Hx & S)]; [exact Logic.I|]. apply (src_up x); auto. intros; eapply has_block; eauto.
  - eapply FB; [eapply ev_equation; eassumption|auto..].
  - eapply FB; [eapply ev_coll; eassumption|auto..].
  - eapply FB; [eapply ev_item; eassumption|auto..].
  - apply (src_up e); [intros; constructor; auto|]. apply H0; auto.
  - cbn in H2. apply andb_true_iff in H2. destruct H2 as (T1 & T2). destruct H0 as [->|(x & Hx & S)]; auto; [cbn; rewrite T1, T2; auto|exact Logic.I|].
    destruct Hx as [<-|[<-|[]]]; (eapply src_up; [|exact S]); intros; [apply has_binary_l|apply has_binary_r]; auto.
  - cbn in H2. apply andb_true_iff in H2. apply (src_up l); [intros; apply has_binary_l; auto|]. apply H0; tauto.
  - cbn in H2. apply andb_true_iff in H2. destruct H2 as (T1 & T2). destruct H0 as [->|(x & Hx & S)]; auto; [cbn; rewrite T1, T2, orb_true_r; auto|exact Logic.I|].
    destruct Hx as [<-|[<-|[]]]; (eapply src_up; [|exact S]); intros; [apply has_store_r|apply has_store_l]; auto.
  - eapply FB; [eapply ev_field; eassumption|auto..].
  - eapply FB; [eapply ev_call; eassumption|auto..].
  - eapply FB; [eapply ev_closure; eassumption|auto..].
  - exact Logic.I.
  - eapply FB; [eapply ev_let; eassumption|auto..].
  - eapply FB; [eapply ev_assign; eassumption|auto..].
  - discriminate.
  - discriminate.
  - discriminate.
  - discriminate.
  - discriminate.
  - exact Logic.I.
  - cbn in H4. rewrite !andb_true_iff in H4. destruct H4 as ((C & T) & _). rewrite (calm_run _ _ _ C H) in *.
    apply (src_up i); [intros; apply has_if_then; auto|]. auto.
  - cbn in H4. rewrite !andb_true_iff in H4. destruct H4 as ((C & _) & T). rewrite (calm_run _ _ _ C H) in *.
    apply (src_up e); [intros; apply has_if_else; auto|]. auto.
  - cbn in H2. rewrite !andb_true_iff in H2. destruct H2 as ((C & _) & T). rewrite (calm_run _ _ _ C H) in *. exact Logic.I.
  - cbn in H2. rewrite !andb_true_iff in H2. destruct H2 as (C & T). destruct (H0 C T) as [->|(v & -> & k & m & w & Hh & N)]; [exact Logic.I|].
    exists (k ++ [ALoop n]), m, w. split; [apply has_while_body; auto|]. intros f Hf. apply in_app_or in Hf. destruct Hf as [Hf|[[=]|[]]]. exact (N f Hf).
  - cbn in H4. rewrite !andb_true_iff in H4. destruct H4 as (C & T). rewrite (calm_run _ _ _ C H) in *.
    destruct (H2 eq_refl T) as [->|(v & -> & k & m & w & Hh & N)]; [exact Logic.I|].
    exists (k ++ [ALoop n]), m, w. split; [apply has_for_body; auto|]. intros f Hf. apply in_app_or in Hf. destruct Hf as [Hf|[[=]|[]]]. exact (N f Hf).
  - eapply FB; [eapply ev_include; eassumption|auto..].
  - exists n. constructor.
  - exists n. constructor.
  - exists [], n, None. split; [constructor|intros f []].
  - cbn in H2. rewrite (calm_run _ _ _ H2 H). exists [], n, (Some e). split; [constructor|intros f []].
  - left; auto.
  - cbn in H3. apply andb_true_iff in H3. destruct H3 as (S & _). right. exists e. split; [left; auto|].
    unfold stmt_ok in S. destruct (is_show_set e); [apply (src_calm _ _ _ H S)|auto].
  - cbn in H5. apply andb_true_iff in H5. destruct H5 as (_ & S). destruct (H3 eq_refl S) as [->|(x & Hx & Sx)]; [auto|right; exists x; split; [right; auto|auto]].
  - cbn in H4. apply andb_true_iff in H4. destruct H4 as (_ & S). destruct (H2 eq_refl S) as [->|(x & Hx & Sx)]; [auto|right; exists x; split; [right; auto|auto]].
  - cbn in H4. apply andb_true_iff in H4. destruct H4 as (_ & S). destruct (H2 eq_refl S) as [->|(x & Hx & Sx)]; [auto|right; exists x; split; [right; auto|auto]].
  - cbn in H4. apply andb_true_iff in H4. destruct H4 as (_ & S). destruct (H2 eq_refl S) as [->|(x & Hx & Sx)]; [auto|right; exists x; split; [right; auto|auto]].
  - cbn in H4. apply andb_true_iff in H4. destruct H4 as (_ & S). destruct (H2 eq_refl S) as [->|(x & Hx & Sx)]; [auto|right; exists x; split; [right; auto|auto]].
  - left; auto.
  - cbn in H4. apply andb_true_iff in H4. destruct H4 as (S & SS).
    assert (Se : src e q1).
    { apply orb_true_iff in S. destruct S as [S|S]; [auto|exact (src_calm _ _ _ H S)]. }
    destruct q1.
    + destruct (H2 eq_refl SS) as [->|(x & Hx & Sx)]; [auto|right; exists x; split; [right; auto|auto]].
    + rewrite (ops_keep _ _ _ _ H1) by discriminate. right; exists e; split; [left; auto|auto].
    + rewrite (ops_keep _ _ _ _ H1) by discriminate. right; exists e; split; [left; auto|auto].
    + rewrite (ops_keep _ _ _ _ H1) by discriminate. right; exists e; split; [left; auto|auto].
  - left. exact (calm_run _ _ _ H1 H).
  - left; auto.
  - right. exists v. split; [auto|]. rewrite (calm_run _ _ _ H3 H) in *. exact (H2 eq_refl H4).
  - auto.
  - left; auto.
  - left; auto.
  - right. exists v. split; [auto|]. exact (H0 eq_refl H2).
  - auto.
Qed.

(** ** What may happen after a warning. *)
Definition rv (s : lt) : bool := match l_ri s with Some r => return_value r | None => false end.
Definition rn (s : lt) : bool := match l_ri s with Some r => return_none r | None => false end.
Definition leads (v : bool) (q : flow) (K : bool -> Prop) : Prop := q = Ret v \/ (q = Run /\ K v).
Definition can (e : expr) (v : bool) (K : bool -> Prop) : Prop := exists o q, ev Run e o q /\ leads v q K.
Lemma value_ri n k b s : l_ri (value n k b s) = l_ri s \/ exists r, l_ri s = Some r /\ l_ri (value n k b s) = Some (mkRi (return_value r) (return_none r) true).
Proof.
  unfold value. destruct (l_ctx s); auto. destruct (l_ri s) as [r|] eqn:E; auto. destruct (warned r); auto. destruct k; auto.
  destruct (_ || _); auto. right. exists r. auto.
Qed.
Lemma value_rv n k b s : rv (value n k b s) = rv s.
Proof. unfold rv. destruct (value_ri n k b s) as [->|(r & -> & ->)]; auto. Qed.
Lemma value_rn n k b s : rn (value n k b s) = rn s.
Proof. unfold rn. destruct (value_ri n k b s) as [->|(r & -> & ->)]; auto. Qed.
Lemma value_none n k b s : l_ri (value n k b s) = None <-> l_ri s = None.
Proof. destruct (value_ri n k b s) as [->|(r & -> & ->)]; split; auto; discriminate. Qed.
Lemma value_ctx n k b s : l_ctx (value n k b s) = l_ctx s.
Proof. unfold value. destruct (l_ctx s) eqn:C; auto. destruct (l_ri s); auto. destruct (warned r); auto. destruct k; auto. destruct (_ || _); auto. Qed.
Lemma value_new n k b s m : In (Discard m) (l_diags (value n k b s)) -> In (Discard m) (l_diags s) \/ (m = n /\ k = KOther /\ l_ctx s = CBlock /\ (rv s = true \/ (rn s = true /\ b = true))).
Proof.
  unfold value, rv, rn. destruct (l_ctx s) eqn:C; auto. destruct (l_ri s) as [r|]; auto. destruct (warned r); auto. destruct k; auto.
  destruct (return_value r || return_none r && b) eqn:E; auto. cbn. rewrite in_app_iff. intros [H|[[= <-]|[]]]; auto. right.
  repeat split; auto. apply orb_true_iff in E. destruct E as [E|E]; auto. apply andb_true_iff in E. auto.
Qed.
Lemma late_ctx e s : l_ctx (late e s) = l_ctx s.
Proof. destruct s as [d r c]. apply late_diags. Qed.
Lemma lates_ctx es s : l_ctx (lates es s) = l_ctx s.
Proof. induction es; cbn; auto. rewrite late_ctx; auto. Qed.
Lemma late_block es s : late (Block es) s = expr_ctx CBlock (lates es) s.
Proof. reflexivity. Qed.
(** Nothing is reported in operands. *)
Lemma quiet e : forall s, l_ctx s <> CBlock -> l_diags (late e s) = l_diags s.
Proof.
  assert (V : forall n k b s, l_ctx s <> CBlock -> l_diags (value n k b s) = l_diags s).
  { intros n k b s H. unfold value. destruct (l_ctx s); auto; congruence. }
  assert (L : forall es, Forall (fun e => forall s, l_ctx s <> CBlock -> l_diags (late e s) = l_diags s) es -> forall s, l_ctx s <> CBlock -> l_diags (lates es s) = l_diags s).
  { induction 1; intros s Hs; cbn [lates]; auto. rewrite H; auto. rewrite lates_ctx; auto. }
  induction e using expr_rect'; intros st0 Hs; try (apply V; auto; fail); try reflexivity; try (apply L; auto; fail); try (apply IHe; auto; fail); try (apply IHe2; auto; fail).
  - rewrite late_block. unfold expr_ctx. cbn. rewrite L; auto. cbn. destruct (l_ctx st0); cbn; congruence.
  - cbn. rewrite IHe; auto. cbn; congruence.
  - cbn. rewrite IHe1, IHe2; auto; cbn; try congruence. rewrite late_ctx; cbn; congruence.
  - cbn. rewrite IHe2; auto. cbn; congruence.
  - cbn. destruct e3 as [e|]; cbn.
    + rewrite H; cbn; [auto|rewrite late_ctx; auto].
    + auto.
  - cbn. destruct o; reflexivity.
Qed.

Lemma join_rv a b : match join a b with Some r => return_value r | None => false end = true ->
  match a with Some r => return_value r | None => false end = true \/ match b with Some r => return_value r | None => false end = true.
Proof.
  destruct a as [a|], b as [b|]; cbn; auto. destruct (Bool.eqb _ _); cbn; auto. intro H. apply andb_true_iff in H. tauto.
Qed.
Lemma join_rn a b : match join a b with Some r => return_none r | None => false end = true ->
  match a with Some r => return_none r | None => false end = true \/ match b with Some r => return_none r | None => false end = true.
Proof.
  destruct a as [a|], b as [b|]; cbn; auto. destruct (Bool.eqb _ _); cbn; auto. intro H. apply andb_true_iff in H. tauto.
Qed.
Lemma NoDup_split (a b : list nat) : NoDup (a ++ b) -> NoDup a /\ NoDup b /\ forall n, In n a -> In n b -> False.
Proof.
  induction a as [|x a IH]; cbn; intro H; [repeat split; auto; constructor|]. inversion H; subst. destruct (IH H3) as (H4 & H5 & H6).
  repeat split; auto.
  - constructor; auto. intro; apply H2; apply in_or_app; auto.
  - intros n [<-|Hn] Hb; [apply H2; apply in_or_app; auto|eauto].
Qed.
(** The two ways of being touched are treated alike: a property [J] of what was joined. *)
Record jlike (n : nat) (J : list piece -> Prop) : Prop := {
  j_touched : forall o, J o -> touched n o;
  j_app : forall a b, J (a ++ b) <-> J a \/ J b;
  j_styled : forall m o, m <> n -> (J [Styled m o] <-> J o);
  j_applied : forall m o, m <> n -> (J [Applied m o] <-> J o) }.
Lemma joined_like n : jlike n (joined n).
Proof.
  split.
  - intros; left; auto.
  - apply joined_app.
  - intros m o _. split; [intro; apply (joined_under n m o); auto|]. intro. eapply joined_styled; [left; reflexivity|auto].
  - intros m o _. split; [intro; apply (joined_under n m o); auto|]. intro. eapply joined_applied; [left; reflexivity|auto].
Qed.
Lemma ruled_like n : jlike n (ruled n).
Proof.
  split.
  - intros; right; auto.
  - apply ruled_app.
  - intros m o H. split; [intro R; destruct (ruled_under n m o (or_introl R)); auto; congruence|]. intro. eapply ruled_in_styled; [left; reflexivity|auto].
  - intros m o H. split; [intro R; destruct (ruled_under n m o (or_intror R)); auto; congruence|]. intro. eapply ruled_in_applied; [left; reflexivity|auto].
Qed.
Lemma j_nil n J : jlike n J -> ~ J [].
Proof. intros L H. exact (touched_nil n (j_touched _ _ L _ H)). Qed.
Lemma j_iter n J c b o q : jlike n J -> calm c = true -> whl c b o q -> J o -> exists o' q', ev Run b o' q' /\ J o'.
Proof.
  intros L C H. induction H; intro T.
  - destruct (j_nil _ _ L T).
  - rewrite (calm_run _ _ _ C H) in *. eexists _, _; eauto.
  - rewrite (calm_run _ _ _ C H) in *. eexists _, _; eauto.
  - rewrite (calm_run _ _ _ C H) in *. apply (j_app _ _ L) in T. destruct T as [T|T]; [eexists _, _; eauto|auto].
Qed.
Lemma j_itr n J p b o q : jlike n J -> itr p b o q -> p = Run -> J o -> exists o' q', ev Run b o' q' /\ J o'.
Proof.
  intros L H. induction H; intros E T; subst.
  - destruct (j_nil _ _ L T).
  - eexists _, _; eauto.
  - eexists _, _; eauto.
  - apply (j_app _ _ L) in T. destruct T as [T|T]; [eexists _, _; eauto|auto].
Qed.
(** [ends_well J v]: it can be touched, and if so also with a return of kind [v]. *)
Definition may_e (n : nat) (e : expr) (K : bool -> Prop) : Prop :=
  ((exists o q, ev Run e o q /\ joined n o) -> exists o q, ev Run e o q /\ joined n o /\ leads true q K)
  /\ ((exists o q, ev Run e o q /\ ruled n o) -> exists o q v, ev Run e o q /\ ruled n o /\ leads v q K).
Definition may_b (n : nat) (es : list expr) (K : bool -> Prop) : Prop :=
  ((exists o q, blk Run es o q /\ joined n o) -> exists o q, blk Run es o q /\ joined n o /\ leads true q K)
  /\ ((exists o q, blk Run es o q /\ ruled n o) -> exists o q v, blk Run es o q /\ ruled n o /\ leads v q K).
Definition mayP (e : expr) : Prop := tame e = true -> NoDup (marks e) -> forall s (K : bool -> Prop),
  (rv s = true -> K true) -> (rn s = true -> K false) ->
  (rv (late e s) = true -> can e true K) /\ (rn (late e s) = true -> can e false K)
  /\ (forall n, In (Discard n) (l_diags (late e s)) -> In (Discard n) (l_diags s) \/ (In n (marks e) /\ may_e n e K)).
(** Statements of a block, from the front. *)
Lemma front_e n J v e es (K : bool -> Prop) (K' := fun w => exists o q, blk Run es o q /\ leads w q K) : jlike n J -> plain e ->
  (exists o q, ev Run e o q /\ J o /\ leads v q K') -> exists o q, blk Run (e :: es) o q /\ J o /\ leads v q K.
Proof.
  intros L P (o & q & H & HJ & [->|(-> & o2 & q2 & H2 & LL)]).
  - exists o, (Ret v). split; [apply blk_stop; [auto|discriminate]|]. split; [auto|left; auto].
  - exists (o ++ o2), q2. split; [apply blk_plain; auto|]. split; [apply (j_app _ _ L); auto|auto].
Qed.
Lemma back_e n J e es : jlike n J -> ~ In n (markss es) -> (forall m, is_show_set e = true -> In m (marks e) -> m <> n) ->
  (exists o q, blk Run (e :: es) o q /\ J o) -> exists o q, ev Run e o q /\ J o.
Proof.
  intros L N NR (o & q & H & HJ). inversion H; subst.
  - eexists _, _; eauto.
  - apply (j_app _ _ L) in HJ. destruct HJ as [HJ|HJ]; [eexists _, _; eauto|].
    exfalso. apply N. eapply blk_marks; [eauto|]. apply (j_touched _ _ L _ HJ).
  - rewrite (j_styled _ _ L) in HJ by (apply NR; cbn; auto). exfalso. apply N. eapply blk_marks; [eauto|]. apply (j_touched _ _ L _ HJ).
  - exfalso. apply N. eapply blk_marks; [eauto|]. apply (j_touched _ _ L _ HJ).
  - rewrite (j_applied _ _ L) in HJ by (apply NR; cbn; auto). exfalso. apply N. eapply blk_marks; [eauto|]. apply (j_touched _ _ L _ HJ).
  - rewrite (j_styled _ _ L) in HJ by (apply NR; cbn; auto). exfalso. apply N. eapply blk_marks; [eauto|]. apply (j_touched _ _ L _ HJ).
Qed.
(** What happens after the first statement, when the node is not in it. *)
Lemma rest n J e es : jlike n J -> ~ In n (marks e) -> forall o q, blk Run (e :: es) o q -> J o ->
  exists o2, blk Run es o2 q /\ J o2 /\ forall o3 q3, blk Run es o3 q3 -> J o3 -> exists o4, blk Run (e :: es) o4 q3 /\ J o4.
Proof.
  intros L N o q H HJ. inversion H; subst.
  - exfalso. apply N. eapply ev_marks; [eauto|]. apply (j_touched _ _ L _ HJ).
  - apply (j_app _ _ L) in HJ. destruct HJ as [HJ|HJ]; [exfalso; apply N; eapply ev_marks; [eauto|]; apply (j_touched _ _ L _ HJ)|].
    exists o2. split; [auto|]. split; [auto|]. intros o3 q3 HH3 J3. exists (o1 ++ o3). split; [apply blk_plain; auto|]. apply (j_app _ _ L); auto.
  - assert (M : n0 <> n) by (intros ->; apply N; cbn; auto). rewrite (j_styled _ _ L) in HJ by auto.
    exists o2. split; [auto|]. split; [auto|]. intros o3 q3 HH3 J3. exists [Styled n0 o3]. split; [eapply blk_set; eauto|]. apply (j_styled _ _ L); auto.
  - exists o. split; [auto|]. split; [auto|]. intros o3 q3 HH3 J3. exists o3. split; [eapply blk_set_off; eauto|auto].
  - assert (M : n0 <> n) by (intros ->; apply N; cbn; auto). rewrite (j_applied _ _ L) in HJ by auto.
    exists o2. split; [auto|]. split; [auto|]. intros o3 q3 HH3 J3. exists [Applied n0 o3]. split; [eapply blk_show; eauto|]. apply (j_applied _ _ L); auto.
  - assert (M : n0 <> n) by (intros ->; apply N; cbn; auto). rewrite (j_styled _ _ L) in HJ by auto.
    exists o2. split; [auto|]. split; [auto|]. intros o3 q3 HH3 J3. exists [Styled n0 o3]. split; [eapply blk_show_sel; eauto|]. apply (j_styled _ _ L); auto.
Qed.
Lemma may_rest n e es K : ~ In n (marks e) -> may_b n es K -> may_b n (e :: es) K.
Proof.
  intros N (M1 & M2). split.
  - intros (o & q & H & HJ). destruct (rest n (joined n) e es (joined_like n) N _ _ H HJ) as (o2 & H2 & J2 & UP).
    destruct M1 as (o3 & q3 & H3 & J3 & L3); [eauto|]. destruct (UP _ _ H3 J3) as (o4 & H4 & J4). eauto 6.
  - intros (o & q & H & HJ). destruct (rest n (ruled n) e es (ruled_like n) N _ _ H HJ) as (o2 & H2 & J2 & UP).
    destruct M2 as (o3 & q3 & v & H3 & J3 & L3); [eauto|]. destruct (UP _ _ H3 J3) as (o4 & H4 & J4). eauto 8.
Qed.
Definition can_b (es : list expr) (v : bool) (K : bool -> Prop) : Prop := exists o q, blk Run es o q /\ leads v q K.
(** A rule in front of statements. *)
Lemma rule_front e es : is_show_set e = true -> calm e = true -> exists n, marks e = [n] /\ (forall s, late e s = value n KOther true s)
  /\ forall o q, blk Run es o q -> exists o', blk Run (e :: es) o' q /\ ruled n o'.
Proof.
  intros R C. destruct (calm_can e C) as (o0 & H0). destruct e; try discriminate.
  - exists n. split; [auto|]. split; [auto|]. intros o q H. exists [Styled n o]. split; [eapply blk_set; eauto|]. eapply ruled_styled; left; reflexivity.
  - exists n. split; [auto|]. split; [auto|]. intros o q H. destruct sel as [s|].
    + exists [Styled n o]. split; [eapply blk_show_sel; eauto|]. eapply ruled_styled; left; reflexivity.
    + exists [Applied n o]. split; [eapply blk_show; eauto|]. eapply ruled_applied; left; reflexivity.
Qed.
Lemma may_list es : Forall mayP es -> forallb stmt_ok es = true -> NoDup (markss es) -> forall s (K : bool -> Prop),
  (rv s = true -> K true) -> (rn s = true -> K false) ->
  (rv (lates es s) = true -> can_b es true K) /\ (rn (lates es s) = true -> can_b es false K)
  /\ (forall n, In (Discard n) (l_diags (lates es s)) -> In (Discard n) (l_diags s) \/ (In n (markss es) /\ may_b n es K)).
Proof.
  induction 1 as [|e es He Hes IH]; intros T ND s K K1 K2.
  - cbn. repeat split; auto; intro H; [apply K1 in H|apply K2 in H]; exists [], Run; (split; [constructor|right; auto]).
  - cbn [forallb markss flat_map] in *. apply andb_true_iff in T. destruct T as (T1 & T2). apply NoDup_split in ND. destruct ND as (N1 & N2 & N3).
    destruct (IH T2 N2 s K K1 K2) as (A1 & A2 & A3). cbn [lates]. unfold stmt_ok in T1. destruct (is_show_set e) eqn:R.
    + destruct (rule_front e es R T1) as (n & Mn & Vn & Fn). rewrite Vn, value_rv, value_rn.
      assert (UP : forall v, can_b es v K -> can_b (e :: es) v K).
      { intros v (o & q & H & LL). destruct (Fn _ _ H) as (o' & H' & _). exists o', q; auto. }
      split; [auto|]. split; [auto|]. intros m Hm. apply value_new in Hm. destruct Hm as [Hm|(-> & _ & _ & Hm)].
      * destruct (A3 m Hm) as [?|(I & M)]; auto. right. split; [apply in_or_app; auto|]. apply may_rest; auto. intro; eauto.
      * right. split; [rewrite Mn; left; auto|]. split.
        -- intros (o & q & H & HJ). exfalso. assert (T : touched n o) by (left; auto). 
           inversion H; subst.
           ++ destruct e; try discriminate; inversion H3; subst; exact (joined_nil _ HJ).
           ++ unfold plain in *. congruence.
           ++ apply (N3 n); [rewrite Mn; left; auto|]. eapply blk_marks; [eauto|]. left. apply (joined_under n n0 o2); auto.
           ++ apply (N3 n); [rewrite Mn; left; auto|]. eapply blk_marks; [eauto|]. left; auto.
           ++ apply (N3 n); [rewrite Mn; left; auto|]. eapply blk_marks; [eauto|]. left. apply (joined_under n n0 o2); auto.
           ++ apply (N3 n); [rewrite Mn; left; auto|]. eapply blk_marks; [eauto|]. left. apply (joined_under n n0 o2); auto.
        -- intros _. destruct Hm as [Hm|(Hm & _)]; [destruct (A1 Hm) as (o & q & H & LL)|destruct (A2 Hm) as (o & q & H & LL)];
             destruct (Fn _ _ H) as (o' & H' & R'); eexists _, _, _; eauto.
    + destruct (He T1 N1 (lates es s) (fun w => can_b es w K) A1 A2) as (B1 & B2 & B3).
      assert (UP : forall v, can e v (fun w => can_b es w K) -> can_b (e :: es) v K).
      { intros v (o & q & H & [->|(-> & o2 & q2 & H2 & LL)]).
        - exists o, (Ret v). split; [apply blk_stop; [auto|discriminate]|left; auto].
        - exists (o ++ o2), q2. split; [apply blk_plain; auto|auto]. }
      split; [auto|]. split; [auto|]. intros n Hn. destruct (B3 n Hn) as [Hn'|(I & M1 & M2)].
      * destruct (A3 n Hn') as [?|(I & M)]; auto. right. split; [apply in_or_app; auto|]. apply may_rest; auto. intro; eauto.
      * right. split; [apply in_or_app; auto|]. split.
        -- intro H. apply (back_e n (joined n)) in H; [|apply joined_like|intro; eauto|intros; congruence]. 
           apply (front_e n (joined n) true e es K); auto. apply joined_like.
        -- intro H. apply (back_e n (ruled n)) in H; [|apply ruled_like|intro; eauto|intros; congruence].
           destruct (M2 H) as (o & q & v & HH). destruct (front_e n (ruled n) v e es K) as (o' & q' & H'); auto; [apply ruled_like|eauto|]. eauto.
Qed.

Lemma rv_ctx c s : rv (set_ctx c s) = rv s. Proof. reflexivity. Qed.
Lemma rn_ctx c s : rn (set_ctx c s) = rn s. Proof. reflexivity. Qed.
(** A calm expression does not change what is known about returns. *)
Definition same_ri (s s' : lt) : Prop := rv s' = rv s /\ rn s' = rn s /\ (l_ri s' = None <-> l_ri s = None).
Lemma same_refl s : same_ri s s.
Proof. repeat split; auto. Qed.
Lemma same_trans a b c : same_ri a b -> same_ri b c -> same_ri a c.
Proof. intros (A & B & C) (A' & B' & C'). repeat split; try congruence; tauto. Qed.
Lemma params_late ps : params ps = true -> forall s, lates ps s = s.
Proof.
  induction ps as [|e es IH]; cbn; auto. destruct e; try discriminate; cbn; auto.
  intro H. apply andb_true_iff in H. destruct H as (_ & H). auto.
Qed.
Lemma calm_ri e : calm e = true -> forall s, same_ri s (late e s).
Proof.
  assert (V : forall n k b s, same_ri s (value n k b s)).
  { intros. split; [apply value_rv|]. split; [apply value_rn|apply value_none]. }
  assert (L : forall es, Forall (fun e => calm e = true -> forall s, same_ri s (late e s)) es -> forallb calm es = true -> forall s, same_ri s (lates es s)).
  { induction 1; intros C s; cbn [lates]; [apply same_refl|]. cbn in C. apply andb_true_iff in C. destruct C as (C1 & C2).
    eapply same_trans; [apply IHForall; auto|apply H; auto]. }
  induction e using expr_rect'; intros C st0; try apply V; try apply same_refl; try discriminate; try (apply (L _ H); exact C); try (apply IHe; exact C).
  - rewrite late_block. unfold expr_ctx. destruct (L _ H C (set_ctx (nest (l_ctx st0) CBlock) st0)) as (A & B & D). split; [auto|split; auto].
  - cbn. unfold expr_ctx. destruct (IHe C (set_ctx (nest (l_ctx st0) CExpr) st0)) as (A & B & D). split; [auto|split; auto].
  - cbn in C. apply andb_true_iff in C. destruct C as (C1 & C2). cbn. unfold expr_ctx.
    destruct (same_trans _ _ _ (IHe2 C2 (set_ctx (nest (l_ctx st0) CExpr) st0)) (IHe1 C1 _)) as (A & B & D). split; [auto|split; auto].
  - cbn in C. apply andb_true_iff in C. destruct C as (C1 & C2). cbn. unfold expr_ctx.
    destruct (IHe2 C2 (set_ctx (nest (l_ctx st0) CExpr) st0)) as (A & B & D). split; [auto|split; auto].
  - rewrite calm_closure in C. change (late (Closure n ps e) st0) with (lates ps st0). rewrite params_late; auto. apply same_refl.
  - cbn in C. rewrite !andb_true_iff in C. destruct C as ((C1 & C2) & C3). cbn [late].
    destruct (IHe2 C2 st0) as (A & B & D).
    set (a := late e2 st0) in *. set (b := set_ri (l_ri st0) a).
    assert (S : same_ri st0 (match e3 with Some e => late e b | None => b end)).
    { destruct e3 as [e|]; [exact (H C3 b)|]. split; [reflexivity|]. split; reflexivity. }
    set (c := match e3 with Some e => late e b | None => b end) in *.
    destruct S as (A' & B' & D'). unfold same_ri, rv, rn in *. cbn [l_ri set_ri].
    destruct (l_ri c) as [x|], (l_ri a) as [y|], (l_ri st0) as [z|]; cbn in *;
      try (exfalso; (destruct D as (D1 & D2); try (specialize (D1 eq_refl)); try (specialize (D2 eq_refl)));
        (destruct D' as (E1 & E2); try (specialize (E1 eq_refl)); try (specialize (E2 eq_refl))); discriminate).
    + rewrite A', <- A, Bool.eqb_reflx. split; [congruence|]. split; [auto|]. split; discriminate.
    + tauto.
  - cbn in C. apply andb_true_iff in C. destruct C as (C1 & C2). apply (IHe2 C2).
  - cbn in C. apply andb_true_iff in C. destruct C as (C1 & C2). apply (IHe2 C2).
Qed.
(** What is known about returns is possible. *)
Definition canP (e : expr) : Prop := tame e = true -> forall s (K : bool -> Prop),
  (rv s = true -> K true) -> (rn s = true -> K false) ->
  (rv (late e s) = true -> can e true K) /\ (rn (late e s) = true -> can e false K).
Lemma can_list es : Forall canP es -> forallb stmt_ok es = true -> forall s (K : bool -> Prop),
  (rv s = true -> K true) -> (rn s = true -> K false) ->
  (rv (lates es s) = true -> can_b es true K) /\ (rn (lates es s) = true -> can_b es false K).
Proof.
  induction 1 as [|e es He Hes IH]; intros T s K K1 K2.
  - cbn. split; intro H; [apply K1 in H|apply K2 in H]; exists [], Run; (split; [constructor|right; auto]).
  - cbn [forallb] in *. apply andb_true_iff in T. destruct T as (T1 & T2).
    destruct (IH T2 s K K1 K2) as (A1 & A2). cbn [lates]. unfold stmt_ok in T1. destruct (is_show_set e) eqn:R.
    + destruct (rule_front e es R T1) as (n & Mn & Vn & Fn). rewrite Vn, value_rv, value_rn.
      assert (UP : forall v, can_b es v K -> can_b (e :: es) v K).
      { intros v (o & q & H & LL). destruct (Fn _ _ H) as (o' & H' & _). exists o', q; auto. }
      split; auto.
    + destruct (He T1 (lates es s) (fun w => can_b es w K) A1 A2) as (B1 & B2).
      assert (UP : forall v, can e v (fun w => can_b es w K) -> can_b (e :: es) v K).
      { intros v (o & q & H & [->|(-> & o2 & q2 & H2 & LL)]).
        - exists o, (Ret v). split; [apply blk_stop; [auto|discriminate]|left; auto].
        - exists (o ++ o2), q2. split; [apply blk_plain; auto|auto]. }
      split; auto.
Qed.
Lemma can_calm e : calm e = true -> canP e.
Proof.
  intros C _ s K K1 K2. destruct (calm_ri e C s) as (-> & -> & _). destruct (calm_can e C) as (o & H).
  split; intro E; exists o, Run; (split; [auto|right; auto]).
Qed.
Lemma can_pair v a b (K : bool -> Prop) : can a v (fun w => can b w K) -> exists o q, ops Run [a; b] o q /\ leads v q K.
Proof.
  intros (o & q & H & [->|(-> & o2 & q2 & H2 & LL)]).
  - destruct (total b (Ret v)) as (o2 & q2 & H2). rewrite (ev_keep _ _ _ _ H2) in H2 by discriminate.
    eexists _, _. split; [econstructor; [eauto|econstructor; [eauto|constructor]]|left; auto].
  - eexists _, _. split; [econstructor; [eauto|econstructor; [eauto|constructor]]|auto].
Qed.
Lemma while_front n J c b o q v (K : bool -> Prop) m : calm c = true -> (jlike n J \/ (forall o, J o)) -> ev Run b o q -> J o -> leads v q K ->
  exists o' q', ev Run (While m c b) o' q' /\ J o' /\ leads v q' K.
Proof.
  intros C L H HJ LL. destruct (calm_can c C) as (o1 & H1). destruct LL as [->|(-> & HK)].
  - eexists _, _. split; [eapply (ev_while Run); eapply whl_return; eauto|]. split; [auto|left; auto].
  - eexists _, _. split; [eapply (ev_while Run); eapply whl_next; [eauto|eauto|auto|eapply whl_end; eauto]|].
    split; [|right; auto]. rewrite app_nil_r. auto.
Qed.
Lemma for_front n J c b o q v (K : bool -> Prop) m : calm c = true -> (jlike n J \/ (forall o, J o)) -> ev Run b o q -> J o -> leads v q K ->
  exists o' q', ev Run (For m c b) o' q' /\ J o' /\ leads v q' K.
Proof.
  intros C L H HJ LL. destruct (calm_can c C) as (o1 & H1). destruct LL as [->|(-> & HK)].
  - eexists _, _. split; [eapply (ev_for Run); [eauto|eapply itr_return; eauto]|]. split; [auto|left; auto].
  - eexists _, _. split; [eapply (ev_for Run); [eauto|eapply itr_next; [eauto|auto|apply itr_end]]|].
    split; [|right; auto]. rewrite app_nil_r. auto.
Qed.
Lemma can_all e : canP e.
Proof.
  induction e using expr_rect'; intros T st0 K K1 K2;
    try (apply (can_calm _ T); auto; fail); try discriminate.
  - destruct (can_list es H T st0 K K1 K2) as (A & B). split; intro E; [destruct (A E) as (o & q & X & Y)|destruct (B E) as (o & q & X & Y)]; exists o, q; (split; [constructor; auto|auto]).
  - rewrite tame_all, andb_true_iff in T. apply (can_calm (All es)); auto; [rewrite calm_all; tauto|rewrite tame_all, andb_true_iff; tauto].
  - destruct (IHe T st0 K K1 K2) as (A & B). split; intro E; [destruct (A E) as (o & q & X & Y)|destruct (B E) as (o & q & X & Y)]; exists o, q; (split; [constructor; auto|auto]).
  - destruct (can_list es H T (set_ctx (nest (l_ctx st0) CBlock) st0) K K1 K2) as (A & B). rewrite late_block. unfold expr_ctx. rewrite rv_ctx, rn_ctx.
    split; intro E; [destruct (A E) as (o & q & X & Y)|destruct (B E) as (o & q & X & Y)]; exists o, q; (split; [constructor; auto|auto]).
  - destruct (IHe T (set_ctx (nest (l_ctx st0) CExpr) st0) K K1 K2) as (A & B). cbn [late]. unfold expr_ctx. rewrite rv_ctx, rn_ctx.
    split; intro E; [destruct (A E) as (o & q & X & Y)|destruct (B E) as (o & q & X & Y)]; exists [Val n], q; (split; [econstructor; eauto|auto]).
  - cbn in T. apply andb_true_iff in T. destruct T as (T1 & T2).
    destruct (IHe2 T2 (set_ctx (nest (l_ctx st0) CExpr) st0) K K1 K2) as (A & B).
    destruct (IHe1 T1 _ (fun w => can e2 w K) A B) as (A' & B'). cbn [late]. unfold expr_ctx. rewrite rv_ctx, rn_ctx.
    split; intro E; [destruct (can_pair _ _ _ _ (A' E)) as (o & q & X & Y)|destruct (can_pair _ _ _ _ (B' E)) as (o & q & X & Y)]; exists [Val n], q; (split; [econstructor; eauto|auto]).
  - cbn in T. apply andb_true_iff in T. destruct T as (T1 & T2).
    assert (KK : forall w, K w -> can e1 w K). { intros w HK. destruct (calm_can e1 T1) as (o & X). exists o, Run. split; [auto|right; auto]. }
    destruct (IHe2 T2 (set_ctx (nest (l_ctx st0) CExpr) st0) (fun w => can e1 w K)) as (A & B); [intro E; apply KK, K1, E|intro E; apply KK, K2, E|].
    cbn [late]. unfold expr_ctx. rewrite rv_ctx, rn_ctx.
    split; intro E; [destruct (can_pair _ _ _ _ (A E)) as (o & q & X & Y)|destruct (can_pair _ _ _ _ (B E)) as (o & q & X & Y)]; exists [], q; (split; [econstructor; eauto|auto]).
  - cbn in T. rewrite !andb_true_iff in T. destruct T as ((C & T1) & T2). destruct (calm_can e1 C) as (oc & Hc). cbn [late].
    destruct (IHe2 T1 st0 K K1 K2) as (A & B). set (a := late e2 st0) in *. set (b := set_ri (l_ri st0) a).
    assert (I1 : forall v, can e2 v K -> can (If e1 e2 e3) v K).
    { intros v (o & q & X & Y). exists o, q. split; [eapply ev_then; eauto|auto]. }
    assert (S : (rv (match e3 with Some e => late e b | None => b end) = true -> can (If e1 e2 e3) true K)
             /\ (rn (match e3 with Some e => late e b | None => b end) = true -> can (If e1 e2 e3) false K)).
    { destruct e3 as [e|].
      - destruct (H T2 b K K1 K2) as (A' & B'). split; intro E; [destruct (A' E) as (o & q & X & Y)|destruct (B' E) as (o & q & X & Y)]; exists o, q; (split; [eapply ev_else; eauto|auto]).
      - split; intro E; [apply K1 in E|apply K2 in E]; exists [], Run; (split; [eapply ev_skip; eauto|right; auto]). }
    destruct S as (S1 & S2). set (c := match e3 with Some e => late e b | None => b end) in *. split; intro E.
    + apply join_rv in E. destruct E as [E|E]; [apply S1, E|apply I1, A, E].
    + apply join_rn in E. destruct E as [E|E]; [apply S2, E|apply I1, B, E].
  - cbn in T. apply andb_true_iff in T. destruct T as (C & T). destruct (IHe2 T st0 K K1 K2) as (A & B).
    assert (UP : forall v, can e2 v K -> can (While n e1 e2) v K).
    { intros v (o & q & X & Y). destruct (while_front 0 (fun _ => True) e1 e2 o q v K n C) as (o' & q' & X' & _ & Y'); auto. exists o', q'; auto. }
    split; intro E; apply UP; auto.
  - cbn in T. apply andb_true_iff in T. destruct T as (C & T). destruct (IHe2 T st0 K K1 K2) as (A & B).
    assert (UP : forall v, can e2 v K -> can (For n e1 e2) v K).
    { intros v (o & q & X & Y). destruct (for_front 0 (fun _ => True) e1 e2 o q v K n C) as (o' & q' & X' & _ & Y'); auto. exists o', q'; auto. }
    split; intro E; apply UP; auto.
  - split; discriminate.
  - split; discriminate.
  - destruct o as [e|]; cbn; (split; [intro E|intro E]); try discriminate.
    + destruct (calm_can e T) as (o & X). exists [], (Ret true). split; [exact (ev_return Run n e o Run X)|left; auto].
    + exists [], (Ret false). split; [exact (ev_return0 Run n)|left; auto].
Qed.

Lemma may_up n e e' (K : bool -> Prop) :
  (forall J, jlike n J -> (exists o q, ev Run e' o q /\ J o) -> exists o q, ev Run e o q /\ J o) ->
  (forall J v, jlike n J -> (exists o q, ev Run e o q /\ J o /\ leads v q K) -> exists o q, ev Run e' o q /\ J o /\ leads v q K) ->
  may_e n e K -> may_e n e' K.
Proof.
  intros D U (M1 & M2). split.
  - intro H. apply (D _ (joined_like n)) in H. apply (U _ true (joined_like n)). auto.
  - intro H. apply (D _ (ruled_like n)) in H. destruct (M2 H) as (o & q & v & X). destruct (U _ v (ruled_like n)) as (o' & q' & Y); eauto.
Qed.
(** Values that report themselves. *)
Lemma may_value n k e : (forall s, late e s = value n k false s) -> calm e = true -> marks e = [n] ->
  (forall p o q, ev p e o q -> k = KOther -> o = [Val n]) -> mayP e.
Proof.
  intros Hl C M HV T _ s K K1 K2. destruct (can_all e T s K K1 K2) as (A & B). split; [auto|]. split; [auto|].
  intros m Hm. rewrite Hl in Hm. apply value_new in Hm. destruct Hm as [Hm|(-> & Hk & _ & [E|(_ & [=])])]; [auto|]. right.
  rewrite M. split; [left; auto|]. destruct (calm_can e C) as (o & X). rewrite (HV _ _ _ X Hk) in X. split.
  - intros _. exists [Val n], Run. split; [auto|]. split; [constructor; left; auto|right; auto].
  - intros (o' & q' & Y & R). rewrite (HV _ _ _ Y Hk) in R. destruct (ruled_one _ _ R).
Qed.
Lemma may_same e : (forall s, late e s = s) -> mayP e.
Proof. intros Hl T _ s K K1 K2. destruct (can_all e T s K K1 K2) as (A & B). split; [auto|]. split; [auto|]. intros n Hn. rewrite Hl in Hn. auto. Qed.
Lemma may_quiet e : (forall s, l_diags (late e s) = l_diags s) -> mayP e.
Proof. intros Hl T _ s K K1 K2. destruct (can_all e T s K K1 K2) as (A & B). split; [auto|]. split; [auto|]. intros n Hn. rewrite Hl in Hn. auto. Qed.
Lemma may_ops es : Forall mayP es -> forallb tame es = true -> forallb calm es = true -> NoDup (markss es) -> forall s (K : bool -> Prop),
  (rv s = true -> K true) -> (rn s = true -> K false) -> forall n, In (Discard n) (l_diags (lates es s)) -> In (Discard n) (l_diags s) \/
  (In n (markss es) /\
   ((exists o q, ops Run es o q /\ joined n o) -> exists o q, ops Run es o q /\ joined n o /\ leads true q K)
   /\ ((exists o q, ops Run es o q /\ ruled n o) -> exists o q v, ops Run es o q /\ ruled n o /\ leads v q K)).
Proof.
  induction 1 as [|e es He Hes IH]; intros T C ND s K K1 K2 n Hn; [left; exact Hn|].
  cbn [forallb markss flat_map lates] in *. apply andb_true_iff in T. destruct T as (T1 & T2). apply andb_true_iff in C. destruct C as (C1 & C2).
  apply NoDup_split in ND. destruct ND as (N1 & N2 & N3).
  assert (CS : forall s, same_ri s (lates es s)).
  { intro s'. exact (calm_ri (All es) C2 s'). }
  destruct (CS s) as (R1 & R2 & _).
  assert (HK1 : rv (lates es s) = true -> K true) by (rewrite R1; auto).
  assert (HK2 : rn (lates es s) = true -> K false) by (rewrite R2; auto).
  destruct (He T1 N1 (lates es s) K HK1 HK2) as (_ & _ & A). destruct (A n Hn) as [Hn'|(I & M)].
  - destruct (IH T2 C2 N2 s K K1 K2 n Hn') as [?|(I & M1 & M2)]; [auto|]. right. split; [apply in_or_app; auto|].
    assert (D : forall J, jlike n J -> (exists o q, ops Run (e :: es) o q /\ J o) -> exists o q, ops Run es o q /\ J o).
    { intros J L (o & q & H & HJ). inversion H as [|p' e' es' o1 q1 o2 q2 X1 X2]; subst. pose proof (calm_run _ _ _ C1 X1); subst q1. apply (j_app _ _ L) in HJ. destruct HJ as [HJ|HJ]; [|eauto].
      exfalso. apply (N3 n); [|auto]. eapply ev_marks; [eauto|]. apply (j_touched _ _ L _ HJ). }
    assert (U : forall J v, jlike n J -> (exists o q, ops Run es o q /\ J o /\ leads v q K) -> exists o q, ops Run (e :: es) o q /\ J o /\ leads v q K).
    { intros J v L (o & q & H & HJ & LL). destruct (calm_can e C1) as (o1 & H1). exists (o1 ++ o), q. split; [econstructor; eauto|]. split; [apply (j_app _ _ L); auto|auto]. }
    split.
    + intro H. apply (D _ (joined_like n)) in H. apply (U _ true (joined_like n)). auto.
    + intro H. apply (D _ (ruled_like n)) in H. destruct (M2 H) as (o & q & v & X). destruct (U _ v (ruled_like n)) as (o' & q' & Y); eauto.
  - right. split; [apply in_or_app; auto|].
    assert (D : forall J, jlike n J -> (exists o q, ops Run (e :: es) o q /\ J o) -> exists o q, ev Run e o q /\ J o).
    { intros J L (o & q & H & HJ). inversion H; subst. apply (j_app _ _ L) in HJ. destruct HJ as [HJ|HJ]; [eauto|].
      exfalso. apply (N3 n); [auto|]. eapply ops_marks; [eauto|]. apply (j_touched _ _ L _ HJ). }
    assert (U : forall J v, jlike n J -> (exists o q, ev Run e o q /\ J o /\ leads v q K) -> exists o q, ops Run (e :: es) o q /\ J o /\ leads v q K).
    { intros J v L (o & q & H & HJ & LL). pose proof (calm_run _ _ _ C1 H); subst q. destruct (calm_can_ops es C2) as (o1 & H1).
      exists (o ++ o1), Run. split; [econstructor; eauto|]. split; [apply (j_app _ _ L); auto|auto]. }
    destruct M as (M1 & M2). split.
    + intro H. apply (D _ (joined_like n)) in H. apply (U _ true (joined_like n)). auto.
    + intro H. apply (D _ (ruled_like n)) in H. destruct (M2 H) as (o & q & v & X). destruct (U _ v (ruled_like n)) as (o' & q' & Y); eauto.
Qed.
Lemma quiet_ctx c f s : (forall s, l_ctx s <> CBlock -> l_diags (f s) = l_diags s) -> c <> CBlock -> l_diags (expr_ctx c f s) = l_diags s.
Proof. intros H N. unfold expr_ctx. cbn. rewrite H; auto. cbn. destruct c; cbn; congruence. Qed.
Lemma may_all e : mayP e.
Proof.
  induction e using expr_rect'.
  - intro T. apply (may_value n k); auto. intros p o q X ->. inversion X; auto.
  - apply may_same; auto.
  - apply may_same; auto.
  - intros T ND s K K1 K2. destruct (may_list es H T ND s K K1 K2) as (_ & _ & A). destruct (can_all (Seq es) T s K K1 K2) as (A1 & A2).
    split; [auto|]. split; [auto|]. intros n Hn. destruct (A n Hn) as [?|(I & M1 & M2)]; [auto|]. right. split; [auto|]. split.
    + intros (o & q & X & HJ). inversion X; subst. destruct M1 as (o' & q' & Y & J' & L'); [eauto|]. exists o', q'. split; [constructor; auto|auto].
    + intros (o & q & X & HJ). inversion X; subst. destruct M2 as (o' & q' & v & Y & J' & L'); [eauto|]. exists o', q', v. split; [constructor; auto|auto].
  - intros T ND s K K1 K2. destruct (can_all (All es) T s K K1 K2) as (A1 & A2). rewrite tame_all, andb_true_iff in T. destruct T as (T & C).
    split; [auto|]. split; [auto|]. intros n Hn. destruct (may_ops es H T C ND s K K1 K2 n Hn) as [?|(I & M1 & M2)]; [auto|]. right. split; [auto|]. split.
    + intros (o & q & X & HJ). inversion X; subst. destruct M1 as (o' & q' & Y & J' & L'); [eauto|]. exists o', q'. split; [constructor; auto|auto].
    + intros (o & q & X & HJ). inversion X; subst. destruct M2 as (o' & q' & v & Y & J' & L'); [eauto|]. exists o', q', v. split; [constructor; auto|auto].
  - intros T ND s K K1 K2. destruct (can_all (Paren e) T s K K1 K2) as (A1 & A2). destruct (IHe T ND s K K1 K2) as (_ & _ & A).
    split; [auto|]. split; [auto|]. intros n Hn. destruct (A n Hn) as [?|(I & M)]; [auto|]. right. split; [auto|]. revert M. apply may_up.
    + intros J L (o & q & X & HJ). inversion X; subst; eauto.
    + intros J v L (o & q & X & HJ & LL). exists o, q. split; [constructor; auto|auto].
  - intros T ND s K K1 K2. destruct (may_list es H T ND (set_ctx (nest (l_ctx s) CBlock) s) K K1 K2) as (_ & _ & A). destruct (can_all (Block es) T s K K1 K2) as (A1 & A2).
    split; [auto|]. split; [auto|]. intros n Hn. destruct (A n Hn) as [?|(I & M1 & M2)]; [auto|]. right. split; [auto|]. split.
    + intros (o & q & X & HJ). inversion X; subst. destruct M1 as (o' & q' & Y & J' & L'); [eauto|]. exists o', q'. split; [constructor; auto|auto].
    + intros (o & q & X & HJ). inversion X; subst. destruct M2 as (o' & q' & v & Y & J' & L'); [eauto|]. exists o', q', v. split; [constructor; auto|auto].
  - intro T. apply (may_value n KOther); auto. intros p o q X _. inversion X; auto.
  - intro T. apply (may_value n KOther); auto. intros p o q X _. inversion X; auto.
  - apply may_same; auto.
  - apply may_quiet. intro s. apply (quiet_ctx CExpr (late e)); [apply quiet|discriminate].
  - apply may_quiet. intro s. apply (quiet_ctx CExpr (fun s => late e1 (late e2 s))); [|discriminate].
    intros s' Hs. rewrite quiet by (rewrite late_ctx; auto). apply quiet; auto.
  - apply may_quiet. intro s. apply (quiet_ctx CExpr (late e2)); [apply quiet|discriminate].
  - apply may_same; auto.
  - apply may_same; auto.
  - intro T. apply may_same; auto. intro s. change (lates ps s = s). apply params_late. exact T.
  - apply may_same; auto.
  - apply may_same; auto.
  - intro T; discriminate.
  - intro T; discriminate.
  - apply may_same; auto.
  - intros T ND s K K1 K2. destruct (can_all (If e1 e2 e3) T s K K1 K2) as (A1 & A2). split; [auto|]. split; [auto|].
    cbn in T. rewrite !andb_true_iff in T. destruct T as ((C & T1) & T2). destruct (calm_can e1 C) as (oc & Hc).
    cbn [marks] in ND. apply NoDup_split in ND. destruct ND as (N1 & N2 & N3).
    destruct (IHe2 T1 N1 s K K1 K2) as (_ & _ & A). intros n Hn. cbn [late] in Hn. set (a := late e2 s) in *. set (b := set_ri (l_ri s) a) in *.
    assert (Hi : In (Discard n) (l_diags a) -> In (Discard n) (l_diags s) \/ In n (marks (If e1 e2 e3)) /\ may_e n (If e1 e2 e3) K).
    { intro Hi. destruct (A n Hi) as [?|(I & M)]; [auto|]. right. split; [cbn; apply in_or_app; auto|]. revert M. apply may_up.
      - intros J L (o & q & X & HJ). inversion X; subst.
        + match goal with X : ev Run e1 _ ?q1 |- _ => pose proof (calm_run _ _ _ C X); subst q1 end. eauto.
        + exfalso. apply (N3 n); [auto|]. eapply ev_marks; [eauto|]. apply (j_touched _ _ L _ HJ).
        + destruct (j_nil _ _ L HJ).
      - intros J v L (o & q & X & HJ & LL). exists o, q. split; [eapply ev_then; eauto|auto]. }
    destruct e3 as [e|]; cbn [set_ri l_diags] in Hn; [|auto].
    destruct (H T2 N2 b K K1 K2) as (_ & _ & A'). destruct (A' n Hn) as [?|(I & M)]; [auto|]. right. split; [cbn; apply in_or_app; auto|]. revert M. apply may_up.
    + intros J L (o & q & X & HJ). inversion X; subst.
      * exfalso. apply (N3 n); [|auto]. eapply ev_marks; [eauto|]. apply (j_touched _ _ L _ HJ).
      * match goal with X : ev Run e1 _ ?q1 |- _ => pose proof (calm_run _ _ _ C X); subst q1 end. eauto.
    + intros J v L (o & q & X & HJ & LL). exists o, q. split; [eapply ev_else; eauto|auto].
  - intros T ND s K K1 K2. destruct (can_all (While n e1 e2) T s K K1 K2) as (A1 & A2). split; [auto|]. split; [auto|].
    cbn in T. apply andb_true_iff in T. destruct T as (C & T). destruct (IHe2 T ND s K K1 K2) as (_ & _ & A). intros m Hm.
    destruct (A m Hm) as [?|(I & M)]; [auto|]. right. split; [auto|]. revert M. apply may_up.
    + intros J L (o & q & X & HJ). inversion X; subst. eapply j_iter; eauto.
    + intros J v L (o & q & X & HJ & LL). eapply while_front; eauto.
  - intros T ND s K K1 K2. destruct (can_all (For n e1 e2) T s K K1 K2) as (A1 & A2). split; [auto|]. split; [auto|].
    cbn in T. apply andb_true_iff in T. destruct T as (C & T). destruct (IHe2 T ND s K K1 K2) as (_ & _ & A). intros m Hm.
    destruct (A m Hm) as [?|(I & M)]; [auto|]. right. split; [auto|]. revert M. apply may_up.
    + intros J L (o & q & X & HJ). inversion X; subst. match goal with X : ev Run e1 _ ?q1 |- _ => pose proof (calm_run _ _ _ C X); subst q1 end. eapply j_itr; eauto.
    + intros J v L (o & q & X & HJ & LL). eapply for_front; eauto.
  - intro T. apply (may_value n KOther); auto. intros p o q X _. inversion X; auto.
  - apply may_quiet; reflexivity.
  - apply may_quiet; reflexivity.
  - apply may_quiet. intro s. destruct o; reflexivity.
Qed.

