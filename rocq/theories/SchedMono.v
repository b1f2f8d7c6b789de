(** The revisions shown for a project (C21). *)
From Coq Require Import List Arith Bool Lia.
From Verif Require Import AssocModel AssocProof SchedModel SchedSpec SchedProof.
Import ListNotations.

(** The outputs are admitted by the two tables of the handler. *)
Fixpoint acc (t n : nat -> nat) (o : list out) (t' n' : nat -> nat) : Prop :=
  match o with
  | [] => (forall id, t' id = t id) /\ (forall id, n' id = n id)
  | OStatus id r _ :: o => t id <= r /\ acc (upd t id r) n o t' n'
  | ONotify a :: o => n (sn_id (a_snap a)) < sn_rev (a_snap a) /\ acc t (upd n (sn_id (a_snap a)) (sn_rev (a_snap a))) o t' n'
  | ORemove id :: o => acc t (upd n id 0) o t' n'
  | _ :: o => acc t n o t' n'
  end.
Lemma upd_ext : forall (f g : nat -> nat) k v, (forall x, f x = g x) -> forall x, upd f k v x = upd g k v x.
Proof. intros f g k v H x. unfold upd. destruct (x =? k); auto. Qed.
Lemma acc_ext : forall o t n t1 n1 t' n', (forall id, t1 id = t id) -> (forall id, n1 id = n id) -> acc t n o t' n' -> acc t1 n1 o t' n'.
Proof.
  induction o as [|x o IH]; intros t n t1 n1 t' n' Ht Hn H; cbn in *.
  - destruct H as [A B]. split; intro; [rewrite A, Ht|rewrite B, Hn]; reflexivity.
  - destruct x; try (eapply IH; eauto; fail).
    + rewrite Ht. destruct H as [A B]. split; [exact A|]. eapply IH; [| |exact B]; [apply upd_ext; exact Ht|exact Hn].
    + rewrite Hn. destruct H as [A B]. split; [exact A|]. eapply IH; [| |exact B]; [exact Ht|apply upd_ext; exact Hn].
    + eapply IH; [| |exact H]; [exact Ht|apply upd_ext; exact Hn].
Qed.
Lemma acc_app : forall o o' t n t1 n1 t2 n2, acc t n o t1 n1 -> acc t1 n1 o' t2 n2 -> acc t n (o ++ o') t2 n2.
Proof.
  induction o as [|x o IH]; intros o' t n t1 n1 t2 n2 H1 H2; cbn in *.
  - destruct H1 as [A B]. eapply acc_ext; [| |exact H2]; intro; [symmetry; apply A|symmetry; apply B].
  - destruct x; try (eapply IH; eauto; fail); destruct H1 as [A B]; split; auto; eapply IH; eauto.
Qed.

Definition A (s : st) (o : list out) (s1 : st) : Prop :=
  s_gen s1 = s_gen s /\ (gens s -> gens s1) /\
  acc (s_status s (s_gen s)) (s_notified s (s_gen s)) o (s_status s1 (s_gen s)) (s_notified s1 (s_gen s)).
Lemma A_refl : forall s, A s [] s.
Proof. intro s. repeat split; auto. Qed.
Lemma A_trans : forall s o s1 o1 s2, A s o s1 -> A s1 o1 s2 -> A s (o ++ o1) s2.
Proof.
  intros s o s1 o1 s2 (a & b & c) (d & e & f). split; [congruence|]. split; [auto|]. rewrite a in f. eapply acc_app; eauto.
Qed.
Lemma A_core : forall s o s1 s2, A s o s1 -> s_gen s2 = s_gen s1 -> s_tasks s2 = s_tasks s1 -> s_status s2 = s_status s1 ->
  s_notified s2 = s_notified s1 -> A s o s2.
Proof. intros s o s1 s2 (a & b & c) d e f g. unfold A, gens in *. rewrite d, e, f, g. auto. Qed.
(** An output that concerns no table. *)
Definition silent (x : out) : Prop := match x with OStatus _ _ _ | ONotify _ | ORemove _ => False | _ => True end.
Lemma acc_silent : forall o t n, Forall silent o -> acc t n o t n.
Proof. induction o as [|x o IH]; intros t n F; cbn; [auto|]. inversion F; subst. destruct x; cbn in *; auto; contradiction. Qed.
Lemma A_silent : forall s o s1, Forall silent o -> s_gen s1 = s_gen s -> s_tasks s1 = s_tasks s -> s_status s1 = s_status s ->
  s_notified s1 = s_notified s -> A s o s1.
Proof. intros s o s1 F d e f g. unfold A, gens. rewrite d, e, f, g. split; [reflexivity|]. split; [auto|]. now apply acc_silent. Qed.

Lemma A_status : forall id rev k s s1 o, status (s_gen s) id rev k s = (s1, o) -> A s o s1.
Proof.
  intros id rev k s s1 o E. unfold status in E. destruct (Nat.ltb_spec rev (s_status s (s_gen s) id)) as [H|H]; inversion E; subst; clear E.
  - apply A_refl.
  - split; [reflexivity|]. split; [auto|]. cbn.
    assert (U : forall x, upd2 (s_status s) (s_gen s) id rev (s_gen s) x = upd (s_status s (s_gen s)) id rev x) by (intro; unfold upd2; now rewrite upd_eq).
    destruct k; cbn; auto.
Qed.
Lemma A_notify : forall a s s1 o, notify_compile (s_gen s) a s = (s1, o) -> A s o s1.
Proof.
  intros a s s1 o E. unfold notify_compile in E. destruct (Nat.leb_spec (sn_rev (a_snap a)) (s_notified s (s_gen s) (sn_id (a_snap a)))) as [H|H]; inversion E; subst; clear E.
  - apply A_refl.
  - split; [reflexivity|]. split; [auto|]. cbn. split; [exact H|]. split; [auto|]. intro. unfold upd2. now rewrite upd_eq.
Qed.

Definition f_acc (f : proj -> st -> proj * st * list out) : Prop := forall p s p1 s1 o, f p s = (p1, s1, o) -> A s o s1.
Lemma A_emit : f_acc emit_pending.
Proof.
  intros p s p1 s1 o E. unfold emit_pending in E. destruct (x_last p) as [a|]; [|inversion E; subst; apply A_refl].
  destruct (negb _); [inversion E; subst; apply A_refl|]. destruct (negb _); [inversion E; subst; apply A_refl|].
  destruct (notify_compile _ _ _) as [s2 o2] eqn:En. inversion E; subst. eapply A_notify; eauto.
Qed.
Lemma A_ext : forall a, f_acc (ext_compiled a).
Proof.
  intros a p s p1 s1 o E. unfold ext_compiled in E. destruct (_ <=? _); [inversion E; subst; apply A_refl|]. eapply A_emit; eauto.
Qed.
Lemma A_pc : forall a, f_acc (process_compile a).
Proof.
  intros a p s p1 s1 o E. unfold process_compile in E. destruct (_ <=? _); inversion E; subst; [apply A_refl|].
  apply A_silent; auto. repeat constructor.
Qed.
Lemma A_change : forall c r, f_acc (change c r).
Proof.
  intros c r p s p1 s1 o E. unfold change in E. destruct c; inversion E; subst; [|apply A_refl]. apply A_silent; auto. repeat constructor.
Qed.
Lemma A_change_task : forall i e, f_acc (change_task i e).
Proof.
  intros i e p s p1 s1 o E. unfold change_task in E. set (m := i || _) in E.
  set (o1 := if m then [OChange (p_id p) (S (p_rev p))] else []) in E.
  assert (S1 : Forall silent o1) by (unfold o1; destruct m; repeat constructor).
  destruct e as [e|].
  - destruct (if e =? 0 then _ else _) as [s2 o2] eqn:St. inversion E; subst; clear E.
    assert (X : A s o2 s1) by (destruct (e =? 0); [eapply A_status; eauto|inversion St; subst; apply A_refl]).
    replace (o1 ++ OEntry (p_id p) e :: o2) with ((o1 ++ [OEntry (p_id p) e]) ++ o2) by now rewrite <- app_assoc.
    eapply A_trans; [|exact X]. apply A_silent; auto. apply Forall_app. split; auto. repeat constructor.
  - inversion E; subst. apply A_silent; auto.
Qed.
Lemma A_try : f_acc try_compile.
Proof.
  intros p s p1 s1 o E. unfold try_compile in E. destruct (_ || _); [inversion E; subst; apply A_refl|].
  destruct (snapshot _) as [p2 sn]. destruct (status _ _ _ _ _) as [s2 o2] eqn:St. inversion E; subst; clear E.
  eapply A_trans; [eapply A_status; eauto|].
  pose proof (A_status _ _ _ _ _ _ St) as (g1 & g2 & _).
  split; [reflexivity|]. split; [|cbn; auto]. unfold gens. cbn. intro F. apply Forall_app. split; [exact F|]. constructor; [symmetry; exact g1|constructor].
Qed.
Lemma A_consider : forall clean, f_acc (consider clean).
Proof.
  intros clean p s p1 s1 o E. unfold consider in E. destruct (x_compiling p); [inversion E; subst; apply A_refl|].
  destruct (_ && _).
  - destruct (emit_pending _ s) as [[p2 s2] o2] eqn:Em. inversion E; subst.
    change (OSkip (p_id p) (p_rev p) :: o2) with ([OSkip (p_id p) (p_rev p)] ++ o2).
    eapply A_trans; [|eapply A_emit; eauto]. apply A_silent; auto. repeat constructor.
  - eapply A_try; eauto.
Qed.

Lemma A_each : forall f, f_acc f -> forall l s l1 s1 o, each f l s = (l1, s1, o) -> A s o s1.
Proof.
  intros f F. induction l as [|p l IH]; intros s l1 s1 o E; cbn in E; [inversion E; subst; apply A_refl|].
  destruct (f p s) as [[p1 sa] oa] eqn:Fp. destruct (each f l sa) as [[r1 sb] ob] eqn:Er. inversion E; subst.
  eapply A_trans; [eapply F; eauto|eapply IH; eauto].
Qed.
Lemma A_for_all : forall f, f_acc f -> forall s s1 o, for_all_projects f s = (s1, o) -> A s o s1.
Proof.
  intros f F s s1 o E. destruct (for_all_each _ _ _ _ E) as (l & s2 & Ea & _ & (c1 & c2 & c3 & c4 & c5 & c6 & c7)).
  eapply A_core; [eapply A_each; eauto|auto..].
Qed.
Lemma A_on_first : forall f, f_acc f -> forall id l s l1 s1 o, on_first id f l s = Some (l1, s1, o) -> A s o s1.
Proof.
  intros f F id l s l1 s1 o E. destruct (on_first_some _ _ _ _ _ _ _ E) as (a & p & b & p1 & _ & _ & _ & X & _). eapply F; eauto.
Qed.
Lemma A_on_project : forall f, f_acc f -> forall id s s1 o, on_project id f s = Some (s1, o) -> A s o s1.
Proof.
  intros f F id s s1 o E. unfold on_project in E. destruct (_ =? _).
  - destruct (f (s_primary s) s) as [[p1 s2] o2] eqn:X. inversion E; subst. eapply A_core; [eapply F; eauto|auto..].
  - destruct (on_first id f (s_dedicates s) s) as [[[l s2] o2]|] eqn:O; [|discriminate]. inversion E; subst.
    eapply A_core; [eapply A_on_first; eauto|auto..].
Qed.
Lemma A_remove : forall id s s1 o, remove_dedicates id s = (s1, o) -> A s o s1.
Proof.
  intros id s s1 o E. unfold remove_dedicates in E. destruct (existsb _ _); [|inversion E; subst; apply A_refl].
  unfold notify_removed in E. inversion E; subst; clear E. split; [reflexivity|]. split; [auto|]. cbn. split; [auto|].
  intro. unfold upd2. now rewrite upd_eq.
Qed.
Lemma A_inner : forall i s s1 o, process_inner i s = Some (s1, o) -> A s o s1.
Proof.
  intros i s s1 o E. destruct i; cbn in E.
  - eapply A_on_project; [|eauto]. apply A_change.
  - inversion E. eapply A_remove; eauto.
  - eapply A_on_project; [|eauto]. apply A_change_task.
  - inversion E. eapply A_for_all; [|eauto]. intros p ? ? ? ?. apply A_change.
  - inversion E. eapply A_for_all; [|eauto]. intros p ? ? ? ?. apply A_change.
  - inversion E. eapply A_for_all; [|eauto]. intros p ? ? ? ?. apply A_change.
  - inversion E. apply A_refl.
Qed.
Lemma A_sched : forall clean r s s1 o, (forall s2 o2, r = Some (s2, o2) -> A s o2 s2) -> then_schedule clean r s = (s1, o) -> A s o s1.
Proof.
  intros clean [[s2 o2]|] s s1 o H E; cbn in E.
  - destruct (on_any_reason clean s2) as [s3 o3] eqn:Eo. inversion E; subst. eapply A_trans; [apply H; reflexivity|].
    eapply A_for_all; [|exact Eo]. apply A_consider.
  - inversion E; subst. apply A_silent; auto. repeat constructor.
Qed.

Lemma A_step : forall s e s1 o, gens s -> is_reload e = false -> step s e = (s1, o) -> A s o s1.
Proof.
  intros s e s1 o G R E. unfold step in E. destruct (s_dead s); [inversion E; subst; apply A_refl|].
  destruct e as [i clean|clean|n ok| |id entry|entry].
  - eapply A_sched; [|exact E]. intros s2 o2 X. eapply A_inner; eauto.
  - destruct (s_queue s) as [|a q]; [inversion E; subst; apply A_refl|].
    destruct (tell_ext a (set_queue s q)) as [s2 o2] eqn:Et. destruct (then_schedule _ _ s2) as [s3 o3] eqn:Es. inversion E; subst; clear E.
    assert (X : A (set_queue s q) o2 s2).
    { unfold tell_ext in Et. destruct (on_project _ _ _) as [[sx ox]|] eqn:Eo; inversion Et; subst; [|apply A_refl].
      eapply A_on_project; [|eauto]. apply A_ext. }
    assert (Y : A s o2 s2) by exact X.
    eapply A_trans; [exact Y|]. eapply A_sched; [|exact Es]. intros s4 o4 Z. eapply A_on_project; [|eauto]. apply A_pc.
  - destruct (nth_error (s_tasks s) n) as [[g sn]|] eqn:Nt; [|inversion E; subst; apply A_refl].
    assert (Hg : g = s_gen s).
    { apply nth_error_In in Nt. unfold gens in G. rewrite Forall_forall in G. exact (G _ Nt). }
    subst g. destruct (nth_split' _ _ _ _ Nt) as (ta & tb & Ts & Dr). rewrite Dr in E.
    destruct (status _ _ _ _ _) as [s2 o2] eqn:St. destruct (notify_compile _ _ _) as [s3 o3] eqn:En. inversion E; subst; clear E.
    assert (X : A (set_tasks s (ta ++ tb)) o2 s2) by (eapply A_status; exact St).
    assert (Y : A s o2 s2).
    { destruct X as (x1 & x2 & x3). split; [exact x1|]. split; [|exact x3]. intro F. apply x2. unfold gens in *. cbn. rewrite Ts in F.
      apply Forall_app in F. destruct F as [F1 F2]. apply Forall_app. split; [exact F1|now inversion F2]. }
    eapply A_trans; [exact Y|]. destruct Y as (y1 & _). rewrite <- y1 in En. eapply A_notify; exact En.
  - inversion E; subst. apply A_silent; auto.
  - destruct (remove_dedicates id s) as [s2 o2] eqn:Er. inversion E; subst; clear E.
    eapply A_trans; [eapply A_remove; eauto|]. apply A_silent; auto. repeat constructor.
  - discriminate R.
Qed.
Lemma A_run : forall es s s1 o, gens s -> forallb (fun e => negb (is_reload e)) es = true -> run s es = (s1, o) -> A s o s1.
Proof.
  induction es as [|e es IH]; intros s s1 o G R E; cbn in E; [inversion E; subst; apply A_refl|].
  destruct (step s e) as [s2 o2] eqn:Es. destruct (run s2 es) as [s3 o3] eqn:Er. inversion E; subst; clear E.
  cbn in R. apply andb_true_iff in R. destruct R as [R1 R2]. apply negb_true_iff in R1.
  pose proof (A_step _ _ _ _ G R1 Es) as X. eapply A_trans; [exact X|]. eapply IH; eauto. apply X. exact G.
Qed.

Lemma acc_status_ge : forall o t n t' n' id r k, acc t n o t' n' -> In (OStatus id r k) o -> t id <= r.
Proof.
  induction o as [|x o IH]; intros t n t' n' id r k H Hi; [destruct Hi|]. cbn in H.
  destruct Hi as [->|Hi]; [apply H|].
  destruct x; try (eapply IH; eauto; fail).
  - destruct H as [H1 H2]. pose proof (IH _ _ _ _ _ _ _ H2 Hi) as X. unfold upd in X. destruct (Nat.eqb_spec id id0) as [->|]; lia.
  - destruct H as [H1 H2]. eapply IH; eauto.
Qed.
Lemma acc_split : forall o o' t n t2 n2, acc t n (o ++ o') t2 n2 -> exists t1 n1, acc t n o t1 n1 /\ acc t1 n1 o' t2 n2.
Proof.
  induction o as [|x o IH]; intros o' t n t2 n2 H; cbn in H; [exists t, n; cbn; auto|].
  destruct x; try (destruct H as [H0 H]); destruct (IH _ _ _ _ _ H) as (t1 & n1 & X & Y); exists t1, n1; cbn; auto.
Qed.
Lemma acc_notify_gt : forall o a c t n t' n', acc t n (o ++ ONotify a :: c) t' n' -> ~ In (ORemove (sn_id (a_snap a))) o ->
  n (sn_id (a_snap a)) < sn_rev (a_snap a).
Proof.
  induction o as [|x o IH]; intros a c t n t' n' H Hn; cbn in H; [apply H|].
  assert (Hn' : ~ In (ORemove (sn_id (a_snap a))) o) by (intro X; apply Hn; now right).
  destruct x as [ | |b| | | | | |i| ]; try (eapply IH; eauto; fail).
  - destruct H as [_ H]. eapply IH; eauto.
  - destruct H as [H1 H2]. pose proof (IH _ _ _ _ _ _ H2 Hn') as X. unfold upd in X.
    destruct (Nat.eqb_spec (sn_id (a_snap a)) (sn_id (a_snap b))) as [E|]; [|exact X]. rewrite <- E in H1. lia.
  - pose proof (IH _ _ _ _ _ _ H Hn') as X. unfold upd in X.
    destruct (Nat.eqb_spec (sn_id (a_snap a)) i) as [E|]; [|exact X]. exfalso. apply Hn. left. now rewrite E.
Qed.

Lemma status_never_back : forall entry es a b c id r k r' k',
  forallb (fun e => negb (is_reload e)) es = true ->
  snd (run (init entry) es) = a ++ OStatus id r k :: b ++ OStatus id r' k' :: c -> r <= r'.
Proof.
  intros entry es a b c id r k r' k' R E. destruct (run (init entry) es) as [s o] eqn:Er. cbn in E. subst o.
  assert (G : gens (init entry)) by constructor.
  destruct (A_run _ _ _ _ G R Er) as (_ & _ & H). apply acc_split in H. destruct H as (t1 & n1 & _ & H). cbn in H. destruct H as [_ H].
  pose proof (acc_status_ge _ _ _ _ _ id r' k' H) as X. rewrite upd_eq in X. apply X. apply in_or_app. right. now left.
Qed.
Lemma results_increase : forall entry es a b c x y,
  forallb (fun e => negb (is_reload e)) es = true ->
  snd (run (init entry) es) = a ++ ONotify x :: b ++ ONotify y :: c -> sn_id (a_snap x) = sn_id (a_snap y) ->
  ~ In (ORemove (sn_id (a_snap x))) b -> sn_rev (a_snap x) < sn_rev (a_snap y).
Proof.
  intros entry es a b c x y R E Ei Hn. destruct (run (init entry) es) as [s o] eqn:Er. cbn in E. subst o.
  assert (G : gens (init entry)) by constructor.
  destruct (A_run _ _ _ _ G R Er) as (_ & _ & H). apply acc_split in H. destruct H as (t1 & n1 & _ & H). cbn in H. destruct H as [_ H].
  rewrite Ei in Hn. pose proof (acc_notify_gt _ _ _ _ _ _ _ H Hn) as X. rewrite Ei, upd_eq in X. exact X.
Qed.
