(** Proofs about the background queue. *)
From Coq Require Import List Arith Bool Lia.
From Verif Require Import QueueModel QueueSpec.
Import ListNotations.

Lemma qrun_app q a b : qrun q (a ++ b) = let '(q1, o1) := qrun q a in let '(q2, o2) := qrun q1 b in (q2, o1 ++ o2).
Proof.
  revert q. induction a as [|e a IH]; intros q; cbn.
  - destruct (qrun q b); reflexivity.
  - destruct (qstep q e) as [q1 o1]. rewrite IH. destruct (qrun q1 a) as [q2 o2]. destruct (qrun q2 b) as [q3 o3]. now rewrite app_assoc.
Qed.
Lemma qrun_snoc q a e : qrun q (a ++ [e]) = let '(q1, o1) := qrun q a in let '(q2, o2) := qstep q1 e in (q2, o1 ++ o2).
Proof. rewrite qrun_app. destruct (qrun q a) as [q1 o1]. cbn. destruct (qstep q1 e). now rewrite app_nil_r. Qed.
Lemma submitted_app a b : submitted (a ++ b) = submitted a ++ submitted b.
Proof. apply flat_map_app. Qed.
Lemma started_app a b : started (a ++ b) = started a ++ started b.
Proof. apply flat_map_app. Qed.
Lemma active_app a b : forall n, active n (a ++ b) = active (active n a) b.
Proof. induction a as [|[]]; intros n; cbn; auto. Qed.
Lemma calm_app a b : calm (a ++ b) <-> calm a /\ calm b.
Proof.
  unfold calm. split.
  - intros H. split; intros i I; apply (H i), in_or_app; auto.
  - intros [A B] i I. apply in_app_or in I as [I|I]; [now apply (A i)|now apply (B i)].
Qed.

(** * The shapes of the queue *)
(** Without panics: idle, between jobs, or running a job. *)
Definition shape (q : queue) : Prop :=
  (q_running q = false /\ q_task q = None /\ q_loops q = []) \/ (q_running q = true /\ exists c, q_loops q = [c]).
(** With panics: nothing may be left of the future. *)
Definition shape_any (q : queue) : Prop := shape q \/ (q_running q = true /\ q_loops q = []).
Lemma submit_shape q j : shape_any q -> shape_any (submit q j) /\ (shape q -> shape (submit q j)).
Proof.
  assert (X : shape q -> shape (submit q j)).
  { intros [(R & T & L)|(R & c & L)]; unfold submit.
    - rewrite T, R, L. right. cbn. eauto.
    - rewrite R. destruct (q_task q) as [p|]; [destruct (j_rev p <? j_rev j)|]; right; cbn; eauto. }
  intros [S|(R & L)]; split; auto.
  - left. auto.
  - right. unfold submit. rewrite R. destruct (q_task q) as [p|]; [destruct (j_rev p <? j_rev j)|]; cbn; auto.
Qed.
Lemma step_shape q e : shape_any q -> shape_any (fst (qstep q e)) /\ ((forall i, e <> Panicked i) -> shape q -> shape (fst (qstep q e))).
Proof.
  intros S. destruct e as [j|i|i|i]; cbn [qstep].
  - split; [|intros _]; apply submit_shape; auto.
  - assert (X : shape q -> shape (fst (match nth_error (q_loops q) i with
              | Some None => match q_task q with
                             | Some j => (mkQ (q_running q) None (set_nth i (Some j) (q_loops q)), [Started j])
                             | None => (mkQ false None (del_nth i (q_loops q)), [])
                             end
              | _ => (q, []) end))).
    { intros [(R & T & L)|(R & c & L)]; rewrite L.
      - destruct i; cbn; left; auto.
      - destruct i as [|i]; cbn; [|destruct i; cbn; right; eauto]. destruct c as [c|]; [right; eauto|].
        destruct (q_task q); cbn; [right; cbn; eauto|left; auto]. }
    destruct S as [S|(R & L)]; [split; [left|]; auto|]. rewrite L. destruct i; cbn; (split; [right; auto|]); intros _ [(R' & _)|(_ & c & L')]; congruence.
  - destruct S as [[(R & T & L)|(R & c & L)]|(R & L)]; rewrite L.
    + destruct i; cbn; (split; [left|intros _ _]; left; auto).
    + destruct i as [|i]; cbn; [|destruct i; cbn; (split; [left|intros _ _]; right; eauto)].
      destruct c; (split; [left|intros _ _]; right; cbn; eauto).
    + destruct i; cbn; (split; [right; auto|]); intros _ [(R' & _)|(_ & c & L')]; congruence.
  - split; [|intros H; now destruct (H i)].
    destruct S as [[(R & T & L)|(R & c & L)]|(R & L)]; rewrite L.
    + destruct i; cbn; left; left; auto.
    + destruct i as [|i]; cbn; [|destruct i; cbn; left; right; eauto]. destruct c; cbn; [right; auto|left; right; eauto].
    + destruct i; cbn; right; auto.
Qed.
Lemma run_shape evs : shape_any (fst (qrun queue0 evs)) /\ (calm evs -> shape (fst (qrun queue0 evs))).
Proof.
  induction evs as [|e evs IH] using rev_ind; [split; [left|intros _]; left; auto|].
  rewrite qrun_snoc. destruct (qrun queue0 evs) as [q o]. cbn [fst] in IH. destruct IH as [A B].
  destruct (step_shape q e A) as [C D]. destruct (qstep q e) as [q2 o2]. cbn [fst] in *. split; [exact C|].
  intros K. apply calm_app in K as [K1 K2]. apply D; auto. intros i ->. apply (K2 i). now left.
Qed.
(** The number of running jobs. *)
Definition busy (q : queue) : nat := length (filter (fun c => match c with Some _ => true | None => false end) (q_loops q)).
Lemma step_busy q e o q' : shape_any q -> qstep q e = (q', o) -> active (busy q) o = busy q'.
Proof.
  intros S E. unfold busy. destruct e as [j|i|i|i]; cbn [qstep] in E.
  - injection E as <- <-. cbn. unfold submit. destruct (q_task q); [destruct (_ <? _)|destruct (q_running q)]; cbn [q_loops]; auto. rewrite filter_app. cbn. now rewrite app_nil_r.
  - destruct S as [[(R & T & L)|(R & c & L)]|(R & L)]; rewrite L in *; destruct i as [|i]; cbn in E; try (destruct i; cbn in E); try (injection E as <- <-; cbn; now rewrite L);
    destruct c; [injection E as <- <-; cbn; now rewrite L|]; destruct (q_task q); injection E as <- <-; reflexivity.
  - destruct S as [[(R & T & L)|(R & c & L)]|(R & L)]; rewrite L in *; destruct i as [|i]; cbn in E; try (destruct i; cbn in E); try (injection E as <- <-; cbn; now rewrite L);
    destruct c; injection E as <- <-; cbn; now rewrite ?L.
  - destruct S as [[(R & T & L)|(R & c & L)]|(R & L)]; rewrite L in *; destruct i as [|i]; cbn in E; try (destruct i; cbn in E); try (injection E as <- <-; cbn; now rewrite L);
    destruct c; injection E as <- <-; cbn; now rewrite ?L.
Qed.
Lemma run_busy evs : active 0 (snd (qrun queue0 evs)) = busy (fst (qrun queue0 evs)).
Proof.
  induction evs as [|e evs IH] using rev_ind; [reflexivity|]. pose proof (proj1 (run_shape evs)) as S.
  rewrite qrun_snoc. destruct (qrun queue0 evs) as [q o]. cbn [fst snd] in *. destruct (qstep q e) as [q2 o2] eqn:E. cbn [fst snd].
  rewrite active_app, IH. now apply (step_busy q e).
Qed.
Lemma busy_one q : shape_any q -> busy q <= 1.
Proof. unfold busy. intros [[(R & T & L)|(R & c & L)]|(R & L)]; rewrite L; cbn; auto. destruct c; cbn; lia. Qed.
(** At most one job at a time, whatever happens. *)
Theorem one_at_a_time evs : active 0 (snd (qrun queue0 evs)) <= 1.
Proof. rewrite run_busy. apply busy_one. apply run_shape. Qed.

(** * Nothing newest is lost *)
Definition kept (q : queue) (os : list qout) (j : job) : Prop := q_task q = Some j \/ In j (started os).
Lemma kept_step q e q' o os j : qstep q e = (q', o) -> (forall k, e = Submit k -> j_rev k <= j_rev j) -> kept q os j -> kept q' (os ++ o) j.
Proof.
  intros E NS [T|I].
  2: { right. rewrite started_app. apply in_or_app. auto. }
  destruct e as [k|i|i|i]; cbn [qstep] in E.
  - injection E as <- <-. left. unfold submit. rewrite T. destruct (Nat.ltb_spec (j_rev j) (j_rev k)) as [H|]; auto. specialize (NS k eq_refl). lia.
  - rewrite T in E. destruct (nth_error (q_loops q) i) as [[c|]|]; injection E as <- <-; [left; auto| |left; auto].
    right. rewrite started_app. apply in_or_app. right. now left.
  - destruct (nth_error (q_loops q) i) as [[c|]|]; injection E as <- <-; left; auto.
  - destruct (nth_error (q_loops q) i) as [[c|]|]; injection E as <- <-; left; auto.
Qed.
(** A pending or started job has been submitted. *)
Lemma known evs : (forall j, q_task (fst (qrun queue0 evs)) = Some j -> In j (submitted evs)) /\ (forall j, In j (started (snd (qrun queue0 evs))) -> In j (submitted evs)).
Proof.
  induction evs as [|e evs IH] using rev_ind; [split; intros j H; [discriminate|destruct H]|].
  rewrite qrun_snoc, submitted_app. destruct (qrun queue0 evs) as [q o]. cbn [fst snd] in IH. destruct IH as [A B].
  destruct (qstep q e) as [q2 o2] eqn:E. cbn [fst snd]. destruct e as [k|i|i|i]; cbn [qstep] in E.
  - injection E as <- <-. split; intros j H; apply in_or_app.
    + unfold submit in H. destruct (q_task q) as [p|] eqn:T; [destruct (_ <? _)|destruct (q_running q)]; cbn in H; try (injection H as <-; right; now left). left. apply A. congruence.
    + left. apply B. now rewrite app_nil_r in H.
  - cbn [submitted flat_map]. rewrite app_nil_r. destruct (nth_error (q_loops q) i) as [[c|]|]; [injection E as <- <-; rewrite app_nil_r; auto| |injection E as <- <-; rewrite app_nil_r; auto].
    destruct (q_task q) as [p|]; injection E as <- <-; cbn [q_task]; split; try discriminate.
    + intros j H. rewrite started_app in H. apply in_app_or in H as [H|[<-|[]]]; auto.
    + rewrite app_nil_r. auto.
  - cbn [submitted flat_map]. rewrite app_nil_r. destruct (nth_error (q_loops q) i) as [[c|]|]; injection E as <- <-; cbn [q_task]; (split; [auto|intros j H; rewrite started_app in H; apply in_app_or in H as [H|[]]; auto]).
  - cbn [submitted flat_map]. rewrite app_nil_r. destruct (nth_error (q_loops q) i) as [[c|]|]; injection E as <- <-; cbn [q_task]; (split; [auto|intros j H; rewrite started_app in H; apply in_app_or in H as [H|[]]; auto]).
Qed.
Lemma submitted_split evs : forall a j b, submitted evs = a ++ j :: b -> exists x y, evs = x ++ Submit j :: y /\ submitted x = a /\ submitted y = b.
Proof.
  induction evs as [|e evs IH]; intros a j b E; [destruct a; discriminate|]. destruct e as [k|i|i|i]; cbn in E.
  2-4: destruct (IH a j b E) as (x & y & -> & <- & <-); eexists (_ :: x), y; repeat split.
  destruct a as [|a0 a]; cbn in E; injection E as -> E.
  - exists [], evs. auto.
  - destruct (IH a j b E) as (x & y & -> & <- & <-). exists (Submit a0 :: x), y. auto.
Qed.
Theorem newest_kept evs j : newest evs j -> kept (fst (qrun queue0 evs)) (snd (qrun queue0 evs)) j.
Proof.
  intros (a & b & E & A & B). apply submitted_split in E as (x & y & -> & <- & <-).
  induction y as [|e y IH] using rev_ind.
  - rewrite qrun_snoc. pose proof (proj1 (known x)) as K. destruct (qrun queue0 x) as [q o]. cbn [fst snd] in *. cbn [qstep fst snd]. left.
    unfold submit. destruct (q_task q) as [p|] eqn:T; [|destruct (q_running q); reflexivity].
    rewrite Forall_forall in A. specialize (A p (K p eq_refl)). apply Nat.ltb_lt in A. rewrite A. reflexivity.
  - rewrite submitted_app, Forall_app in B. destruct B as [B1 B2]. specialize (IH B1).
    change (x ++ Submit j :: y ++ [e]) with (x ++ (Submit j :: y) ++ [e]). rewrite app_assoc, qrun_snoc.
    destruct (qrun queue0 (x ++ Submit j :: y)) as [q o]. cbn [fst snd] in *. destruct (qstep q e) as [q2 o2] eqn:S. cbn [fst snd].
    eapply kept_step; eauto. intros k ->. cbn in B2. now inversion B2.
Qed.
(** An idle queue has nothing pending. *)
Lemma idle_empty evs : calm evs -> q_loops (fst (qrun queue0 evs)) = [] -> q_task (fst (qrun queue0 evs)) = None.
Proof. intros C L. destruct (proj2 (run_shape evs) C) as [(R & T & _)|(R & c & L')]; [exact T|congruence]. Qed.
(** From every state some steps of the future lead to an idle queue. *)
Lemma can_finish q : shape q -> exists evs, calm evs /\ submitted evs = [] /\ q_loops (fst (qrun q evs)) = [].
Proof.
  assert (ONE : forall q, q_loops q = [None] -> exists evs, calm evs /\ submitted evs = [] /\ q_loops (fst (qrun q evs)) = []).
  { intros q' L. destruct (q_task q') as [j|] eqn:T.
    - exists [Take 0; Done 0; Take 0]. split; [intros i [H|[H|[H|[]]]]; discriminate|]. split; [reflexivity|]. cbn. rewrite L, T. cbn. reflexivity.
    - exists [Take 0]. split; [intros i [H|[]]; discriminate|]. split; [reflexivity|]. cbn. rewrite L, T. reflexivity. }
  intros [(R & T & L)|(R & c & L)]; [exists []; split; [intros i []|auto]|]. destruct c as [c|]; [|now apply ONE].
  destruct (ONE (mkQ (q_running q) (q_task q) [None]) eq_refl) as (evs & A & B & C). exists (Done 0 :: evs). split; [intros i [H|H]; [discriminate|now apply (A i)]|]. split; [exact B|].
  cbn [qrun qstep]. rewrite L. cbn [nth_error set_nth]. destruct (qrun _ evs). exact C.
Qed.

(** * Order *)
Lemma increasing_app a b : increasing (a ++ b) <-> increasing a /\ increasing b /\ Forall (fun j => Forall (fun k => j_rev j < j_rev k) b) a.
Proof.
  induction a as [|x a IH]; cbn; [split; intuition|]. rewrite IH, Forall_app, Forall_cons_iff. intuition.
Qed.
Theorem in_order evs : increasing (submitted evs) -> increasing (started (snd (qrun queue0 evs))) /\
  (forall j k, q_task (fst (qrun queue0 evs)) = Some j -> In k (started (snd (qrun queue0 evs))) -> j_rev k < j_rev j).
Proof.
  induction evs as [|e evs IH] using rev_ind; [intros _; split; [exact I|discriminate]|].
  rewrite submitted_app. intros S. apply increasing_app in S as (S1 & S2 & S3). specialize (IH S1). pose proof (known evs) as [K1 K2].
  rewrite qrun_snoc. destruct (qrun queue0 evs) as [q o]. cbn [fst snd] in *. destruct IH as [A B].
  destruct (qstep q e) as [q2 o2] eqn:E. cbn [fst snd]. rewrite started_app. destruct e as [k|i|i|i]; cbn [qstep] in E.
  - injection E as <- <-. cbn [started flat_map]. rewrite app_nil_r. split; [exact A|]. intros j l T J. unfold submit in T.
    assert (L : j_rev l < j_rev k). { rewrite Forall_forall in S3. specialize (S3 l (K2 l J)). now inversion S3. }
    destruct (q_task q) as [p|] eqn:P; [destruct (_ <? _)|destruct (q_running q)]; cbn in T; try (injection T as <-; exact L). apply B; auto. now rewrite <- P.
  - destruct (nth_error (q_loops q) i) as [[c|]|]; [injection E as <- <-; cbn [started flat_map]; rewrite app_nil_r; auto| |injection E as <- <-; cbn [started flat_map]; rewrite app_nil_r; auto].
    destruct (q_task q) as [p|]; injection E as <- <-; cbn [q_task started flat_map app]; (split; [|discriminate]); rewrite ?app_nil_r; auto.
    apply increasing_app. split; [exact A|]. split; [split; constructor|]. apply Forall_forall. intros k K. constructor; [now apply B|constructor].
  - destruct (nth_error (q_loops q) i) as [[c|]|]; injection E as <- <-; cbn [q_task started flat_map]; rewrite app_nil_r; auto.
  - destruct (nth_error (q_loops q) i) as [[c|]|]; injection E as <- <-; cbn [q_task started flat_map]; rewrite app_nil_r; auto.
Qed.
(** What a submission does to the pending job. *)
Lemma displaced q j k : q_task q = Some j -> q_task (submit q k) <> Some j -> j_rev j < j_rev k /\ q_task (submit q k) = Some k.
Proof. unfold submit. intros T. rewrite T. destruct (Nat.ltb_spec (j_rev j) (j_rev k)); cbn; [auto|congruence]. Qed.
Lemma accepted q k : q_task q = None -> q_task (submit q k) = Some k.
Proof. unfold submit. intros ->. destruct (q_running q); reflexivity. Qed.
