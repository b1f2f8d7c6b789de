(** Proofs about the reasons of compilations. *)
From Coq Require Import List Arith Bool Lia.
From Verif Require Import AssocModel AssocProof SchedModel SchedSpec SchedProof SigModel SigSpec.
Import ListNotations.

Definition snap_ok (p : proj) : Prop := forall sn, p_snap p = Some sn ->
  sn_id sn = p_id p /\ sn_rev sn <= p_rev p /\ (sn_rev sn = p_rev p -> any (p_reason p) = true -> sn_signal sn = p_reason p).
Definition none : reasons := mkReasons false false false.
Definition took (id : nat) (o : list out) : bool := existsb (decision id) o.
Lemma took_app id a b : took id (a ++ b) = took id a || took id b.
Proof. apply existsb_app. Qed.
Definition quiet (o : list out) : Prop := forall id, took id o = false.
Definition only_of (i : nat) (o : list out) : Prop := forall id, id <> i -> took id o = false.
Lemma quiet_of i o : quiet o -> only_of i o.
Proof. intros H id _. apply H. Qed.

(** The started compilations are those of the outputs. *)
Definition starts (o : list out) : list (nat * nat) := flat_map (fun x => match x with OStart i r => [(i, r)] | _ => [] end) o.
Definition matches (ts : list (nat * snap)) (o : list out) : Prop := map (fun t => (sn_id (snd t), sn_rev (snd t))) ts = starts o.
Lemma starts_app a b : starts (a ++ b) = starts a ++ starts b.
Proof. apply flat_map_app. Qed.
Lemma matches_app a b c d : matches a c -> matches b d -> matches (a ++ b) (c ++ d).
Proof. unfold matches. intros A B. rewrite map_app, starts_app, A, B. reflexivity. Qed.
Lemma quiet_starts o : quiet o -> starts o = [].
Proof.
  intros Q. induction o as [|x o IH]; [reflexivity|]. assert (A : quiet o) by (intros i; specialize (Q i); cbn in Q; apply orb_false_iff in Q; apply Q). change (x :: o) with ([x] ++ o). rewrite starts_app, (IH A), app_nil_r.
  destruct x; try reflexivity. specialize (Q id). cbn in Q. rewrite Nat.eqb_refl in Q. discriminate Q.
Qed.
(** * One project *)
Lemma status_tasks g id rev k s s1 o : status g id rev k s = (s1, o) -> s_tasks s1 = s_tasks s /\ quiet o.
Proof. unfold status. destruct (rev <? _); intros E; injection E as <- <-; split; try reflexivity; intros i; destruct k; reflexivity. Qed.
Lemma notify_tasks g a s s1 o : notify_compile g a s = (s1, o) -> s_tasks s1 = s_tasks s /\ quiet o.
Proof. unfold notify_compile. destruct (_ <=? _); intros E; injection E as <- <-; split; try reflexivity; intros i; reflexivity. Qed.
Lemma emit_tasks p s p1 s1 o : emit_pending p s = (p1, s1, o) -> s_tasks s1 = s_tasks s /\ quiet o /\ exists pe em, p1 = set_reasons p (p_reason p) pe em.
Proof.
  assert (Sf : p = set_reasons p (p_reason p) (x_pending p) (x_emitted p)) by (destruct p; reflexivity).
  assert (K : forall q, q = p -> exists pe em, q = set_reasons p (p_reason p) pe em) by (intros q ->; eauto).
  unfold emit_pending. destruct (x_last p) as [a|]; [|intros E; injection E as <- <- <-; split; [reflexivity|]; split; [intros i; reflexivity|auto]].
  destruct (negb (sn_rev (a_snap a) =? p_rev p)); [intros E; injection E as <- <- <-; split; [reflexivity|]; split; [intros i; reflexivity|auto]|].
  destruct (negb (any _)); [intros E; injection E as <- <- <-; split; [reflexivity|]; split; [intros i; reflexivity|auto]|].
  destruct (notify_compile _ _ s) as [s2 o2] eqn:Q. intros E; injection E as <- <- <-. apply notify_tasks in Q as (Q1 & Q2). eauto.
Qed.
Lemma snap_ok_reasons p pe em : snap_ok p -> snap_ok (set_reasons p (p_reason p) pe em).
Proof. intros H sn E. exact (H sn E). Qed.
Lemma snapshot_ok p p1 sn : snap_ok p -> snapshot p = (p1, sn) -> any (p_reason p) = true ->
  sn_id sn = p_id p /\ sn_signal sn = p_reason p /\ p_id p1 = p_id p /\ p_rev p1 = p_rev p /\ p_snap p1 = Some sn /\ sn_rev sn = p_rev p.
Proof.
  intros H E A. unfold snapshot in E. destruct (p_snap p) as [sn'|] eqn:Q.
  - destruct (Nat.eqb_spec (sn_rev sn') (p_rev p)) as [R|R]; injection E as <- <-; [|repeat split].
    destruct (H sn' Q) as (H1 & _ & H3). repeat split; auto.
  - injection E as <- <-. repeat split.
Qed.
Lemma consider_turn clean p s p1 s1 o : snap_ok p -> consider clean p s = (p1, s1, o) ->
  p_id p1 = p_id p /\ snap_ok p1 /\ only_of (p_id p) o /\ p_reason p1 = (if took (p_id p) o then none else p_reason p) /\
  exists ts, s_tasks s1 = s_tasks s ++ ts /\ Forall (fun t => sn_id (snd t) = p_id p /\ sn_signal (snd t) = p_reason p) ts /\ matches ts o.
Proof.
  intros H. unfold consider. destruct (x_compiling p).
  { intros E; injection E as <- <- <-. repeat split; auto; try (intros i _; reflexivity); try apply H; auto. exists []. rewrite app_nil_r. split; [reflexivity|]. split; [constructor|reflexivity]. }
  destruct (_ && _) eqn:V.
  - destruct (emit_pending _ s) as [[p2 s2] o2] eqn:Q. intros E; injection E as <- <- <-. apply emit_tasks in Q as (T & U & pe & em & ->).
    split; [reflexivity|]. split; [intros sn E; cbn in *; destruct (H sn E) as (A & B & _); repeat split; auto; discriminate|]. split.
    + intros i N. cbn. unfold took in U. destruct (Nat.eqb_spec (p_id p) i); [congruence|]. apply U.
    + cbn. rewrite Nat.eqb_refl. split; [reflexivity|]. exists []. rewrite app_nil_r. split; [exact T|]. split; [constructor|]. unfold matches. change (starts (OSkip (p_id p) (p_rev p) :: o2)) with (starts o2). rewrite (quiet_starts _ U). reflexivity.
  - unfold try_compile. cbn [set_reasons p_reason p_entry p_id]. destruct (negb (any (p_reason p)) || (p_entry p =? 0)) eqn:A.
    + intros E; injection E as <- <- <-. split; [reflexivity|]. split; [exact H|]. split; [intros i _; reflexivity|]. split; [reflexivity|]. exists []. rewrite app_nil_r. split; [reflexivity|]. split; [constructor|reflexivity].
    + apply orb_false_iff in A as (A & _). apply negb_false_iff in A.
      destruct (snapshot _) as [p2 sn] eqn:Q. destruct (status _ _ _ _ s) as [s2 o2] eqn:W. intros E; injection E as <- <- <-.
      apply status_tasks in W as (W1 & W2). apply snapshot_ok in Q as (Q1 & Q2 & Q3 & Q4 & Q5 & Q6); [|exact H|exact A].
      cbn [set_compiling p_id p_reason set_tasks s_tasks]. split; [exact Q3|]. split.
      { intros sn' E. cbn in E. rewrite Q5 in E. injection E as <-. cbn. rewrite Q3, Q1, Q4, Q6. repeat split; auto; discriminate. }
      split; [intros i N; rewrite took_app, W2; cbn; destruct (Nat.eqb_spec (p_id p) i); [congruence|reflexivity]|].
      rewrite took_app, W2. cbn. rewrite Nat.eqb_refl. cbn. split; [reflexivity|]. rewrite W1. exists [(s_gen s, sn)]. split; [reflexivity|]. split; [constructor; [|constructor]; split; assumption|]. unfold matches. rewrite starts_app, (quiet_starts _ W2). cbn. rewrite Q1. reflexivity.
Qed.
Lemma each_turn clean : forall l s l1 s1 o, each (consider clean) l s = (l1, s1, o) -> Forall snap_ok l -> NoDup (map p_id l) ->
  Forall2 (fun p p1 => p_id p1 = p_id p /\ snap_ok p1 /\ p_reason p1 = (if took (p_id p) o then none else p_reason p)) l l1 /\
  (forall id, ~ In id (map p_id l) -> took id o = false) /\
  exists ts, s_tasks s1 = s_tasks s ++ ts /\ Forall (fun t => exists p, In p l /\ sn_id (snd t) = p_id p /\ sn_signal (snd t) = p_reason p) ts /\ matches ts o.
Proof.
  induction l as [|p l IH]; intros s l1 s1 o E F N; cbn in E.
  - injection E as <- <- <-. split; [constructor|]. split; [reflexivity|]. exists []. rewrite app_nil_r. split; [reflexivity|]. split; [constructor|reflexivity].
  - destruct (consider clean p s) as [[p1 s2] o1] eqn:C. destruct (each (consider clean) l s2) as [[r1 s3] o2] eqn:X. injection E as <- <- <-.
    inversion F as [|? ? F1 F2]; subst. inversion N as [|? ? N1 N2]; subst.
    destruct (consider_turn clean p s p1 s2 o1 F1 C) as (A1 & A2 & A3 & A4 & ts1 & A5 & A6 & A7).
    destruct (IH s2 r1 s3 o2 X F2 N2) as (B1 & B2 & ts2 & B3 & B4 & B5). split; [|split].
    + constructor.
      * split; [exact A1|]. split; [exact A2|]. rewrite took_app, (B2 (p_id p) N1), orb_false_r. exact A4.
      * assert (K : forall q, In q l -> took (p_id q) o1 = false) by (intros q I; apply A3; intros E; apply N1; rewrite <- E; apply in_map; exact I).
        clear -B1 K. induction B1 as [|q q1 l r (X1 & X2 & X3) B IH]; constructor.
        -- split; [exact X1|]. split; [exact X2|]. rewrite took_app, (K q (or_introl eq_refl)). exact X3.
        -- apply IH. intros x I. apply K. right. exact I.
    + intros id I. rewrite took_app. cbn in I. rewrite A3, B2; auto.
    + exists (ts1 ++ ts2). split; [rewrite B3, A5, app_assoc; reflexivity|]. split; [|apply matches_app; assumption]. apply Forall_app. split.
      * eapply Forall_impl; [|exact A6]. intros t (T1 & T2). exists p. cbn. auto.
      * eapply Forall_impl; [|exact B4]. intros t (q & I & T). exists q. cbn. auto.
Qed.
(** * The state *)
Lemma core_tasks s s1 : same_core s s1 -> s_tasks s1 = s_tasks s.
Proof. intros H. unfold same_core in H. intuition congruence. Qed.
Definition tracks (c : nat -> reasons) (s : st) : Prop := Forall (fun p => snap_ok p /\ p_reason p = c (p_id p)) (projects s).
Lemma schedule_tracks clean s s1 o c : on_any_reason clean s = (s1, o) -> NoDup (map p_id (projects s)) -> tracks c s ->
  tracks (fun id => if took id o then none else c id) s1 /\
  exists ts, s_tasks s1 = s_tasks s ++ ts /\ Forall (fun t => sn_signal (snd t) = c (sn_id (snd t))) ts /\ matches ts o.
Proof.
  intros E N T. unfold on_any_reason in E. apply for_all_each in E as (l & s2 & X & L & SC). pose proof (core_tasks _ _ SC) as TS. unfold tracks in *.
  assert (F : Forall snap_ok (projects s)) by (eapply Forall_impl; [|exact T]; intros p (A & _); exact A).
  destruct (each_turn clean (projects s) s l s2 o X F N) as (B1 & _ & ts & B3 & B4 & B5). rewrite L. split.
  - clear -B1 T. induction B1 as [|p p1 l l1 (A1 & A2 & A3) B IH]; [constructor|]. inversion T as [|? ? (T1 & T2) T3]; subst. constructor; [|exact (IH T3)].
    split; [exact A2|]. rewrite A1, A3, T2. reflexivity.
  - exists ts. rewrite TS, B3. split; [reflexivity|]. split; [|exact B5]. eapply Forall_impl; [|exact B4]. intros t (p & I & E1 & E2). rewrite Forall_forall in T. destruct (T p I) as (_ & T2). congruence.
Qed.
(** Steps that only add a reason. *)
Definition adds (r : reasons) (f : proj -> st -> proj * st * list out) : Prop := forall p s p1 s1 o, f p s = (p1, s1, o) -> snap_ok p ->
  p_id p1 = p_id p /\ snap_ok p1 /\ p_reason p1 = see (p_reason p) r /\ s_tasks s1 = s_tasks s /\ quiet o.
Lemma see_none r : see r none = r.
Proof. destruct r. unfold see. cbn. rewrite !orb_false_r. reflexivity. Qed.
Lemma bumped p pe : snap_ok p -> p_snap pe = p_snap p -> p_id pe = p_id p -> p_rev pe = S (p_rev p) -> snap_ok pe.
Proof. intros H A B C sn E. rewrite A in E. destruct (H sn E) as (X & Y & _). rewrite B, C. split; [exact X|]. split; [lia|]. intros Z. lia. Qed.
Lemma change_adds (ch : bool) r : adds (if ch then r else none) (change ch r).
Proof.
  intros p s p1 s1 o E H. unfold change in E. destruct ch; injection E as <- <- <-.
  - split; [reflexivity|]. split; [apply (bumped p); [exact H|reflexivity|reflexivity|reflexivity]|]. split; [reflexivity|]. split; [reflexivity|]. intros i; reflexivity.
  - rewrite see_none. split; [reflexivity|]. split; [exact H|]. split; [reflexivity|]. split; [reflexivity|]. intros i; reflexivity.
Qed.
Lemma change_task_adds i e : i = true \/ e <> None -> adds reason_entry (change_task i e).
Proof.
  intros M p s p1 s1 o E H. unfold change_task in E. destruct e as [e|].
  - rewrite orb_true_r in E. destruct (e =? 0).
    + destruct (status _ _ _ _ s) as [s2 o2] eqn:Q. apply status_tasks in Q as (Q1 & Q2). injection E as <- <- <-.
      split; [reflexivity|]. split; [apply (bumped p); [exact H|reflexivity|reflexivity|reflexivity]|]. split; [reflexivity|]. split; [exact Q1|]. intros x. exact (Q2 x).
    + injection E as <- <- <-.
      split; [reflexivity|]. split; [apply (bumped p); [exact H|reflexivity|reflexivity|reflexivity]|]. split; [reflexivity|]. split; [reflexivity|]. intros x; reflexivity.
  - destruct M as [-> |M]; [|contradiction]. cbn in E. injection E as <- <- <-.
    split; [reflexivity|]. split; [apply (bumped p); [exact H|reflexivity|reflexivity|reflexivity]|]. split; [reflexivity|]. split; [reflexivity|]. intros x; reflexivity.
Qed.
Lemma pc_adds a : adds none (process_compile a).
Proof.
  intros p s p1 s1 o E H. unfold process_compile in E. rewrite see_none. destruct (_ <=? _); injection E as <- <- <-;
  (split; [reflexivity|]; split; [exact H|]; split; [reflexivity|]; split; [reflexivity|]; intros i; reflexivity).
Qed.
Lemma ext_adds a : adds none (ext_compiled a).
Proof.
  intros p s p1 s1 o E H. unfold ext_compiled in E. rewrite see_none. destruct (_ <=? _).
  - injection E as <- <- <-. split; [reflexivity|]; split; [exact H|]; split; [reflexivity|]; split; [reflexivity|]; intros i; reflexivity.
  - apply emit_tasks in E as (T & Q & pe & em & ->). split; [reflexivity|]; split; [exact H|]; split; [reflexivity|]; split; [exact T|exact Q].
Qed.
Lemma on_project_adds r id f s s1 o c : adds r f -> (forall p p1 s2 o2, f p s = (p1, s2, o2) -> same_rest s s2) -> on_project id f s = Some (s1, o) ->
  NoDup (map p_id (projects s)) -> tracks c s -> tracks (fun i => if id =? i then see (c i) r else c i) s1 /\ s_tasks s1 = s_tasks s /\ quiet o.
Proof.
  intros A R E N T. apply on_project_some in E as (a & p & b & p1 & s2 & E1 & E2 & E3 & E4 & E5 & SC); [|exact R]. pose proof (core_tasks _ _ SC) as E6. unfold tracks in *. rewrite E1 in T, N. rewrite E5.
  apply Forall_app in T as (T1 & T2). inversion T2 as [|? ? (T3 & T4) T5]; subst. destruct (A p s p1 s2 o E4 T3) as (B1 & B2 & B3 & B4 & B5).
  split; [|rewrite E6; auto]. rewrite map_app in N. cbn in N. apply NoDup_remove_2 in N. rewrite in_app_iff in N. apply Forall_app. split; [|constructor].
  - clear -T1 E3. induction a as [|q a IH]; [constructor|]. inversion T1 as [|? ? (X1 & X2) X3]; subst. cbn in E3. constructor.
    + split; [exact X1|]. destruct (Nat.eqb_spec (p_id p) (p_id q)) as [E|E]; [|exact X2]. exfalso. apply E3. left. congruence.
    + apply IH; auto.
  - split; [exact B2|]. rewrite B1, Nat.eqb_refl, B3, T4. reflexivity.
  - assert (M : ~ In (p_id p) (map p_id b)) by tauto. clear -T5 M. induction b as [|q b IH]; [constructor|]. inversion T5 as [|? ? (X1 & X2) X3]; subst. cbn in M. constructor.
    + split; [exact X1|]. destruct (Nat.eqb_spec (p_id p) (p_id q)) as [E|E]; [|exact X2]. exfalso. apply M. left. congruence.
    + apply IH; auto.
Qed.
Lemma all_adds r f s s1 o c : (forall p q s p1 s1 o, p_id q = p_id p -> f q s = (p1, s1, o) -> snap_ok q -> p_id p1 = p_id q /\ snap_ok p1 /\ p_reason p1 = see (p_reason q) (r (p_id q)) /\ s_tasks s1 = s_tasks s /\ quiet o) ->
  for_all_projects f s = (s1, o) -> tracks c s -> tracks (fun i => see (c i) (r i)) s1 /\ s_tasks s1 = s_tasks s /\ quiet o.
Proof.
  intros A E T. apply for_all_each in E as (l & s2 & X & L & SC). pose proof (core_tasks _ _ SC) as TS. unfold tracks in *. rewrite L, TS. clear L TS SC s1. revert s l s2 o X T.
  assert (G : forall ps s l s2 o, each f ps s = (l, s2, o) -> Forall (fun p => snap_ok p /\ p_reason p = c (p_id p)) ps ->
    Forall (fun p => snap_ok p /\ p_reason p = see (c (p_id p)) (r (p_id p))) l /\ s_tasks s2 = s_tasks s /\ quiet o).
  { induction ps as [|p ps IH]; intros s l s2 o E T; cbn in E.
    - injection E as <- <- <-. repeat split; auto.
    - destruct (f p s) as [[p1 s3] o1] eqn:F. destruct (each f ps s3) as [[r1 s4] o2] eqn:X. injection E as <- <- <-.
      inversion T as [|? ? (T1 & T2) T3]; subst. destruct (A p p s p1 s3 o1 eq_refl F T1) as (B1 & B2 & B3 & B4 & B5). destruct (IH _ _ _ _ X T3) as (C1 & C2 & C3).
      repeat split; [|congruence|intros i; rewrite took_app, B5, C3; reflexivity]. constructor; [|exact C1]. split; [exact B2|]. rewrite B1, B3, T2. reflexivity. }
  intros s l s2 o X T. exact (G _ _ _ _ _ X T).
Qed.
Lemma tracks_ext c d s : (forall id, c id = d id) -> tracks c s -> tracks d s.
Proof. intros H T. eapply Forall_impl; [|exact T]. intros p (A & B). split; [exact A|]. rewrite B. apply H. Qed.
Lemma tracks_same c s s1 : projects s1 = projects s -> tracks c s -> tracks c s1.
Proof. unfold tracks. intros ->. auto. Qed.
Lemma remove_first_in id q l : In q (remove_first id l) -> In q l.
Proof. induction l as [|p l IH]; cbn; [auto|]. destruct (p_id p =? id); cbn; intuition. Qed.
Lemma removed_tracks id s s1 o c : remove_dedicates id s = (s1, o) -> tracks c s -> tracks c s1 /\ s_tasks s1 = s_tasks s /\ quiet o.
Proof.
  unfold remove_dedicates. destruct (existsb _ _); intros E T; injection E as <- <-.
  - split; [|split; [reflexivity|intros i; reflexivity]]. unfold tracks, projects in *. cbn in *. inversion T as [|? ? A B]; subst. constructor; [exact A|].
    rewrite Forall_forall in *. intros q I. apply B. eapply remove_first_in; eauto.
  - split; [exact T|]. split; [reflexivity|intros i; reflexivity].
Qed.
Lemma inner_tracks i s s1 o c : process_inner i s = Some (s1, o) -> match i with ChangeTask _ a b => a = true \/ b <> None | _ => True end ->
  NoDup (map p_id (projects s)) -> tracks c s -> tracks (fun id => both (c id) (cause i id)) s1 /\ s_tasks s1 = s_tasks s /\ quiet o.
Proof.
  intros E M N T.
  assert (CH : forall (ch : nat -> bool) r s1 o, for_all_projects (fun p => change (ch (p_id p)) r p) s = (s1, o) ->
    tracks (fun id => see (c id) (if ch id then r else none)) s1 /\ s_tasks s1 = s_tasks s /\ quiet o).
  { intros ch r s2 o2 X. refine (all_adds (fun id => if ch id then r else none) _ s s2 o2 c _ X T).
    intros _ q s3 p1 s4 o3 _ F H. exact (change_adds (ch (p_id q)) r q s3 p1 s4 o3 F H). }
  assert (SN : forall r, both r none = r) by (intros r; exact (see_none r)).
  destruct i as [id|id|id inputs entry|ch|ch|ch|]; cbn [process_inner] in E.
  - destruct (on_project_adds reason_entry id _ s s1 o c (change_adds true reason_entry)) as (A & B & C); [intros; eapply change_rest; eauto|exact E|exact N|exact T|].
    split; [|auto]. eapply tracks_ext; [|exact A]. intros x. cbn. destruct (id =? x); [reflexivity|symmetry; apply SN].
  - injection E as E. destruct (removed_tracks id s s1 o c E T) as (A & B & C). split; [|auto]. eapply tracks_ext; [|exact A]. intros x. symmetry. apply SN.
  - destruct (on_project_adds reason_entry id _ s s1 o c (change_task_adds inputs entry M)) as (A & B & C); [intros; eapply change_task_rest; eauto|exact E|exact N|exact T|].
    split; [|auto]. eapply tracks_ext; [|exact A]. intros x. cbn. destruct (id =? x); [reflexivity|symmetry; apply SN].
  - injection E as E. destruct (CH _ _ _ _ E) as (A & B & C). split; [|auto]. eapply tracks_ext; [|exact A]. intros x. cbn. destruct (ch x); reflexivity.
  - injection E as E. destruct (CH _ _ _ _ E) as (A & B & C). split; [|auto]. eapply tracks_ext; [|exact A]. intros x. cbn. destruct (ch x); reflexivity.
  - injection E as E. destruct (CH _ _ _ _ E) as (A & B & C). split; [|auto]. eapply tracks_ext; [|exact A]. intros x. cbn. destruct (ch x); reflexivity.
  - injection E as <- <-. split; [|split; [reflexivity|intros i; reflexivity]]. eapply tracks_ext; [|exact T]. intros x. symmetry. apply SN.
Qed.
Lemma ids_on_project id f s s1 o : (forall p p1 s2 o2, f p s = (p1, s2, o2) -> same_rest s s2) -> (forall p p1 s2 o2, f p s = (p1, s2, o2) -> p_id p1 = p_id p) ->
  on_project id f s = Some (s1, o) -> map p_id (projects s1) = map p_id (projects s).
Proof.
  intros R I E. apply on_project_some in E as (a & p & b & p1 & s2 & E1 & E2 & E3 & E4 & E5 & _); [|exact R]. rewrite E1, E5, !map_app. cbn. f_equal. f_equal. eapply I; eauto.
Qed.
Lemma skipn_app_len {A} (a b : list A) : skipn (length a) (a ++ b) = b.
Proof. induction a; cbn; auto. Qed.
Lemma drop_nth_short {A} n : forall l : list A, length (drop_nth n l) <= length l.
Proof. induction n as [|n IH]; intros [|x l]; cbn; auto. specialize (IH l). lia. Qed.
Lemma drop_nth_incl {A} n : forall l : list A, incl (drop_nth n l) l.
Proof. induction n as [|n IH]; intros [|x l]; cbn; try (intros y Y; exact Y); [apply incl_tl, incl_refl|]. intros y [Y|Y]; [left; exact Y|right; exact (IH l y Y)]. Qed.
Lemma scheduled_tracks clean s s1 o c : on_any_reason clean s = (s1, o) -> NoDup (map p_id (projects s)) -> tracks c s -> forall o0 n, quiet o0 -> n = length (s_tasks s) ->
  tracks (fun id => if took id (o0 ++ o) then none else c id) s1 /\ Forall (fun t => sn_signal (snd t) = c (sn_id (snd t))) (skipn n (s_tasks s1)) /\
  matches (skipn n (s_tasks s1)) (o0 ++ o) /\ incl (s_tasks s1) (s_tasks s ++ skipn n (s_tasks s1)).
Proof.
  intros E N T o0 n Q ->. destruct (schedule_tracks clean s s1 o c E N T) as (A & ts & B & C & D). rewrite B, skipn_app_len. split; [|split; [exact C|split; [|intros x X; exact X]]].
  2: { unfold matches. rewrite starts_app, (quiet_starts _ Q). exact D. }
  eapply tracks_ext; [|exact A]. intros id. cbn. rewrite took_app, Q. reflexivity.
Qed.
Lemma removes_starts (l : list proj) : starts (map (fun p => ORemove (p_id p)) l) = [].
Proof. induction l; cbn; auto. Qed.
Lemma step_tracks s o e s1 o1 c : Inv false s o -> tame s e -> step s e = (s1, o1) -> tracks c s ->
  tracks (fun id => if took id o1 then none else with_event c e id) s1 /\
  Forall (fun t => sn_signal (snd t) = with_event c e (sn_id (snd t))) (skipn (length (s_tasks s)) (s_tasks s1)) /\
  matches (skipn (length (s_tasks s)) (s_tasks s1)) o1 /\ incl (s_tasks s1) (s_tasks s ++ skipn (length (s_tasks s)) (s_tasks s1)).
Proof.
  intros I T E Tr. assert (Pf : false = true -> plain s e) by discriminate. destruct (Inv_step false s o e s1 o1 I T Pf E) as (J & _). pose proof (I_nd _ _ _ I) as ND. pose proof (I_nd _ _ _ J) as ND1.
  unfold step in E. rewrite (I_dead _ _ _ I) in E. destruct e as [i clean|clean|n ok| |id entry|entry].
  - destruct (Inv_process_inner false s o i clean _ I T Pf eq_refl) as (s2 & o2 & Er & J2). rewrite Er in E. cbn [then_schedule] in E.
    destruct (on_any_reason clean s2) as [s3 o3] eqn:Eo. injection E as <- <-.
    destruct (inner_tracks i s s2 o2 c Er) as (A & B & C); [destruct i; auto; exact (proj2 T)|exact ND|exact Tr|].
    rewrite <- B. apply (scheduled_tracks clean s2 s3 o3 _ Eo (I_nd _ _ _ J2) A o2 _ C). reflexivity.
  - cbn [with_event]. destruct (s_queue s) as [|a q] eqn:Q.
    { injection E as <- <-. rewrite skipn_all, app_nil_r. split; [exact Tr|]. split; [constructor|]. split; [reflexivity|intros x X; exact X]. }
    destruct (tell_ext a (set_queue s q)) as [s2 o2] eqn:Et. destruct (Inv_deliver_inner _ _ _ _ _ _ _ _ I Q Et eq_refl) as (s3 & o3 & Er & J2 & _). rewrite Er in E. cbn [then_schedule] in E.
    destruct (on_any_reason clean s3) as [s4 o4] eqn:Eo. injection E as <- <-.
    assert (A : tracks c s2 /\ s_tasks s2 = s_tasks s /\ quiet o2 /\ NoDup (map p_id (projects s2))).
    { unfold tell_ext in Et. destruct (on_project _ (ext_compiled a) _) as [[sx ox]|] eqn:E1.
      - injection Et as <- <-. destruct (on_project_adds none (sn_id (a_snap a)) (ext_compiled a) (set_queue s q) sx ox c (ext_adds a)) as (A & B & C); [intros; eapply ext_rest; eauto|exact E1|exact ND|exact Tr|].
        split; [eapply tracks_ext; [|exact A]; intros x; cbn; destruct (_ =? x); [apply see_none|reflexivity]|]. split; [exact B|]. split; [exact C|].
        erewrite ids_on_project; [| | |exact E1]; [exact ND|intros; eapply ext_rest; eauto|].
        intros p p1 s6 o6 F. unfold ext_compiled in F. destruct (_ <=? _); [injection F as <- <- <-; reflexivity|]. apply emit_tasks in F as (_ & _ & pe & em & ->). reflexivity.
      - injection Et as <- <-. split; [exact Tr|]. split; [reflexivity|]. split; [intros i; reflexivity|exact ND]. }
    destruct A as (A1 & A2 & A3 & A4). destruct (on_project_adds none (sn_id (a_snap a)) (process_compile a) s2 s3 o3 c (pc_adds a)) as (B1 & B2 & B3); [intros; eapply pc_rest; eauto|exact Er|exact A4|exact A1|].
    assert (C : tracks c s3) by (eapply tracks_ext; [|exact B1]; intros x; cbn; destruct (_ =? x); [apply see_none|reflexivity]).
    rewrite app_assoc. replace (s_tasks s) with (s_tasks s3) by congruence. apply (scheduled_tracks clean s3 s4 o4 c Eo (I_nd _ _ _ J2) C (o2 ++ o3)); [intros i; rewrite took_app, A3, B3; reflexivity|reflexivity].
  - cbn [with_event]. destruct (nth_error (s_tasks s) n) as [[g sn]|].
    + destruct (status _ _ _ _ _) as [s2 o2] eqn:E1. destruct (notify_compile _ _ s2) as [s3 o3] eqn:E2. injection E as <- <-.
      assert (P2 : projects s2 = projects s) by (unfold status in E1; destruct (_ <? _); injection E1 as <- <-; reflexivity).
      assert (P3 : projects s3 = projects s2) by (unfold notify_compile in E2; destruct (_ <=? _); injection E2 as <- <-; reflexivity).
      apply status_tasks in E1 as (A1 & A2). apply notify_tasks in E2 as (B1 & B2). split; [|rewrite B1, A1; cbn [set_tasks s_tasks]; rewrite skipn_all2, app_nil_r by apply drop_nth_short; split; [constructor|split]].
      * apply tracks_same with (s := s); [congruence|]. eapply tracks_ext; [|exact Tr]. intros id. cbn. rewrite took_app, A2, B2. reflexivity.
      * unfold matches. rewrite starts_app, (quiet_starts _ A2), (quiet_starts _ B2). reflexivity.
      * apply drop_nth_incl.
    + injection E as <- <-. rewrite skipn_all, app_nil_r. split; [exact Tr|]. split; [constructor|]. split; [reflexivity|intros x X; exact X].
  - injection E as <- <-. cbn [with_event set_primary s_tasks]. rewrite skipn_all, app_nil_r. split; [|split; [constructor|split; [reflexivity|intros x X; exact X]]]. unfold tracks, projects in *. cbn in *. inversion Tr as [|? ? (A & B) C]; subst. constructor; [|exact C].
    unfold snapshot. destruct (p_snap (s_primary s)) as [sn|] eqn:Q.
    + destruct (sn_rev sn =? _); cbn; [auto|]. split; [|exact B]. intros x X. injection X as <-. cbn. auto.
    + cbn. split; [|exact B]. intros x X. injection X as <-. cbn. auto.
  - destruct (remove_dedicates id s) as [s2 o2] eqn:E1. injection E as <- <-. destruct (removed_tracks id s s2 o2 c E1 Tr) as (A & B & C).
    cbn [with_event s_tasks]. rewrite B, skipn_all, app_nil_r. split; [|split; [constructor|split; [unfold matches; rewrite starts_app, (quiet_starts _ C); reflexivity|intros x X; exact X]]]. apply tracks_ext with (c := with_event c (Recreate id entry)); [intros x; rewrite took_app, C; reflexivity|].
    unfold tracks, projects in *. cbn [s_primary s_dedicates] in *. cbn [map] in ND1. rewrite map_app in ND1. assert (ND2 : NoDup (map p_id (s_primary s2 :: s_dedicates s2) ++ [id])) by exact ND1.
    rewrite app_comm_cons. apply Forall_app. split.
    + rewrite Forall_forall in *. intros q Iq. destruct (A q Iq) as (A1 & A2). split; [exact A1|]. cbn. destruct (Nat.eqb_spec id (p_id q)) as [Y|Y]; [|exact A2]. exfalso.
      apply NoDup_remove_2 in ND2. rewrite app_nil_r in ND2. apply ND2. rewrite Y. now apply in_map.
    + constructor; [|constructor]. split; [intros sn X; discriminate X|]. cbn. rewrite Nat.eqb_refl. reflexivity.
  - injection E as <- <-. cbn [s_tasks]. rewrite skipn_all, app_nil_r. split; [|split; [constructor|split; [symmetry; exact (removes_starts (s_primary s :: s_dedicates s))|intros x X; exact X]]]. unfold tracks, projects. cbn. constructor; [|constructor]. split; [intros sn X; discriminate X|]. match goal with |- _ = (if ?b then _ else _) => destruct b end; reflexivity.
Qed.
Lemma causes_app : forall a s c b, causes s (a ++ b) c = causes (fst (run s a)) b (causes s a c).
Proof.
  induction a as [|e a IH]; intros s c b; [reflexivity|]. cbn [app causes run]. destruct (step s e) as [s1 o1]. cbn [fst snd]. rewrite IH. destruct (run s1 a). reflexivity.
Qed.
Lemma tracks_run : forall es s o c, Inv false s o -> tame_run s es -> tracks c s -> tracks (causes s es c) (fst (run s es)).
Proof.
  induction es as [|e es IH]; intros s o c I T Tr; [exact Tr|]. cbn [causes run tame_run] in *. destruct (step s e) as [s1 o1] eqn:E. cbn [fst snd] in *. destruct T as (T1 & T2).
  destruct (run s1 es) as [s2 o2] eqn:R. change s2 with (fst (s2, o2)). rewrite <- R. assert (Pf : false = true -> plain s e) by discriminate.
  destruct (step_tracks s o e s1 o1 c I T1 E Tr) as (A & _). eapply IH; [exact (proj1 (Inv_step false s o e s1 o1 I T1 Pf E))|exact T2|exact A].
Qed.
Lemma tracks_init entry : tracks (fun _ => none) (init entry).
Proof. constructor; [|constructor]. split; [intros sn X; discriminate X|reflexivity]. Qed.
Lemma tame_snoc : forall es s e, tame_run s (es ++ [e]) -> tame_run s es /\ tame (fst (run s es)) e.
Proof.
  induction es as [|x es IH]; intros s e T; cbn [app tame_run run] in *; [tauto|]. destruct T as (T1 & T2). destruct (step s x) as [s1 o1] eqn:E. cbn [fst] in *.
  destruct (IH s1 e T2) as (A & B). destruct (run s1 es). cbn in *. auto.
Qed.
Lemma started_why entry es e : tame_run (init entry) (es ++ [e]) ->
  Forall (fun t => sn_signal (snd t) = with_event (since_last entry es) e (sn_id (snd t))) (started (fst (run (init entry) es)) e) /\
  map (fun t => (sn_id (snd t), sn_rev (snd t))) (started (fst (run (init entry) es)) e) = starts (snd (step (fst (run (init entry) es)) e)) /\
  incl (s_tasks (fst (step (fst (run (init entry) es)) e))) (s_tasks (fst (run (init entry) es)) ++ started (fst (run (init entry) es)) e).
Proof.
  intros T. apply tame_snoc in T as (T1 & T2). pose proof (tracks_run es _ _ _ (Inv_init false entry) T1 (tracks_init entry)) as Tr.
  destruct (run (init entry) es) as [s o] eqn:R. pose proof (Inv_run false es _ _ s o (Inv_init false entry) T1 ltac:(discriminate) R) as J. cbn [fst] in *.
  unfold started. destruct (step s e) as [s1 o1] eqn:E. cbn [fst snd]. exact (proj2 (step_tracks s _ e s1 o1 _ J T2 E Tr)).
Qed.
Lemma run_snoc : forall es s e, run s (es ++ [e]) = (fst (step (fst (run s es)) e), snd (run s es) ++ snd (step (fst (run s es)) e)).
Proof.
  induction es as [|x es IH]; intros s e; cbn [app run].
  - destruct (step s e) as [s1 o1] eqn:E. cbn [fst snd]. rewrite E, app_nil_r. reflexivity.
  - destruct (step s x) as [s1 o1]. rewrite IH. destruct (run s1 es) as [s2 o2]. cbn [fst snd]. rewrite app_assoc. reflexivity.
Qed.
Lemma tasks_why entry : forall es t, tame_run (init entry) es -> In t (s_tasks (fst (run (init entry) es))) ->
  exists es1 e es2, es = es1 ++ e :: es2 /\ In t (started (fst (run (init entry) es1)) e) /\ tame_run (init entry) (es1 ++ [e]).
Proof.
  induction es as [|e es IH] using rev_ind; intros t T I; [destruct I|]. destruct (started_why entry es e T) as (_ & _ & C). rewrite run_snoc in I. cbn [fst] in I. apply C in I. apply in_app_or in I as [I|I].
  - destruct (IH t (proj1 (tame_snoc es _ e T)) I) as (es1 & x & es2 & -> & A & B). exists es1, x, (es2 ++ [e]). rewrite <- app_assoc. auto.
  - exists es, e, []. auto.
Qed.
(** * Announcements *)
Lemma each_silent clean : forall l s l1 s1 o, each (consider clean) l s = (l1, s1, o) ->
  Forall (fun p => forall a, x_last p = Some a -> sn_id (a_snap a) = p_id p /\ sn_rev (a_snap a) <= s_notified s (s_gen s) (p_id p)) l ->
  (forall a, ~ In (ONotify a) o).
Proof.
  assert (ST : forall g id rev k s s1 o, status g id rev k s = (s1, o) -> s_notified s1 = s_notified s /\ s_gen s1 = s_gen s /\ forall a, ~ In (ONotify a) o).
  { intros g id rev k s s1 o E. unfold status in E. destruct (_ <? _); injection E as <- <-; (split; [reflexivity|split; [reflexivity|]]); intros a X; [exact X|].
    apply in_app_or in X as [X|[X|[]]]; [|discriminate X]. destruct k; cbn in X; intuition discriminate. }
  induction l as [|p l IH]; intros s l1 s1 o E F a; cbn in E.
  - injection E as <- <- <-. exact (fun x => x).
  - destruct (consider clean p s) as [[p1 s2] o1] eqn:C. destruct (each (consider clean) l s2) as [[r1 s3] o2] eqn:X. injection E as <- <- <-. inversion F as [|? ? F1 F2]; subst.
    assert (K : s_notified s2 = s_notified s /\ s_gen s2 = s_gen s /\ forall a, ~ In (ONotify a) o1).
    { unfold consider in C. destruct (x_compiling p); [injection C as <- <- <-; repeat split; exact (fun _ x => x)|]. destruct (_ && _).
      - destruct (emit_pending_noop (set_reasons p no_reason (see (x_pending p) (p_reason p)) (x_emitted p)) s) as (pe & em & Y); [exact F1|]. rewrite Y in C. injection C as <- <- <-. repeat split. intros b [Z|[]]; discriminate Z.
      - unfold try_compile in C. destruct (negb _ || _); [injection C as <- <- <-; repeat split; exact (fun _ x => x)|]. destruct (snapshot _) as [p3 sn]. destruct (status _ _ _ _ s) as [s4 o4] eqn:W. injection C as <- <- <-.
        apply ST in W as (W1 & W2 & W3). cbn. repeat split; auto. intros b Z. apply in_app_or in Z as [Z|[Z|[]]]; [exact (W3 b Z)|discriminate Z]. }
    destruct K as (K1 & K2 & K3). intros Z. apply in_app_or in Z as [Z|Z]; [exact (K3 a Z)|]. refine (IH _ _ _ _ X _ a Z). rewrite K1, K2. exact F2.
Qed.
Lemma sched_silent pl clean s o s1 o1 : Inv pl s o -> on_any_reason clean s = (s1, o1) -> forall a, ~ In (ONotify a) o1.
Proof.
  intros I E. unfold on_any_reason in E. apply for_all_each in E as (l & s2 & X & _). eapply each_silent; [exact X|]. eapply Forall_impl; [|exact (I_g _ _ _ I)]. intros p G. exact (g_l _ _ _ _ G).
Qed.
Lemma all_silent f : (forall p s a, ~ In (ONotify a) (snd (f p s))) -> forall s s1 o, for_all_projects f s = (s1, o) -> forall a, ~ In (ONotify a) o.
Proof.
  intros H s s1 o E a. apply for_all_each in E as (l & s2 & X & _). revert s l s2 o X. generalize projects as pr. intros pr s. generalize (pr s) as ps. clear pr. intros ps. revert s.
  induction ps as [|p ps IH]; intros s l s2 o X; cbn in X; [injection X as <- <- <-; exact (fun x => x)|]. pose proof (H p s a) as Hp. destruct (f p s) as [[p1 s3] o1]. destruct (each f ps s3) as [[r1 s4] o2] eqn:Y. injection X as <- <- <-.
  intros Z. apply in_app_or in Z as [Z|Z]; [exact (Hp Z)|exact (IH _ _ _ _ Y Z)].
Qed.
Lemma project_silent id f s s1 o : (forall p p1 s2 o2, f p s = (p1, s2, o2) -> same_rest s s2) -> (forall p a, ~ In (ONotify a) (snd (f p s))) -> on_project id f s = Some (s1, o) -> forall a, ~ In (ONotify a) o.
Proof.
  intros R H E a. apply on_project_some in E as (x & p & b & p1 & s2 & _ & _ & _ & E4 & _); [|exact R]. pose proof (H p a) as K. rewrite E4 in K. exact K.
Qed.
Lemma change_silent (ch : bool) r p s a : ~ In (ONotify a) (snd (change ch r p s)).
Proof. unfold change. destruct ch; cbn; intuition discriminate. Qed.
Lemma change_task_silent i e p s a : ~ In (ONotify a) (snd (change_task i e p s)).
Proof.
  unfold change_task, status. destruct e as [e|].
  - rewrite orb_true_r. destruct (e =? 0); [destruct (_ <? _)|]; cbn; intuition discriminate.
  - rewrite orb_false_r. destruct i; cbn; intuition discriminate.
Qed.
Lemma step_silent s o e s1 o1 : Inv false s o -> tame s e -> step s e = (s1, o1) -> match e with Finish _ _ => False | _ => True end -> forall a, ~ In (ONotify a) o1.
Proof.
  intros I T E NF a. assert (Pf : false = true -> plain s e) by discriminate. unfold step in E. rewrite (I_dead _ _ _ I) in E. destruct e as [i clean|clean|n ok| |id entry|entry].
  - destruct (Inv_process_inner false s o i clean _ I T Pf eq_refl) as (s2 & o2 & Er & J2). rewrite Er in E. cbn [then_schedule] in E.
    destruct (on_any_reason clean s2) as [s3 o3] eqn:Eo. injection E as <- <-. intros Z. apply in_app_or in Z as [Z|Z]; [|exact (sched_silent _ _ _ _ _ _ J2 Eo a Z)].
    destruct i as [id|id|id inputs entry|ch|ch|ch|]; cbn [process_inner] in Er.
    + revert Z. eapply project_silent; [intros; eapply change_rest; eauto| |exact Er]. intros; apply change_silent.
    + injection Er as Er. unfold remove_dedicates in Er. destruct (existsb _ _); injection Er as <- <-; cbn in Z; intuition discriminate.
    + revert Z. eapply project_silent; [intros; eapply change_task_rest; eauto| |exact Er]. intros; apply change_task_silent.
    + injection Er as Er. revert Z. eapply all_silent; [|exact Er]. intros; apply change_silent.
    + injection Er as Er. revert Z. eapply all_silent; [|exact Er]. intros; apply change_silent.
    + injection Er as Er. revert Z. eapply all_silent; [|exact Er]. intros; apply change_silent.
    + injection Er as <- <-. exact Z.
  - destruct (s_queue s) as [|b q] eqn:Q; [injection E as <- <-; exact (fun x => x)|].
    destruct (tell_ext b (set_queue s q)) as [s2 o2] eqn:Et. destruct (Inv_deliver_inner _ _ _ _ _ _ _ _ I Q Et eq_refl) as (s3 & o3 & Er & J2 & _). rewrite Er in E. cbn [then_schedule] in E.
    destruct (on_any_reason clean s3) as [s4 o4] eqn:Eo. injection E as <- <-. intros Z. apply in_app_or in Z as [Z|Z].
    + unfold tell_ext in Et. destruct (on_project _ (ext_compiled b) _) as [[sx ox]|] eqn:E1; injection Et as <- <-; [|exact Z].
      apply on_project_some in E1 as (x & p & y & p1 & s6 & P1 & P2 & _ & P4 & _); [|intros; eapply ext_rest; eauto].
      assert (G : good false p s o). { pose proof (I_g _ _ _ I) as G. change (projects (set_queue s q)) with (projects s) in P1. rewrite P1 in G. apply Forall_app in G as (_ & G). now inversion G. }
      destruct (deliver_good false p s o b q G Q (eq_sym P2)) as (p1' & p2 & X1 & _). rewrite X1 in P4. injection P4 as <- <- <-. exact Z.
    + apply in_app_or in Z as [Z|Z]; [|exact (sched_silent _ _ _ _ _ _ J2 Eo a Z)]. revert Z. eapply project_silent; [intros; eapply pc_rest; eauto| |exact Er]. intros p c. unfold process_compile. destruct (_ <=? _); cbn; intuition discriminate.
  - contradiction.
  - injection E as <- <-. exact (fun x => x).
  - destruct (remove_dedicates id s) as [s2 o2] eqn:E1. injection E as <- <-. unfold remove_dedicates in E1. destruct (existsb _ _); injection E1 as <- <-; cbn; intuition discriminate.
  - injection E as <- <-. intros [Z|Z]; [discriminate Z|]. apply in_map_iff in Z as (x & Z & _). discriminate Z.
Qed.
Lemma only_finish entry es e a : tame_run (init entry) (es ++ [e]) -> In (ONotify a) (snd (step (fst (run (init entry) es)) e)) ->
  exists n ok g, e = Finish n ok /\ nth_error (s_tasks (fst (run (init entry) es))) n = Some (g, a_snap a).
Proof.
  intros T I. apply tame_snoc in T as (T1 & T2). destruct (run (init entry) es) as [s o] eqn:R. cbn [fst] in *.
  pose proof (Inv_run false es _ _ s o (Inv_init false entry) T1 ltac:(discriminate) R) as J. destruct (step s e) as [s1 o1] eqn:E. cbn [snd] in I.
  assert (S : match e with Finish _ _ => False | _ => True end -> False) by (intros NF; exact (step_silent s _ e s1 o1 J T2 E NF a I)).
  destruct e as [i clean|clean|n ok| |id en|en]; try (exfalso; exact (S Logic.I)). exists n, ok. unfold step in E. rewrite (I_dead _ _ _ J) in E. destruct (nth_error (s_tasks s) n) as [[g sn]|].
  2: { injection E as <- <-. destruct I. }
  exists g. split; [reflexivity|]. f_equal. f_equal. destruct (status _ _ _ _ _) as [s2 o2] eqn:E1. destruct (notify_compile _ _ s2) as [s3 o3] eqn:E2. injection E as <- <-. apply in_app_or in I as [I|I].
  - unfold status in E1. destruct (_ <? _); injection E1 as <- <-; [destruct I|]. apply in_app_or in I as [I|[I|[]]]; [|discriminate I]. destruct ok; destruct I.
  - unfold notify_compile in E2. destruct (_ <=? _); injection E2 as <- <-; cbn in I; [contradiction|]. destruct I as [I|I]; [|contradiction]. injection I as <-. reflexivity.
Qed.
Lemma notified_why entry es a : tame_run (init entry) es -> In (ONotify a) (snd (run (init entry) es)) ->
  exists es1 e es2, es = es1 ++ e :: es2 /\ In (OStart (sn_id (a_snap a)) (sn_rev (a_snap a))) (snd (step (fst (run (init entry) es1)) e)) /\
  sn_signal (a_snap a) = with_event (since_last entry es1) e (sn_id (a_snap a)).
Proof.
  induction es as [|e es IH] using rev_ind; intros T I; [destruct I|]. rewrite run_snoc in I. cbn [snd] in I. apply in_app_or in I as [I|I].
  - destruct (IH (proj1 (tame_snoc es _ e T)) I) as (es1 & x & es2 & -> & A). exists es1, x, (es2 ++ [e]). rewrite <- app_assoc. auto.
  - destruct (only_finish entry es e a T I) as (n & ok & g & -> & N). apply nth_error_In in N. destruct (tasks_why entry es _ (proj1 (tame_snoc es _ _ T)) N) as (es1 & x & es2 & -> & A & B).
    exists es1, x, (es2 ++ [Finish n ok]). rewrite <- app_assoc. split; [reflexivity|]. destruct (started_why entry es1 x B) as (W1 & W2 & _). rewrite Forall_forall in W1. split; [|exact (W1 _ A)].
    assert (K : In (sn_id (a_snap a), sn_rev (a_snap a)) (starts (snd (step (fst (run (init entry) es1)) x)))) by (rewrite <- W2; apply in_map_iff; exists (g, a_snap a); auto).
    apply in_flat_map in K as (y & Y1 & Y2). destruct y; cbn in Y2; try contradiction. destruct Y2 as [Y2|[]]. injection Y2 as <- <-. exact Y1.
Qed.
(** * Exports *)
Lemma export_iff r w doc : need_export r w doc = match doc with Some _ => should_lint r w doc | None => false end.
Proof. destruct r as [m f e], w, doc as [t|]; cbn; try reflexivity; destruct m, f, e; try reflexivity; destruct t; reflexivity. Qed.
