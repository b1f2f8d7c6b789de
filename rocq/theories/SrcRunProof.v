(** * Executions of worlds keep to their history *)

From Coq Require Import List Arith Bool Lia.
From Verif Require Import SrcModel SrcSpec SrcProof.
Import ListNotations.

Local Arguments Nat.ltb : simpl never.

(** ** Events that make no world *)

Lemma missing h s i : agrees h s -> nth_error (worlds s) i = None -> (i <? count h) = false.
Proof.
  intros A H. apply nth_error_None in H. rewrite (a_count _ _ A) in H.
  apply Nat.ltb_ge. exact H.
Qed.

Lemma present h s i w : agrees h s -> nth_error (worlds s) i = Some w -> i < count h.
Proof. intros A H. rewrite <- (a_count _ _ A). apply (nth_lt _ _ _ H). Qed.

Lemma neq_count h i : i < count h -> (i =? count h) = false.
Proof. intro H. apply Nat.eqb_neq. lia. Qed.

(** An event that changes nothing about any world of the state. *)
Lemma agrees_idle h s e : agrees h s ->
  count (e :: h) = count h ->
  (forall i, i < count h -> session (e :: h) i = session h i) ->
  (forall i, i < count h -> origin (e :: h) i = origin h i) ->
  (forall i, i < count h -> sees (e :: h) i = sees h i) ->
  (forall i, i < count h -> counts (e :: h) i = counts h i) ->
  (forall o, fetched (e :: h) o = fetched h o) ->
  (forall n k f, known (e :: h) n k f = known h n k f) ->
  (forall n f, dep (e :: h) n f = dep h n f) ->
  agrees (e :: h) s.
Proof.
  intros A Ec Es Eo Ee Et Ef Ek Ed. constructor.
  - rewrite Ec. apply A.
  - intros i w H. pose proof (present _ _ _ _ A H) as L.
    destruct (a_world _ _ A i w H) as (H1 & H2 & H3 & H4 & H5 & H6).
    rewrite Es, Eo, Ee, Et, Ef by exact L. cbn. repeat split; auto; lia.
  - intros i w j v Hi Hj. rewrite !Es by (eapply present; eassumption).
    apply (a_share _ _ A); assumption.
  - intros i j. rewrite Ec. intros Hi Hj. rewrite !Eo by assumption. rewrite Ef.
    apply (a_root _ _ A); assumption.
  - apply A.
  - intros i w H. pose proof (present _ _ _ _ A H) as L. rewrite Es by exact L.
    destruct (a_table _ _ A i w H) as (H1 & H2). split; intros; rewrite ?Ek, ?Ed; auto.
Qed.

Lemma step_snapshot h s v : agrees h s -> agrees (Snapshot v :: h) (snd (step (Snapshot v) s)).
Proof.
  intro A. cbn [step snd]. pose proof (a_count _ _ A) as C. constructor; cbn [worlds tables].
  - rewrite app_length, C. cbn. lia.
  - intros i w H. apply nth_error_snoc in H. rewrite app_length. cbn [length].
    destruct H as [(L & H)|(-> & ->)].
    + rewrite C in L. cbn. rewrite (neq_count _ _ L).
      destruct (a_world _ _ A i w H) as (H1 & H2 & H3 & H4 & H5 & H6). repeat split; auto; lia.
    + cbn. rewrite C, Nat.eqb_refl. rewrite fetched_new by lia. repeat split; lia.
  - intros i w j u Hi Hj. cbn.
    apply nth_error_snoc in Hi. apply nth_error_snoc in Hj. rewrite C in Hi, Hj.
    destruct Hi as [(L & Hi)|(-> & ->)]; destruct Hj as [(L' & Hj)|(-> & ->)];
    rewrite ?(neq_count _ _ L), ?(neq_count _ _ L'), ?Nat.eqb_refl.
    + apply (a_share _ _ A); assumption.
    + destruct (a_world _ _ A i w Hi) as (_ & _ & _ & H4 & H5 & _). cbn. split; lia.
    + destruct (a_world _ _ A j u Hj) as (_ & _ & _ & H4 & H5 & _). cbn. split; lia.
    + tauto.
  - intros i j. cbn. intros Hi Hj.
    destruct (Nat.eqb_spec i (count h)); destruct (Nat.eqb_spec j (count h)).
    + intros; lia.
    + intros E. pose proof (origin_bound h j ltac:(lia)). lia.
    + intros E. pose proof (origin_bound h i ltac:(lia)). lia.
    + apply (a_root _ _ A); lia.
  - intro n. rewrite nth_snoc. destruct (n =? length (tables s)); [constructor|apply A].
  - intros i w H. apply nth_error_snoc in H. rewrite nth_snoc.
    destruct H as [(L & H)|(-> & ->)].
    + rewrite C in L. destruct (a_world _ _ A i w H) as (_ & _ & _ & H4 & _).
      cbn [known dep session]. rewrite (neq_count _ _ L).
      replace (w_table w =? length (tables s)) with false by (symmetry; apply Nat.eqb_neq; lia).
      apply (a_table _ _ A); assumption.
    + cbn [known dep session w_table]. rewrite C, !Nat.eqb_refl. split.
      * intros k f. rewrite known_new by lia. reflexivity.
      * intros f. rewrite dep_new by lia. reflexivity.
Qed.

Lemma fetch_facts c w t w' : fetch c w = (t, w') ->
  w_compiling w' = w_compiling w /\ w_table w' = w_table w /\ w_view w' = w_view w /\
  w_now w' = Some t /\ t = (match w_now w with Some x => x | None => c end).
Proof.
  unfold fetch. destruct (w_now w) as [x|] eqn:E; intro H; injection H as <- <-; cbn; auto.
Qed.

(** A world whose time is fetched. *)
Lemma agrees_fetch h s i w c t w' : agrees h s -> nth_error (worlds s) i = Some w ->
  fetch c w = (t, w') ->
  t = (match fetched h (origin h i) with Some x => x | None => c end) /\
  agrees (Today i c :: h) (mkState (tables s) (set i w' (worlds s))).
Proof.
  intros A H F. pose proof (present _ _ _ _ A H) as L.
  apply fetch_facts in F. destruct F as (F1 & F2 & F3 & F4 & F5).
  destruct (a_world _ _ A i w H) as (W1 & W2 & W3 & W4 & W5 & W6).
  rewrite W3 in F5. split; [exact F5|].
  assert (LL : i < length (worlds s)) by (rewrite (a_count _ _ A); exact L).
  assert (FT : forall o, fetched (Today i c :: h) o =
    if o =? origin h i then Some t else fetched h o).
  { intro o. cbn. rewrite (proj2 (Nat.ltb_lt _ _) L). cbn. rewrite (Nat.eqb_sym o).
    destruct (Nat.eqb_spec (origin h i) o) as [<-|]; [|destruct (fetched h o); reflexivity].
    rewrite F5. destruct (fetched h (origin h i)); reflexivity. }
  constructor; cbn [worlds tables].
  - rewrite set_length. apply A.
  - intros j u Hj. apply nth_error_set in Hj; [|exact LL].
    destruct Hj as [(-> & ->)|(N & Hj)].
    + rewrite FT. cbn [origin session counts sees length]. rewrite Nat.eqb_refl.
      rewrite F1, F2, F3. repeat split; auto; lia.
    + rewrite FT. cbn [origin session counts sees length].
      destruct (a_world _ _ A j u Hj) as (H1 & H2 & H3 & H4 & H5 & H6).
      destruct (Nat.eqb_spec (origin h j) (origin h i)) as [E|E].
      * assert (G : fetched h (origin h j) <> None).
        { intro G. apply N. apply (a_root _ _ A j i); auto. apply (present _ _ _ _ A Hj). }
        repeat split; auto; try lia. rewrite H3. rewrite E in G |- *. rewrite F5.
        destruct (fetched h (origin h i)); [reflexivity|contradiction].
      * repeat split; auto; lia.
  - intros j u k v Hj Hk. cbn [session].
    apply nth_error_set in Hj; [|exact LL]. apply nth_error_set in Hk; [|exact LL].
    destruct Hj as [(-> & ->)|(N & Hj)]; destruct Hk as [(-> & ->)|(N' & Hk)]; rewrite ?F2;
    apply (a_share _ _ A); assumption.
  - intros j k Hj Hk. cbn [count origin] in *. intro E. rewrite FT.
    destruct (Nat.eqb_spec (origin h j) (origin h i)); [discriminate|].
    apply (a_root _ _ A); assumption.
  - apply A.
  - intros j u Hj. cbn [known dep session]. apply nth_error_set in Hj; [|exact LL].
    destruct Hj as [(-> & ->)|(N & Hj)]; [rewrite F2|]; apply (a_table _ _ A); assumption.
Qed.

Lemma fetched_alike h c i o : fetched (Task i c :: h) o = fetched (Today i c :: h) o.
Proof. reflexivity. Qed.

Lemma step_task h s i c : agrees h s -> agrees (Task i c :: h) (snd (step (Task i c) s)).
Proof.
  intro A. cbn [step]. destruct (nth_error (worlds s) i) as [w|] eqn:H; cbn [snd].
  2:{ pose proof (missing _ _ _ A H) as M.
      apply agrees_idle; auto; intros; cbn; rewrite ?M; cbn; auto.
      destruct (fetched h o); reflexivity. }
  destruct (fetch c w) as [t w'] eqn:F. cbn [snd].
  destruct (agrees_fetch _ _ _ _ _ _ _ A H F) as (Ht & B).
  pose proof (present _ _ _ _ A H) as L.
  pose proof (a_count _ _ B) as C. cbn [worlds count] in C.
  assert (LL : (i <? count h) = true) by (apply Nat.ltb_lt; exact L).
  assert (Hi : nth_error (set i w' (worlds s)) i = Some w').
  { apply set_same. rewrite (a_count _ _ A). exact L. }
  destruct (a_world _ _ B i w' Hi) as (I1 & I2 & I3 & I4 & I5 & I6).
  cbn [counts sees origin session tables length] in I1, I2, I3, I4, I5, I6.
  pose proof (a_table _ _ B i w' Hi) as (T1 & T2). cbn [known dep session tables] in T1, T2.
  remember (set i w' (worlds s)) as ws eqn:Ews.
  constructor; cbn [worlds tables].
  - rewrite app_length, C. cbn. rewrite LL. lia.
  - intros j u Hj. apply nth_error_snoc in Hj. rewrite C in Hj. rewrite fetched_alike.
    destruct Hj as [(Lj & Hj)|(-> & ->)]; cbn [counts sees origin session length].
    + rewrite (neq_count _ _ Lj), andb_false_r.
      destruct (a_world _ _ B j u Hj) as (H1 & H2 & H3 & H4 & H5 & H6).
      repeat split; auto.
    + rewrite LL, Nat.eqb_refl. cbn [andb]. repeat split; auto.
  - intros j u k v Hj Hk.
    apply nth_error_snoc in Hj. apply nth_error_snoc in Hk. rewrite C in Hj, Hk. cbn [session].
    destruct Hj as [(Lj & Hj)|(-> & ->)]; destruct Hk as [(Lk & Hk)|(-> & ->)];
    rewrite ?(neq_count _ _ Lj), ?(neq_count _ _ Lk), ?LL, ?Nat.eqb_refl, ?andb_false_r; cbn [andb].
    + apply (a_share _ _ B j u k v Hj Hk).
    + apply (a_share _ _ B j u i w' Hj Hi).
    + apply (a_share _ _ B i w' k v Hi Hk).
    + tauto.
  - intros j k. rewrite fetched_alike. cbn [count origin]. rewrite LL. cbn [andb]. intros Hj Hk.
    assert (G : fetched (Today i c :: h) (origin h i) <> None).
    { rewrite <- I3. destruct (fetch_facts _ _ _ _ F) as (_ & _ & _ & G & _). congruence. }
    destruct (Nat.eqb_spec j (count h)); destruct (Nat.eqb_spec k (count h)); intros E N.
    + lia.
    + contradiction.
    + rewrite E in N. contradiction.
    + apply (a_root _ _ B j k); cbn [count origin]; auto; lia.
  - apply B.
  - intros j u Hj. apply nth_error_snoc in Hj. rewrite C in Hj. cbn [known dep session].
    destruct Hj as [(Lj & Hj)|(-> & ->)].
    + rewrite (neq_count _ _ Lj), andb_false_r. apply (a_table _ _ B j u Hj).
    + rewrite LL, Nat.eqb_refl. cbn [andb]. split; assumption.
Qed.

Lemma step_today h s i c : agrees h s -> agrees (Today i c :: h) (snd (step (Today i c) s)).
Proof.
  intro A. cbn [step]. destruct (nth_error (worlds s) i) as [w|] eqn:H; cbn [snd].
  2:{ pose proof (missing _ _ _ A H) as M.
      apply agrees_idle; auto; intros; cbn; rewrite ?M; cbn; auto.
      destruct (fetched h o); reflexivity. }
  destruct (fetch c w) as [t w'] eqn:F. cbn [snd].
  apply (agrees_fetch _ _ _ _ _ _ _ A H F).
Qed.

Lemma step_compiling h s i b : agrees h s -> agrees (Compiling i b :: h) (snd (step (Compiling i b) s)).
Proof.
  intro A. cbn [step]. destruct (nth_error (worlds s) i) as [w|] eqn:H; cbn [snd].
  2:{ pose proof (missing _ _ _ A H) as M. apply Nat.ltb_ge in M.
      apply agrees_idle; auto; intros j L; cbn.
      replace (i =? j) with false by (symmetry; apply Nat.eqb_neq; lia). reflexivity. }
  pose proof (present _ _ _ _ A H) as L.
  assert (LL : i < length (worlds s)) by (rewrite (a_count _ _ A); exact L).
  destruct (a_world _ _ A i w H) as (W1 & W2 & W3 & W4 & W5 & W6).
  constructor; cbn [worlds tables].
  - rewrite set_length. apply A.
  - intros j u Hj. apply nth_error_set in Hj; [|exact LL]. cbn.
    destruct Hj as [(-> & ->)|(N & Hj)].
    + rewrite Nat.eqb_refl. cbn. repeat split; auto; lia.
    + replace (i =? j) with false by (symmetry; apply Nat.eqb_neq; lia).
      destruct (a_world _ _ A j u Hj) as (H1 & H2 & H3 & H4 & H5 & H6). repeat split; auto; lia.
  - intros j u k v Hj Hk. cbn [session].
    apply nth_error_set in Hj; [|exact LL]. apply nth_error_set in Hk; [|exact LL].
    destruct Hj as [(-> & ->)|(N & Hj)]; destruct Hk as [(-> & ->)|(N' & Hk)]; cbn [w_table];
    apply (a_share _ _ A); assumption.
  - apply (a_root _ _ A).
  - apply A.
  - intros j u Hj. cbn [known dep session]. apply nth_error_set in Hj; [|exact LL].
    destruct Hj as [(-> & ->)|(N & Hj)]; cbn [w_table]; apply (a_table _ _ A); assumption.
Qed.

Lemma step_remap h s i b : agrees h s -> agrees (Remap i b :: h) (snd (step (Remap i b) s)).
Proof.
  intro A. cbn [step]. destruct (nth_error (worlds s) i) as [w|] eqn:H; cbn [snd].
  2:{ pose proof (missing _ _ _ A H) as M. apply Nat.ltb_ge in M.
      apply agrees_idle; auto; intros j L; cbn.
      replace (i =? j) with false by (symmetry; apply Nat.eqb_neq; lia). reflexivity. }
  pose proof (present _ _ _ _ A H) as L.
  assert (LL : i < length (worlds s)) by (rewrite (a_count _ _ A); exact L).
  destruct (a_world _ _ A i w H) as (W1 & W2 & W3 & W4 & W5 & W6).
  constructor; cbn [worlds tables].
  - rewrite set_length. apply A.
  - intros j u Hj. apply nth_error_set in Hj; [|exact LL]. cbn.
    destruct Hj as [(-> & ->)|(N & Hj)].
    + rewrite Nat.eqb_refl. cbn. repeat split; auto; lia.
    + replace (i =? j) with false by (symmetry; apply Nat.eqb_neq; lia).
      destruct (a_world _ _ A j u Hj) as (H1 & H2 & H3 & H4 & H5 & H6). repeat split; auto; lia.
  - intros j u k v Hj Hk. cbn [session].
    apply nth_error_set in Hj; [|exact LL]. apply nth_error_set in Hk; [|exact LL].
    destruct Hj as [(-> & ->)|(N & Hj)]; destruct Hk as [(-> & ->)|(N' & Hk)]; cbn [w_table];
    apply (a_share _ _ A); assumption.
  - apply (a_root _ _ A).
  - apply A.
  - intros j u Hj. cbn [known dep session]. apply nth_error_set in Hj; [|exact LL].
    destruct Hj as [(-> & ->)|(N & Hj)]; cbn [w_table]; apply (a_table _ _ A); assumption.
Qed.

Lemma step_take h s i : agrees h s -> agrees (TakeDb i :: h) (snd (step (TakeDb i) s)).
Proof.
  intro A. cbn [step]. destruct (nth_error (worlds s) i) as [w|] eqn:H; cbn [snd].
  2:{ pose proof (missing _ _ _ A H) as M. apply Nat.ltb_ge in M.
      apply agrees_idle; auto; intros j L; cbn.
      replace (i =? j) with false by (symmetry; apply Nat.eqb_neq; lia). reflexivity. }
  pose proof (present _ _ _ _ A H) as L.
  assert (LL : i < length (worlds s)) by (rewrite (a_count _ _ A); exact L).
  destruct (a_world _ _ A i w H) as (W1 & W2 & W3 & W4 & W5 & W6).
  constructor; cbn [worlds tables].
  - rewrite set_length. apply A.
  - intros j u Hj. apply nth_error_set in Hj; [|exact LL]. cbn. rewrite app_length. cbn [length].
    destruct Hj as [(-> & ->)|(N & Hj)].
    + rewrite Nat.eqb_refl. cbn. repeat split; auto; lia.
    + replace (i =? j) with false by (symmetry; apply Nat.eqb_neq; lia).
      destruct (a_world _ _ A j u Hj) as (H1 & H2 & H3 & H4 & H5 & H6). repeat split; auto; lia.
  - intros j u k v Hj Hk. cbn [session].
    apply nth_error_set in Hj; [|exact LL]. apply nth_error_set in Hk; [|exact LL].
    destruct Hj as [(-> & ->)|(N & Hj)]; destruct Hk as [(-> & ->)|(N' & Hk)];
    rewrite ?Nat.eqb_refl; cbn [w_table].
    + tauto.
    + replace (i =? k) with false by (symmetry; apply Nat.eqb_neq; lia).
      destruct (a_world _ _ A k v Hk) as (_ & _ & _ & H4 & H5 & _). split; lia.
    + replace (i =? j) with false by (symmetry; apply Nat.eqb_neq; lia).
      destruct (a_world _ _ A j u Hj) as (_ & _ & _ & H4 & H5 & _). split; lia.
    + replace (i =? k) with false by (symmetry; apply Nat.eqb_neq; lia).
      replace (i =? j) with false by (symmetry; apply Nat.eqb_neq; lia).
      apply (a_share _ _ A); assumption.
  - apply (a_root _ _ A).
  - intro n. rewrite nth_snoc. destruct (n =? length (tables s)); [constructor|apply A].
  - intros j u Hj. cbn [known dep session]. rewrite nth_snoc.
    apply nth_error_set in Hj; [|exact LL].
    destruct Hj as [(-> & ->)|(N & Hj)]; cbn [w_table].
    + rewrite !Nat.eqb_refl. split.
      * intros k f. rewrite known_new by lia. reflexivity.
      * intros f. rewrite dep_new by lia. reflexivity.
    + replace (i =? j) with false by (symmetry; apply Nat.eqb_neq; lia).
      destruct (a_world _ _ A j u Hj) as (_ & _ & _ & H4 & _).
      replace (w_table u =? length (tables s)) with false by (symmetry; apply Nat.eqb_neq; lia).
      apply (a_table _ _ A j u Hj).
Qed.

Lemma step_deps h s i : agrees h s -> agrees (Deps i :: h) (snd (step (Deps i) s)).
Proof.
  intro A. cbn [step]. destruct (nth_error (worlds s) i) as [w|] eqn:H; cbn [snd];
  apply agrees_idle; auto.
Qed.

Lemma skipped k f : kind_eqb k Source && Nat.eqb f detached = negb (is_file k f).
Proof. destruct k; cbn; [rewrite negb_involutive|]; reflexivity. Qed.

Lemma idle_read h s i k f : agrees h s ->
  (i <? count h) && is_file k f = false -> agrees (Read i k f :: h) s.
Proof.
  intros A M. apply agrees_idle; auto; intros; cbn.
  - destruct (known h n k0 f0); [reflexivity|].
    destruct (kind_eqb k k0 && (f =? f0) && reads_in h n i k0 f0) eqn:E; [|reflexivity].
    apply andb_true_iff in E. destruct E as (E & G). apply andb_true_iff in E.
    destruct E as (E1 & E2). apply kind_eqb_ok in E1. apply Nat.eqb_eq in E2. subst.
    unfold reads_in in G. apply andb_true_iff in G. destruct G as (G & G3).
    apply andb_true_iff in G. destruct G as (G1 & _). rewrite G1, G3 in M. discriminate.
  - destruct ((f =? f0) && reads_in h n i k f0 && counts h i) eqn:E; [|reflexivity].
    apply andb_true_iff in E. destruct E as (E & _). apply andb_true_iff in E.
    destruct E as (E2 & G). apply Nat.eqb_eq in E2. subst.
    unfold reads_in in G. apply andb_true_iff in G. destruct G as (G & G3).
    apply andb_true_iff in G. destruct G as (G1 & _). rewrite G1, G3 in M. discriminate.
Qed.

Lemma step_read h s i k f : agrees h s -> agrees (Read i k f :: h) (snd (step (Read i k f) s)).
Proof.
  intro A. cbn [step]. destruct (nth_error (worlds s) i) as [w|] eqn:H; cbn [snd].
  2:{ apply idle_read; [exact A|]. rewrite (missing _ _ _ A H). reflexivity. }
  rewrite skipped. destruct (is_file k f) eqn:Hf; cbn [negb snd].
  2:{ apply idle_read; [exact A|]. rewrite Hf. apply andb_false_r. }
  destruct (read (w_compiling w) k f (w_view w k f) (nth (w_table w) (tables s) [])) as [x t] eqn:R.
  cbn [snd].
  pose proof (present _ _ _ _ A H) as L.
  destruct (a_world _ _ A i w H) as (W1 & W2 & W3 & W4 & W5 & W6).
  destruct (a_table _ _ A i w H) as (T1 & T2).
  constructor; cbn [worlds tables].
  - apply A.
  - intros j u Hj. cbn. rewrite set_length.
    destruct (a_world _ _ A j u Hj) as (H1 & H2 & H3 & H4 & H5 & H6). repeat split; auto; lia.
  - apply (a_share _ _ A).
  - apply (a_root _ _ A).
  - intro n. destruct (Nat.eq_dec (w_table w) n) as [<-|N].
    + rewrite set_nth_same by exact W4. apply (read_own _ _ _ _ _ _ _ R). apply A.
    + rewrite set_nth_other by exact N. apply A.
  - intros j u Hj.
    destruct (Nat.eq_dec (w_table w) (w_table u)) as [E|N].
    + assert (S : session h j = session h i).
      { symmetry. apply (a_share _ _ A i w j u H Hj). exact E. }
      rewrite <- E, set_nth_same by exact W4. cbn [known dep session]. rewrite S.
      assert (G : forall k', is_file k' f = true -> reads_in h (session h i) i k' f = true).
      { intros k' Hk'. apply reads_in_ok. auto. }
      destruct (read_get_same _ _ _ _ _ _ _ R) as (s' & R1 & R2 & R3 & R4 & R5).
      rewrite T1 in R2. split.
      * intros k' g. destruct (Nat.eq_dec f g) as [<-|N].
        -- rewrite Nat.eqb_refl, andb_true_r. unfold cell_of. rewrite R1.
           destruct (kind_eqb k k') eqn:K.
           ++ apply kind_eqb_ok in K. subst k'. rewrite (G k Hf). cbn.
              rewrite R3, R2, W2. destruct (known h (session h i) k f); reflexivity.
           ++ rewrite R4, T1; [cbn; destruct (known h (session h i) k' f); reflexivity|].
              intros ->. destruct k; discriminate.
        -- unfold cell_of. rewrite (read_get_other _ _ _ _ _ _ _ g R) by congruence.
           change (cell_of (nth (w_table w) (tables s) []) k' g =
             match known h (session h i) k' g with Some r => Some r | None =>
               if kind_eqb k k' && (f =? g) && reads_in h (session h i) i k' g
               then Some (sees h i k' g) else None end).
           replace (f =? g) with false by (symmetry; apply Nat.eqb_neq; exact N).
           rewrite andb_false_r, T1. cbn. destruct (known h (session h i) k' g); reflexivity.
      * intros g. destruct (Nat.eq_dec f g) as [<-|N].
        -- rewrite Nat.eqb_refl, (G k Hf). cbn. unfold touched_of. rewrite R1, R5, T2, W1. reflexivity.
        -- unfold touched_of. rewrite (read_get_other _ _ _ _ _ _ _ g R) by congruence.
           replace (f =? g) with false by (symmetry; apply Nat.eqb_neq; exact N). cbn. apply T2.
    + assert (S : session h i <> session h j).
      { intro S. apply N. apply (a_share _ _ A i w j u H Hj). exact S. }
      rewrite set_nth_other by exact N. cbn [known dep session].
      assert (G : forall k' g, reads_in h (session h j) i k' g = false).
      { intros k' g. destruct (reads_in h (session h j) i k' g) eqn:G; [|reflexivity].
        apply reads_in_ok in G. tauto. }
      destruct (a_table _ _ A j u Hj) as (U1 & U2). split.
      * intros k' g. rewrite G, andb_false_r, U1. destruct (known h (session h j) k' g); reflexivity.
      * intros g. rewrite G, andb_false_r. cbn. apply U2.
Qed.

Lemma step_agrees h s e : agrees h s -> agrees (e :: h) (snd (step e s)).
Proof.
  intro A. destruct e; [apply step_snapshot|apply step_task|apply step_compiling|apply step_take|
    apply step_remap|apply step_read|apply step_deps|apply step_today]; exact A.
Qed.

Lemma start_agrees : agrees [] start.
Proof.
  constructor; cbn.
  - reflexivity.
  - intros [|i] w H; discriminate.
  - intros [|i] w j v H; discriminate.
  - intros; lia.
  - intros [|n]; constructor.
  - intros [|i] w H; discriminate.
Qed.

Lemma run_agrees es : forall h s, agrees h s -> agrees (rev es ++ h) (run es s).
Proof.
  induction es as [|e es IH]; intros h s A; cbn; [exact A|].
  rewrite <- app_assoc. apply IH. apply step_agrees. exact A.
Qed.

Lemma history es : agrees (rev es) (run es start).
Proof. rewrite <- (app_nil_r (rev es)). apply run_agrees, start_agrees. Qed.

(** ** What the steps show *)

Lemma exists_world h s i : agrees h s -> i < count h ->
  exists w, nth_error (worlds s) i = Some w.
Proof.
  intros A L. destruct (nth_error (worlds s) i) as [w|] eqn:E; [exists w; reflexivity|].
  apply nth_error_None in E. rewrite (a_count _ _ A) in E. lia.
Qed.

Lemma shows_read es i k f : i < count (rev es) -> is_file k f = true ->
  exists r, shows es (Read i k f) = Content r /\ read_spec (rev es) i k f r.
Proof.
  intros L Hf. pose proof (history es) as A.
  destruct (exists_world _ _ _ A L) as (w & H). unfold shows. cbn [step]. rewrite H.
  rewrite skipped, Hf. cbn [negb].
  destruct (read (w_compiling w) k f (w_view w k f) (nth (w_table w) (tables (run es start)) [])) as [x t] eqn:R.
  exists x. split; [reflexivity|].
  destruct (read_get_same _ _ _ _ _ _ _ R) as (s' & _ & R2 & _).
  destruct (a_table _ _ A i w H) as (T1 & _). rewrite T1 in R2.
  destruct (a_world _ _ A i w H) as (_ & W2 & _). rewrite W2 in R2.
  split.
  - intros after before p Hr Hfirst.
    assert (K : known before (session (rev es) i) k f = None).
    { destruct (known before (session (rev es) i) k f) as [r|] eqn:K; [|reflexivity].
      apply known_some in K. destruct K as (a & b & q & Q & _). exfalso. apply (Hfirst a b q Q). }
    rewrite (known_first _ _ _ _ _ _ _ Hr K) in R2. exact R2.
  - intro Hn. destruct (known (rev es) (session (rev es) i) k f) as [r|] eqn:K; [|exact R2].
    apply known_some in K. destruct K as (a & b & q & Q & _). exfalso. apply (Hn a b q Q).
Qed.

Lemma shows_deps es i : i < count (rev es) ->
  exists l, shows es (Deps i) = Files l /\ NoDup l /\ forall f, In f l <-> depends (rev es) i f.
Proof.
  intro L. pose proof (history es) as A.
  destruct (exists_world _ _ _ A L) as (w & H). unfold shows. cbn [step]. rewrite H.
  eexists. split; [reflexivity|]. split; [apply dependencies_once, A|].
  intro f. rewrite dependencies_ok by apply A.
  destruct (a_table _ _ A i w H) as (_ & T2). rewrite T2. apply dep_ok.
Qed.

Lemma shows_today es i c : i < count (rev es) ->
  shows es (Today i c) =
  Time (match fetched (rev es) (origin (rev es) i) with Some t => t | None => c end).
Proof.
  intro L. pose proof (history es) as A.
  destruct (exists_world _ _ _ A L) as (w & H). unfold shows. cbn [step]. rewrite H.
  destruct (fetch c w) as [t w'] eqn:F. cbn [fst].
  destruct (agrees_fetch _ _ _ _ _ _ _ A H F) as (-> & _). reflexivity.
Qed.

Lemma fetched_later a h o t : fetched h o = Some t -> fetched (a ++ h) o = Some t.
Proof.
  intro H. induction a as [|e a IH]; [exact H|]. cbn. destruct e; auto; rewrite IH; reflexivity.
Qed.

Lemma origin_later a h i : i < count h -> origin (a ++ h) i = origin h i /\ i < count (a ++ h).
Proof.
  intro L. induction a as [|e a (IH1 & IH2)]; [auto|]. cbn. destruct e; auto.
  - rewrite (neq_count _ _ IH2). split; [exact IH1|lia].
  - rewrite (neq_count _ _ IH2), andb_false_r. split; [exact IH1|].
    destruct (w <? count (a ++ h)); lia.
Qed.
