(** Proofs about the revisioned caches. *)
From Coq Require Import List Arith Bool Lia.
From Verif Require Import AssocModel AssocProof RevModel RevSpec.
Import ListNotations.
#[local] Arguments Nat.eq_dec : simpl never.

Lemma remove1_count x y l : count_occ Nat.eq_dec (remove1 x l) y =
  if Nat.eq_dec x y then count_occ Nat.eq_dec l y - 1 else count_occ Nat.eq_dec l y.
Proof.
  induction l as [|a l IH]; cbn.
  - destruct (Nat.eq_dec x y); auto.
  - destruct (a =? x) eqn:E.
    + apply Nat.eqb_eq in E. subst a. destruct (Nat.eq_dec x y); lia.
    + apply Nat.eqb_neq in E. cbn. rewrite IH.
      destruct (Nat.eq_dec a y), (Nat.eq_dec x y); subst; try lia.
Qed.
Lemma remove1_in x y l : In y (remove1 x l) -> In y l.
Proof. induction l as [|a l IH]; cbn; auto. destruct (a =? x); cbn; intuition. Qed.
Lemma remove1_in' x y l : In y l -> x <> y -> In y (remove1 x l).
Proof.
  intros H N. apply (count_occ_In Nat.eq_dec) in H. apply (count_occ_In Nat.eq_dec).
  rewrite remove1_count. destruct (Nat.eq_dec x y); congruence.
Qed.
Lemma existsb_in e l : existsb (fun x => x =? e) l = true <-> In e l.
Proof.
  rewrite existsb_exists. split.
  - intros (x & H & E). apply Nat.eqb_eq in E. now subst.
  - intros H. exists e. now rewrite Nat.eqb_refl.
Qed.
Lemma fold_min_le l a x : x = a \/ In x l -> fold_left Nat.min l a <= x.
Proof.
  revert a x. induction l as [|y l IH]; cbn; intros a x H.
  - destruct H as [H|[]]; lia.
  - destruct H as [H|[H|H]].
    + transitivity (Nat.min a y); [|lia]. apply IH. now left.
    + transitivity (Nat.min a y); [|lia]. apply IH. now left.
    + apply IH. now right.
Qed.
Lemma fold_min_in l a : In (fold_left Nat.min l a) (a :: l).
Proof.
  revert a. induction l as [|y l IH]; cbn; intros a; [now left|].
  destruct (IH (Nat.min a y)) as [H|H].
  - rewrite <- H. destruct (Nat.min_dec a y) as [E|E]; rewrite E; auto.
  - auto.
Qed.
Lemma fold_max_in l a : In (fold_left Nat.max l a) (a :: l).
Proof.
  revert a. induction l as [|y l IH]; cbn; intros a; [now left|].
  destruct (IH (Nat.max a y)) as [H|H].
  - rewrite <- H. destruct (Nat.max_dec a y) as [E|E]; rewrite E; auto.
  - auto.
Qed.

(** * base *)
Lemma base_fold {D} (l : list (nat * D)) acc rev :
  (forall x, acc = Some x -> fst x <= rev) ->
  match fold_left (fun acc y => match acc with None => Some y | Some x => Some (if fst y <? fst x then x else y) end)
                  (filter (fun x => fst x <=? rev) l) acc with
  | None => acc = None /\ forall x, In x l -> rev < fst x
  | Some b => (Some b = acc \/ In b l) /\ fst b <= rev /\ (forall x, In x l -> fst x <= rev -> fst x <= fst b) /\
              (forall x, acc = Some x -> fst x <= fst b)
  end.
Proof.
  revert acc. induction l as [|y l IH]; cbn [filter fold_left In]; intros acc HA.
  - destruct acc as [b|].
    + split; [now left|]. split; [now apply HA|]. split; [tauto|]. intros x E. injection E as ->. lia.
    + split; auto. tauto.
  - destruct (fst y <=? rev) eqn:E; cbn [fold_left].
    + apply Nat.leb_le in E.
      set (acc' := match acc with Some x => Some (if fst y <? fst x then x else y) | None => Some y end).
      assert (HA' : forall x, acc' = Some x -> fst x <= rev).
      { unfold acc'. intros x Hx. destruct acc as [a|]; [|injection Hx as <-; auto].
        specialize (HA a eq_refl). injection Hx as <-. destruct (fst y <? fst a); auto. }
      specialize (IH acc' HA'). destruct (fold_left _ _ acc') as [b|].
      * destruct IH as (H1 & H2 & H3 & H4).
        assert (Y : fst y <= fst b).
        { destruct acc as [a|]; unfold acc' in H4.
          - specialize (H4 _ eq_refl). destruct (fst y <? fst a) eqn:L; auto. apply Nat.ltb_lt in L. lia.
          - apply (H4 _ eq_refl). }
        split; [|split; [exact H2|split]].
        -- destruct H1 as [H1|H1]; [|auto]. unfold acc' in H1. destruct acc as [a|].
           ++ injection H1 as ->. destruct (fst y <? fst a); auto.
           ++ injection H1 as ->. auto.
        -- intros x [<-|Hx] Hl; auto.
        -- intros x ->. unfold acc' in H4. specialize (H4 _ eq_refl).
           destruct (fst y <? fst x) eqn:L; auto. apply Nat.ltb_ge in L. lia.
      * destruct IH as [H _]. unfold acc' in H. destruct acc; discriminate.
    + apply Nat.leb_gt in E. specialize (IH acc HA). destruct (fold_left _ _ acc) as [b|].
      * destruct IH as (H1 & H2 & H3 & H4). split; [intuition|]. split; auto. split; auto.
        intros x [<-|Hx] Hl; auto. lia.
      * destruct IH as [H1 H2]. split; auto. intros x [<-|Hx]; auto.
Qed.
Lemma base_some {D} rev (l : list (nat * D)) b : base rev l = Some b ->
  In b l /\ fst b <= rev /\ forall x, In x l -> fst x <= rev -> fst x <= fst b.
Proof.
  intros H. unfold base in H. pose proof (base_fold l None rev) as B. rewrite H in B.
  destruct B as (B1 & B2 & B3 & _); [discriminate|]. destruct B1 as [B1|B1]; [discriminate|]. auto.
Qed.
Lemma base_none {D} rev (l : list (nat * D)) : base rev l = None -> forall x, In x l -> rev < fst x.
Proof. intros H. unfold base in H. pose proof (base_fold l None rev) as B. rewrite H in B. now apply B. Qed.

Lemma find_cases {D} (m : mgr D) rev mk d m' : find_revision m rev mk = (d, m') ->
  (m' = m /\ In (rev, d) (m_slots m)) \/
  (m' = mkMgr (Nat.max rev (m_est m)) (m_locked m) (m_slots m ++ [(rev, d)]) /\ d = mk (base rev (m_slots m)) /\
   forall x, In x (m_slots m) -> fst x <> rev).
Proof.
  unfold find_revision. destruct (base rev (m_slots m)) as [[r c]|] eqn:B.
  - destruct (base_some _ _ _ B) as (B1 & B2 & B3). cbn in *. destruct (r =? rev) eqn:E.
    + apply Nat.eqb_eq in E. subst r. intros H. injection H as <- <-. now left.
    + apply Nat.eqb_neq in E. intros H. injection H as <- <-. right. repeat split; auto.
      intros x Hx Hr. specialize (B3 x Hx). lia.
  - intros H. injection H as <- <-. right. repeat split; auto. intros x Hx.
    pose proof (base_none _ _ B x Hx). lia.
Qed.

Lemma unlock_cases {D} (m : mgr D) e m' g : unlock m e = Some (m', g) ->
  In e (m_locked m) /\ m' = mkMgr (m_est m) (remove1 e (m_locked m)) (m_slots m) /\
  (g = None \/
   (exists x, g = Some x /\ ~ In e (remove1 e (m_locked m)) /\
     ((In x (remove1 e (m_locked m)) /\ forall y, In y (remove1 e (m_locked m)) -> x <= y) \/
      (remove1 e (m_locked m) = [] /\ In x (map fst (m_slots m)))))).
Proof.
  unfold unlock. destruct (existsb _ (m_locked m)) eqn:E; [|discriminate].
  apply existsb_in in E. destruct (existsb _ (remove1 e (m_locked m))) eqn:F.
  - intros H. injection H as <- <-. auto.
  - assert (N : ~ In e (remove1 e (m_locked m))) by (rewrite <- existsb_in, F; discriminate).
    intros H. injection H as <- H. split; auto. split; auto.
    destruct (remove1 e (m_locked m)) as [|a l] eqn:R; cbn in H.
    + destruct (fold_opt Nat.max (map fst (m_slots m))) as [x|] eqn:M; [|subst; auto].
      subst g. right. exists x. split; auto. split; [auto|]. right. split; auto.
      destruct (map fst (m_slots m)) as [|b l]; [discriminate|]. cbn in M. injection M as <-. apply fold_max_in.
    + subst g. right. eexists. split; [reflexivity|]. split; [exact N|]. left. split.
      * apply fold_min_in.
      * intros y [->|Hy]; apply fold_min_le; auto.
Qed.

Lemma in_drop_nth {A} n (l : list A) x : In x (drop_nth n l) -> In x l.
Proof. revert n; induction l as [|a l IH]; destruct n; cbn; auto. intros [H|H]; eauto. Qed.

(** * C36 *)
(** Number of requests with the given estimate. *)
Definition lockcount (l : list (nat * req)) (e : nat) : nat := count_occ Nat.eq_dec (map (fun x => q_est (snd x)) l) e.

Lemma adel_fresh {V} i (l : list (nat * V)) : ~ In i (akeys l) -> adel i l = l.
Proof.
  unfold adel, akeys. induction l as [|[a b] l IH]; cbn; auto. intros N. destruct (i =? a) eqn:E; cbn.
  - apply Nat.eqb_eq in E. subst. tauto.
  - f_equal. apply IH. tauto.
Qed.
Lemma adel_count {V} (f : V -> nat) i (l : list (nat * V)) v e : NoDup (akeys l) -> aget i l = Some v ->
  count_occ Nat.eq_dec (map (fun x => f (snd x)) l) e =
  (if Nat.eq_dec (f v) e then 1 else 0) + count_occ Nat.eq_dec (map (fun x => f (snd x)) (adel i l)) e.
Proof.
  unfold adel. induction l as [|[k w] l IH]; cbn; [discriminate|].
  intros ND H. inversion ND as [|? ? N1 N2]. subst. destruct (i =? k) eqn:E; cbn.
  - apply Nat.eqb_eq in E. subst k. injection H as ->.
    pose proof (adel_fresh i l N1) as X. unfold adel in X. rewrite X. destruct (Nat.eq_dec (f v) e); lia.
  - rewrite (IH N2 H). destruct (Nat.eq_dec (f w) e), (Nat.eq_dec (f v) e); lia.
Qed.

Record locks_ok (s : ast) : Prop := {
  lo_nodup : NoDup (akeys (a_reqs s));
  lo_count : forall e, count_occ Nat.eq_dec (m_locked (a_mgr s)) e = lockcount (a_reqs s) e;
  lo_est : forall e, In e (m_locked (a_mgr s)) -> e <= m_est (a_mgr s);
  lo_slots : forall r c, In (r, c) (m_slots (a_mgr s)) -> r <= m_est (a_mgr s);
  lo_gcs : forall x, In x (a_gcs s) -> x <= m_est (a_mgr s) /\ forall e, In e (m_locked (a_mgr s)) -> x <= e
}.
Lemma locks_ok_0 : locks_ok ast0.
Proof. constructor; cbn; try tauto; try constructor; reflexivity. Qed.

Lemma lockcount_same i q q' l e : NoDup (akeys l) -> aget i l = Some q -> q_est q' = q_est q ->
  lockcount (aset i q' l) e = lockcount l e.
Proof.
  intros N G E. unfold lockcount. rewrite (adel_count q_est i l q e N G). unfold aset. cbn. rewrite E.
  destruct (Nat.eq_dec (q_est q) e); lia.
Qed.

Lemma locked_in s i q : locks_ok s -> aget i (a_reqs s) = Some q -> In (q_est q) (m_locked (a_mgr s)).
Proof.
  intros I G. apply (count_occ_In Nat.eq_dec). rewrite (lo_count _ I). unfold lockcount.
  rewrite (adel_count q_est _ _ _ _ (lo_nodup _ I) G). destruct (Nat.eq_dec (q_est q) (q_est q)); [lia|congruence].
Qed.

Lemma compute_frame imports s c w k s1 v : compute imports s c w k = (s1, v) ->
  a_mgr s1 = a_mgr s /\ a_reqs s1 = a_reqs s /\ a_gcs s1 = a_gcs s /\ a_default s1 = a_default s /\ a_fresh s1 = a_fresh s.
Proof.
  unfold compute. destruct (aget k (a_maps s (c_next c))).
  - intros H. injection H as <- <-. auto.
  - intros H. injection H as <- <-. cbn. auto.
Qed.

Lemma astep_locks imports s e : locks_ok s -> locks_ok (fst (astep imports s e)) /\ snd (astep imports s e) <> APanic.
Proof.
  intros I. destruct e as [i rev w|i|i k|i|n|]; cbn [astep].
  - destruct (aget i (a_reqs s)) as [q|] eqn:G; [split; [exact I|discriminate]|]. cbn. split; [|discriminate].
    constructor; cbn.
    + apply (nodup_aset _ i). apply I.
    + intros e. rewrite (lo_count _ I). unfold lockcount, aset. cbn.
      assert (X : adel i (a_reqs s) = a_reqs s) by now apply adel_fresh, aget_none.
      rewrite X. destruct (Nat.eq_dec (m_est (a_mgr s)) e); reflexivity.
    + intros e [<-|H]; auto. now apply I.
    + apply I.
    + intros x Hx. destruct (lo_gcs _ I x Hx) as [A B]. split; auto. intros e [<-|H]; auto.
  - destruct (aget i (a_reqs s)) as [[est rev w [c|]]|] eqn:G; [split; [exact I|discriminate]| |split; [exact I|discriminate]].
    destruct (find_revision (a_mgr s) rev (make_slot s rev)) as [c m] eqn:F. cbn. split; [|discriminate].
    assert (C : forall e, lockcount (aset i (mkReq est rev w (Some c)) (a_reqs s)) e = lockcount (a_reqs s) e).
    { intros e. apply (lockcount_same _ _ _ _ _ (lo_nodup _ I) G). reflexivity. }
    destruct (find_cases _ _ _ _ _ F) as [[-> Hin]|(-> & Hd & Hn)]; constructor; cbn.
    + apply (nodup_aset _ i), I.
    + intros e. rewrite (lo_count _ I). now rewrite <- C.
    + apply I.
    + apply I.
    + apply I.
    + apply (nodup_aset _ i), I.
    + intros e. rewrite (lo_count _ I). now rewrite <- C.
    + intros e He. pose proof (lo_est _ I e He). lia.
    + intros r c' H. apply in_app_or in H. destruct H as [H|[H|[]]].
      * pose proof (lo_slots _ I _ _ H). lia.
      * injection H as <- <-. lia.
    + intros x Hx. destruct (lo_gcs _ I x Hx). split; auto. lia.
  - destruct (aget i (a_reqs s)) as [[est rev w [c|]]|] eqn:G; [|split; [exact I|discriminate]..].
    destruct (compute imports s c w k) as [s1 v] eqn:C. cbn. split; [|discriminate].
    destruct (compute_frame _ _ _ _ _ _ _ C) as (E1 & E2 & E3 & _).
    destruct I as [I1 I2 I3 I4 I5]. constructor; rewrite ?E1, ?E2, ?E3; auto.
  - destruct (aget i (a_reqs s)) as [q|] eqn:G; [|split; [exact I|discriminate]].
    destruct (unlock (a_mgr s) (q_est q)) as [[m g]|] eqn:U.
    + cbn. split; [|discriminate]. destruct (unlock_cases _ _ _ _ U) as (U1 & -> & U2).
      constructor; cbn.
      * apply nodup_adel, I.
      * intros e. rewrite remove1_count, (lo_count _ I). unfold lockcount.
        rewrite (adel_count q_est _ _ _ e (lo_nodup _ I) G). destruct (Nat.eq_dec (q_est q) e); lia.
      * intros e He. apply remove1_in in He. now apply I.
      * apply I.
      * assert (K : forall x, In x (a_gcs s) -> x <= m_est (a_mgr s) /\ forall e, In e (remove1 (q_est q) (m_locked (a_mgr s))) -> x <= e).
        { intros x Hx. destruct (lo_gcs _ I x Hx) as [A B]. split; auto. intros e He. apply remove1_in in He. auto. }
        destruct U2 as [->|(x & -> & Hn & U2)]; [exact K|].
        intros y Hy. apply in_app_or in Hy. destruct Hy as [Hy|[<-|[]]]; [now apply K|].
        destruct U2 as [[A B]|[A B]].
        -- split; auto. apply I. now apply remove1_in in A.
        -- rewrite A. split; [|cbn; tauto]. apply in_map_iff in B. destruct B as ([r c] & <- & B). now apply (lo_slots _ I _ _ B).
    + exfalso. unfold unlock in U. pose proof (locked_in _ _ _ I G) as L.
      apply existsb_in in L. rewrite L in U. destruct (existsb _ (remove1 _ _)); discriminate.
  - destruct (nth_error (a_gcs s) n) as [x|] eqn:G; [|split; [exact I|discriminate]].
    cbn. split; [|discriminate]. constructor; cbn; try apply I.
    + intros r c H. apply filter_In in H. now apply (lo_slots _ I r c).
    + intros y Hy. apply in_drop_nth in Hy. now apply I.
  - cbn. split; [|discriminate]. constructor; cbn; try apply I. tauto.
Qed.

Lemma arun_app imports s a b : arun imports s (a ++ b) =
  let (s1, o1) := arun imports s a in let (s2, o2) := arun imports s1 b in (s2, o1 ++ o2).
Proof.
  revert s. induction a as [|e a IH]; cbn; intros s.
  - destruct (arun imports s b); reflexivity.
  - destruct (astep imports s e) as [s1 o]. rewrite IH. destruct (arun imports s1 a) as [s2 o1].
    destruct (arun imports s2 b); reflexivity.
Qed.
Lemma arun_locks imports es : forall s, locks_ok s -> locks_ok (fst (arun imports s es)) /\ ~ In APanic (snd (arun imports s es)).
Proof.
  induction es as [|e es IH]; cbn; intros s I; [auto|].
  pose proof (astep_locks imports s e I) as [I1 P]. destruct (astep imports s e) as [s1 o]. cbn in *.
  specialize (IH s1 I1). destruct (arun imports s1 es) as [s2 os]. cbn in *. destruct IH as [A B]. split; auto.
  intros [H|H]; auto.
Qed.

Lemma astep_keeps imports s ev i e r c : locks_ok s -> holds_lock s i e -> has_slot s r c -> e <= r ->
  ev <> Clear -> has_slot (fst (astep imports s ev)) r c.
Proof.
  intros I (q & G & <-) S L NC. unfold has_slot in *. destruct ev as [j rev w|j|j k|j|n|]; cbn [astep].
  - destruct (aget j (a_reqs s)); exact S.
  - destruct (aget j (a_reqs s)) as [[est rev w [c'|]]|]; [exact S| |exact S].
    destruct (find_revision (a_mgr s) rev (make_slot s rev)) as [c' m] eqn:F. cbn.
    destruct (find_cases _ _ _ _ _ F) as [[-> _]|(-> & _)]; auto. cbn. apply in_or_app. now left.
  - destruct (aget j (a_reqs s)) as [[est rev w [c'|]]|]; [|exact S..].
    destruct (compute imports s c' w k) as [s1 v] eqn:C. cbn.
    destruct (compute_frame _ _ _ _ _ _ _ C) as (-> & _). exact S.
  - destruct (aget j (a_reqs s)) as [q'|]; [|exact S].
    destruct (unlock (a_mgr s) (q_est q')) as [[m g]|] eqn:U; [|exact S]. cbn.
    destruct (unlock_cases _ _ _ _ U) as (_ & -> & _). exact S.
  - destruct (nth_error (a_gcs s) n) as [x|] eqn:N; [|exact S]. cbn. apply filter_In. split; auto. cbn.
    apply nth_error_In in N. destruct (lo_gcs _ I x N) as [_ B]. specialize (B _ (locked_in _ _ _ I G)).
    apply Nat.leb_le. lia.
  - congruence.
Qed.
Lemma astep_holds imports s ev i e : holds_lock s i e -> ev <> Release i -> holds_lock (fst (astep imports s ev)) i e.
Proof.
  intros (q & G & E) N. unfold holds_lock. destruct ev as [j rev w|j|j k|j|n|]; cbn [astep].
  - destruct (aget j (a_reqs s)) eqn:H; [now exists q|]. cbn.
    exists q. split; auto. rewrite aget_aset_neq; auto. congruence.
  - destruct (aget j (a_reqs s)) as [[est rev w [c'|]]|] eqn:H; [now exists q| |now exists q].
    destruct (find_revision (a_mgr s) rev (make_slot s rev)) as [c' m] eqn:F. cbn.
    rewrite aget_aset. destruct (i =? j) eqn:X; [|now exists q].
    apply Nat.eqb_eq in X. subst j. rewrite G in H. injection H as ->. eexists. split; [reflexivity|]. exact E.
  - destruct (aget j (a_reqs s)) as [[est rev w [c'|]]|]; [|now exists q..].
    destruct (compute imports s c' w k) as [s1 v] eqn:C. cbn.
    destruct (compute_frame _ _ _ _ _ _ _ C) as (_ & -> & _). now exists q.
  - destruct (aget j (a_reqs s)) as [q'|]; [|now exists q].
    destruct (unlock (a_mgr s) (q_est q')) as [[m g]|]; [|now exists q]. cbn.
    exists q. rewrite aget_adel_neq; [auto|congruence].
  - destruct (nth_error (a_gcs s) n); now exists q.
  - now exists q.
Qed.
Lemma arun_keeps imports i e r c es : forall s, locks_ok s -> holds_lock s i e -> has_slot s r c -> e <= r ->
  ~ In Clear es -> ~ In (Release i) es -> has_slot (fst (arun imports s es)) r c.
Proof.
  induction es as [|ev es IH]; cbn; intros s I H S L N1 N2; [auto|].
  pose proof (astep_locks imports s ev I) as [I1 _].
  assert (A : ev <> Clear) by (intros ->; apply N1; now left).
  assert (B : ev <> Release i) by (intros ->; apply N2; now left).
  pose proof (astep_keeps imports s ev i e r c I H S L A) as K.
  pose proof (astep_holds imports s ev i e H B) as K2.
  destruct (astep imports s ev) as [s1 o]. cbn in *.
  assert (D : ~ In Clear es) by tauto. assert (D2 : ~ In (Release i) es) by tauto.
  pose proof (IH s1 I1 K2 K L D D2) as X.
  destruct (arun imports s1 es) as [s2 os]. exact X.
Qed.

(** * C67 *)
Record fresh_ok (imports : nat -> list nat) (VW : nat -> view) (s : ast) : Prop := {
  fo_locks : locks_ok s;
  fo_views : forall i q, aget i (a_reqs s) = Some q -> q_view q = VW (q_rev q);
  fo_maps : exists rv : nat -> nat,
    (forall r c, In (r, c) (m_slots (a_mgr s)) -> c_next c < a_fresh s /\ rv (c_next c) = r) /\
    (forall i q c, aget i (a_reqs s) = Some q -> q_slot q = Some c -> c_next c < a_fresh s /\ rv (c_next c) = q_rev q) /\
    (forall id k v, aget k (a_maps s id) = Some v -> id < a_fresh s /\ v = analyse imports (VW (rv id)) k) /\
    c_next (a_default s) < a_fresh s /\
    ((a_maps s (c_next (a_default s)) = [] /\
      (forall r c, In (r, c) (m_slots (a_mgr s)) -> c_next c <> c_next (a_default s)) /\
      (forall i q c, aget i (a_reqs s) = Some q -> q_slot q = Some c -> c_next c <> c_next (a_default s))) \/
     In (m_est (a_mgr s)) (map fst (m_slots (a_mgr s))))
}.
Lemma fresh_ok_0 imports VW : fresh_ok imports VW ast0.
Proof.
  constructor; [apply locks_ok_0|discriminate|]. exists (fun _ => 0). cbn.
  repeat split; try tauto; try discriminate; try lia. left. repeat split; try tauto; discriminate.
Qed.
Lemma compute_value imports s c w k s1 v : compute imports s c w k = (s1, v) ->
  (forall v', aget k (a_maps s (c_next c)) = Some v' -> v' = analyse imports w k) -> v = analyse imports w k.
Proof.
  unfold compute. destruct (aget k (a_maps s (c_next c))) as [v0|].
  - intros H A. injection H as <- <-. auto.
  - intros H _. injection H as <- <-.
    assert (X : forall o : option value, match o with Some v => if still_valid imports w k v then v else analyse imports w k | None => analyse imports w k end = analyse imports w k).
    { intros [o|]; auto. unfold still_valid. destruct (list_eq_dec _ _ _); auto. }
    apply X.
Qed.
Lemma compute_maps imports s c w k s1 v : compute imports s c w k = (s1, v) ->
  forall id k' v', aget k' (a_maps s1 id) = Some v' -> aget k' (a_maps s id) = Some v' \/ (id = c_next c /\ k' = k /\ v' = v).
Proof.
  unfold compute. destruct (aget k (a_maps s (c_next c))) as [v0|].
  - intros H. injection H as <- <-. auto.
  - intros H. injection H as <- <-. cbn. intros id k' v' H. unfold upd in H.
    destruct (id =? c_next c) eqn:E; [|auto]. apply Nat.eqb_eq in E. subst id.
    rewrite aget_aset in H. destruct (k' =? k) eqn:E2; [|auto]. apply Nat.eqb_eq in E2. injection H as <-. auto.
Qed.
Lemma compute_maps_same imports s c w k s1 v id : compute imports s c w k = (s1, v) -> id <> c_next c -> a_maps s1 id = a_maps s id.
Proof.
  unfold compute. destruct (aget k (a_maps s (c_next c))) as [v0|].
  - intros H. injection H as <- <-. auto.
  - intros H. injection H as <- <-. cbn. intros N. now rewrite upd_neq.
Qed.

Lemma astep_fresh imports VW s e : fresh_ok imports VW s ->
  (forall i r w, e = Lock i r w -> w = VW r) ->
  (forall i q, e = Enter i -> aget i (a_reqs s) = Some q -> m_est (a_mgr s) <= q_rev q) ->
  fresh_ok imports VW (fst (astep imports s e)) /\
  (forall i k q v, e = Compute i k -> aget i (a_reqs s) = Some q -> snd (astep imports s e) = AVal v -> v = map (q_view q) (imports k)).
Proof.
  intros [IL IV (rv & R1 & R2 & R3 & R4 & R5)] HV HO.
  pose proof (astep_locks imports s e IL) as [IL1 _].
  destruct e as [i rev w|i|i k|i|n|]; cbn [astep] in *.
  - split; [|discriminate]. destruct (aget i (a_reqs s)) as [q|] eqn:G.
    { constructor; auto. exists rv. auto. }
    cbn in *. constructor; cbn; auto.
    + intros j q. rewrite aget_aset. destruct (j =? i); [|apply IV]. intros H. injection H as <-. cbn. now apply (HV i).
    + exists rv. split; [exact R1|]. split; [|split; [exact R3|split; [exact R4|]]].
      * intros j q c. rewrite aget_aset. destruct (j =? i); [|apply R2]. intros H. injection H as <-. discriminate.
      * destruct R5 as [(A & B & C)|R5]; [left|right; exact R5]. split; [exact A|]. split; [exact B|].
        intros j q c. rewrite aget_aset. destruct (j =? i); [|apply C]. intros H. injection H as <-. discriminate.
  - split; [|discriminate].
    destruct (aget i (a_reqs s)) as [[est rev w [c0|]]|] eqn:G;
      [constructor; auto; exists rv; auto| |constructor; auto; exists rv; auto].
    destruct (find_revision (a_mgr s) rev (make_slot s rev)) as [c m] eqn:F. cbn in IL1 |- *.
    specialize (HO i _ eq_refl G). cbn in HO.
    assert (EV : forall j q, aget j (aset i (mkReq est rev w (Some c)) (a_reqs s)) = Some q -> q_view q = VW (q_rev q)).
    { intros j q. rewrite aget_aset. destruct (j =? i); [|apply IV]. intros H. injection H as <-. cbn. apply (IV _ _ G). }
    destruct (find_cases _ _ _ _ _ F) as [[-> Hin]|(-> & Hd & Hn)].
    + constructor; cbn; auto. exists rv. split; [|split; [|split; [|split]]].
      * intros r c' H. destruct (R1 _ _ H). split; auto.
      * intros j q c'. rewrite aget_aset. destruct (j =? i).
        -- intros H. injection H as <-. cbn. intros H. injection H as <-. destruct (R1 _ _ Hin). split; auto.
        -- intros H1 H2. destruct (R2 _ _ _ H1 H2). split; auto.
      * intros id k v H. destruct (R3 _ _ _ H). split; auto.
      * lia.
      * destruct R5 as [(A & B & C)|R5]; [left|right; exact R5]. split; [exact A|]. split; [exact B|].
        intros j q c'. rewrite aget_aset. destruct (j =? i); [|apply C]. intros H. injection H as <-. cbn.
        intros H. injection H as <-. apply (B _ _ Hin).
    + assert (ME : Nat.max rev (m_est (a_mgr s)) = rev) by lia.
      assert (LAST : In (Nat.max rev (m_est (a_mgr s))) (map fst (m_slots (a_mgr s) ++ [(rev, c)]))).
      { rewrite ME, map_app. apply in_or_app. right. now left. }
      unfold make_slot in Hd. destruct (base rev (m_slots (a_mgr s))) as [[rb cb]|] eqn:B.
      * (* from a base: fresh map *)
        assert (CN : c_next c = a_fresh s) by (subst c; reflexivity).
        constructor; cbn; auto. exists (upd rv (a_fresh s) rev). split; [|split; [|split; [|split]]].
        -- intros r c' H. apply in_app_or in H. destruct H as [H|[H|[]]].
           ++ destruct (R1 _ _ H) as [X Y]. rewrite upd_neq by lia. split; auto.
           ++ injection H as <- <-. rewrite CN, upd_eq. auto.
        -- intros j q c'. rewrite aget_aset. destruct (j =? i).
           ++ intros H. injection H as <-. cbn. intros H. injection H as <-. rewrite CN, upd_eq. auto.
           ++ intros H1 H2. destruct (R2 _ _ _ H1 H2). rewrite upd_neq by lia. split; auto.
        -- intros id k v H. destruct (R3 _ _ _ H). rewrite upd_neq by lia. split; auto.
        -- lia.
        -- right. exact LAST.
      * (* from the default *)
        assert (NE : ~ In (m_est (a_mgr s)) (map fst (m_slots (a_mgr s)))).
        { intros H. apply in_map_iff in H. destruct H as (x & Hx & H). pose proof (base_none _ _ B x H). lia. }
        destruct R5 as [(A & B5 & C)|R5]; [|contradiction].
        subst c. constructor; cbn; auto. exists (upd rv (c_next (a_default s)) rev). split; [|split; [|split; [|split]]].
        -- intros r c' H. apply in_app_or in H. destruct H as [H|[H|[]]].
           ++ destruct (R1 _ _ H) as [X Y]. rewrite upd_neq by apply (B5 _ _ H). split; auto.
           ++ injection H as <- <-. rewrite upd_eq. split; auto.
        -- intros j q c'. rewrite aget_aset. destruct (j =? i).
           ++ intros H. injection H as <-. cbn. intros H. injection H as <-. rewrite upd_eq. split; auto.
           ++ intros H1 H2. destruct (R2 _ _ _ H1 H2). rewrite upd_neq by apply (C _ _ _ H1 H2). split; auto.
        -- intros id k v H. destruct (R3 _ _ _ H) as [X Y]. rewrite upd_neq; [split; auto|].
           intros ->. rewrite A in H. discriminate.
        -- lia.
        -- right. exact LAST.
  - destruct (aget i (a_reqs s)) as [[est rev w [c|]]|] eqn:G;
      [|split; [constructor; auto; exists rv; auto|discriminate]..].
    destruct (compute imports s c w k) as [s1 v] eqn:C. cbn in IL1 |- *.
    destruct (compute_frame _ _ _ _ _ _ _ C) as (E1 & E2 & E3 & E4 & E5).
    destruct (R2 _ _ _ G eq_refl) as [CF CR]. cbn in CR. pose proof (IV _ _ G) as WV. cbn in WV.
    assert (V : v = analyse imports w k).
    { apply (compute_value _ _ _ _ _ _ _ C). intros v' H. destruct (R3 _ _ _ H) as [_ X]. rewrite X, CR, WV. reflexivity. }
    split.
    + constructor; auto; rewrite ?E2; auto. exists rv. rewrite E1, E4, E5. split; [exact R1|]. split; [exact R2|].
      split; [|split; [exact R4|]].
      * intros id k' v' H. destruct (compute_maps _ _ _ _ _ _ _ C _ _ _ H) as [X|(-> & -> & ->)]; [auto|].
        split; auto. rewrite CR, <- WV. exact V.
      * destruct R5 as [(A & B & D)|R5]; [left|right; exact R5]. split; [|auto].
        rewrite (compute_maps_same _ _ _ _ _ _ _ _ C); auto. intros X. apply (D _ _ _ G eq_refl). auto.
    + intros j k' q v' H Hq Ho. injection H as <- <-. rewrite G in Hq. injection Hq as <-. injection Ho as <-. exact V.
  - split; [|discriminate]. destruct (aget i (a_reqs s)) as [q|] eqn:G; [|constructor; auto; exists rv; auto].
    destruct (unlock (a_mgr s) (q_est q)) as [[m g]|] eqn:U; [|constructor; auto; exists rv; auto].
    cbn in IL1 |- *. destruct (unlock_cases _ _ _ _ U) as (U1 & -> & U2).
    assert (SUB : forall j q', aget j (adel i (a_reqs s)) = Some q' -> aget j (a_reqs s) = Some q').
    { intros j q'. rewrite aget_adel. destruct (j =? i); [discriminate|auto]. }
    constructor; cbn; auto. { intros j q' H. apply (IV j). auto. } exists rv. split; [exact R1|]. split; [|split; [exact R3|split; [exact R4|]]].
    + intros j q' c H. apply (R2 j). auto.
    + destruct R5 as [(A & B & C)|R5]; [left|right; exact R5]. split; [exact A|]. split; [exact B|].
      intros j q' c H. apply (C j q'). auto.
  - split; [|discriminate]. destruct (nth_error (a_gcs s) n) as [x|] eqn:G; [|constructor; auto; exists rv; auto].
    cbn in IL1 |- *. constructor; cbn; auto. exists rv.
    split; [intros r c H; apply filter_In in H; now apply R1|]. split; [exact R2|]. split; [exact R3|]. split; [exact R4|].
    destruct R5 as [(A & B & C)|R5].
    + left. split; [exact A|]. split; [|exact C]. intros r c H. apply filter_In in H. apply (B r c). tauto.
    + right. apply in_map_iff in R5. destruct R5 as (y & Hy & R5). apply in_map_iff. exists y. split; [exact Hy|].
      apply filter_In. split; auto. apply nth_error_In in G. destruct (lo_gcs _ IL x G) as [X _].
      apply Nat.leb_le. lia.
  - split; [|discriminate]. cbn in IL1 |- *. constructor; cbn; auto. exists rv. split; [tauto|].
    split; [intros i q c H1 H2; destruct (R2 _ _ _ H1 H2); split; auto|].
    split; [intros id k v H; destruct (R3 _ _ _ H); split; auto|]. split; [lia|].
    left. split; [|split; [tauto|]].
    + destruct (a_maps s (S (a_fresh s))) as [|[k v] l] eqn:E; auto. exfalso.
      destruct (R3 (S (a_fresh s)) k v) as [X _]; [|lia]. rewrite E. cbn. now rewrite Nat.eqb_refl.
    + intros i q c H1 H2. destruct (R2 _ _ _ H1 H2). lia.
Qed.

Lemma arun_fresh imports VW es : forall s, fresh_ok imports VW s ->
  (forall i r w, In (Lock i r w) es -> w = VW r) -> in_order imports s es -> answers_fresh imports s es.
Proof.
  induction es as [|e es IH]; cbn; intros s I HV HO; [auto|]. destruct HO as [O1 O2].
  destruct (astep_fresh imports VW s e I) as [I1 A]; auto.
  { intros i r w ->. apply (HV i). now left. }
  split; [exact A|]. apply IH; auto. intros i r w H. apply (HV i). now right.
Qed.
Lemma view_of (es : list aevent) : one_view es -> exists VW : nat -> view, forall i r w, In (Lock i r w) es -> w = VW r.
Proof.
  intros O.
  assert (X : forall es', incl es' es -> exists VW : nat -> view, forall i r w, In (Lock i r w) es' -> w = VW r).
  { induction es' as [|e es' IH]; intros Hi.
    - exists (fun _ _ => 0). cbn. tauto.
    - destruct IH as [VW H]; [intros x Hx; apply Hi; now right|].
      destruct e as [i rev w|i|i k|i|n|]; try (exists VW; intros j r w' [E|E]; [discriminate|now apply (H j)]).
      exists (upd VW rev w). intros j r w' [E|E].
      + injection E as <- <- <-. now rewrite upd_eq.
      + unfold upd. destruct (r =? rev) eqn:Y; [|now apply (H j)].
        apply Nat.eqb_eq in Y. subst r. apply (O j i rev); apply Hi; [now right|now left]. }
  apply X. intros x; auto.
Qed.
Lemma answers_in_order imports es : one_view es -> in_order imports ast0 es -> answers_fresh imports ast0 es.
Proof. intros O H. destruct (view_of es O) as [VW V]. apply (arun_fresh imports VW); auto. apply fresh_ok_0. Qed.

(** * C68 *)
Lemma NoDup_app_one {A} (l : list A) x : NoDup l -> ~ In x l -> NoDup (l ++ [x]).
Proof.
  induction l as [|a l IH]; cbn; intros N H; [constructor; [auto|constructor]|].
  inversion N as [|? ? N1 N2]. subst. constructor.
  - intros X. apply in_app_or in X. destruct X as [X|[X|[]]]; auto.
  - apply IH; auto.
Qed.
Definition wcount {V} (P : V -> bool) (l : list (nat * V)) : nat := length (filter (fun x => P (snd x)) l).
Lemma wcount_del {V} (P : V -> bool) i (l : list (nat * V)) v : NoDup (akeys l) -> aget i l = Some v ->
  wcount P l = (if P v then 1 else 0) + wcount P (adel i l).
Proof.
  unfold wcount, adel. induction l as [|[k w] l IH]; cbn; [discriminate|].
  intros ND H. inversion ND as [|? ? N1 N2]. subst. destruct (i =? k) eqn:E; cbn.
  - apply Nat.eqb_eq in E. subst k. injection H as ->.
    pose proof (adel_fresh i l N1) as X. unfold adel in X. rewrite X. destruct (P v); reflexivity.
  - specialize (IH N2 H). destruct (P w); cbn; rewrite IH; destruct (P v); lia.
Qed.
Lemma wcount_set {V} (P : V -> bool) i (l : list (nat * V)) v : aget i l = None ->
  wcount P (aset i v l) = (if P v then 1 else 0) + wcount P l.
Proof.
  intros G. unfold aset. rewrite adel_fresh by now apply aget_none. unfold wcount. cbn. destruct (P v); reflexivity.
Qed.
Definition on (p e : nat) (x : ctx) : bool := (x_path x =? p) && (x_est x =? e).

Record tok_ok (s : tst) (os : list tout) : Prop := {
  ko_nodup : NoDup (akeys (t_ctxs s));
  ko_count : forall p e, count_occ Nat.eq_dec (m_locked (manager s p)) e = wcount (on p e) (t_ctxs s);
  ko_ids : forall h x, aget h (t_ctxs s) = Some x -> x_id x <= t_next s;
  ko_inj : forall h h' x x', aget h (t_ctxs s) = Some x -> aget h' (t_ctxs s) = Some x' -> x_id x = x_id x' -> h = h';
  ko_out : forall p i b, In (TTok p i b) os -> i <= t_next s;
  ko_undone : forall h x, aget h (t_ctxs s) = Some x -> x_done x = false -> forall p b, ~ In (TTok p (x_id x) b) os;
  ko_uniq : NoDup (answered os);
  ko_own : exists own : nat -> nat * nat,
    (forall p r c, In (r, c) (m_slots (manager s p)) -> c < t_fresh s /\ own c = (p, r)) /\
    (forall h x, aget h (t_ctxs s) = Some x -> x_cell x < t_fresh s /\ own (x_cell x) = (x_path x, x_id x)) /\
    (forall c b, t_cells s c = Some b -> c < t_fresh s /\ In (TTok (fst (own c)) (snd (own c)) b) os)
}.
Lemma tok_ok_0 : tok_ok tst0 [].
Proof.
  constructor; cbn.
  - constructor.
  - reflexivity.
  - discriminate.
  - discriminate.
  - tauto.
  - discriminate.
  - constructor.
  - exists (fun _ => (0, 0)). split; [tauto|]. split; discriminate.
Qed.

Lemma answered_app a b : answered (a ++ b) = answered a ++ answered b.
Proof. apply flat_map_app. Qed.
Lemma in_answered os i : In i (answered os) <-> exists p b, In (TTok p i b) os.
Proof.
  unfold answered. rewrite in_flat_map. split.
  - intros (o & H & X). destruct o; cbn in X; try tauto. destruct X as [->|[]]. eauto.
  - intros (p & b & H). exists (TTok p i b). cbn. auto.
Qed.
Lemma manager_set s p m n c f x q : manager (mkTst n (aset p m (t_mgrs s)) c f x) q = if q =? p then m else manager s q.
Proof. unfold manager. cbn. rewrite aget_aset. destruct (q =? p); reflexivity. Qed.

(** What [find_revision] does to the slots, whatever it does. *)
Lemma find_sum (m : mgr nat) rev f c m' : find_revision m rev (fun _ => f) = (c, m') ->
  m_locked m' = m_locked m /\ In (rev, c) (m_slots m') /\
  (forall x, In x (m_slots m) -> In x (m_slots m')) /\
  (forall x, In x (m_slots m') -> In x (m_slots m) \/ x = (rev, f)) /\
  (In (rev, c) (m_slots m) \/ c = f).
Proof.
  intros F. destruct (find_cases _ _ _ _ _ F) as [[-> H]|(-> & -> & H)]; cbn.
  - repeat split; auto.
  - repeat split; auto.
    + apply in_or_app. right. now left.
    + intros x Hx. apply in_or_app. now left.
    + intros x Hx. apply in_app_or in Hx. destruct Hx as [Hx|[Hx|[]]]; auto.
Qed.

Definition plain (o : tout) : Prop := match o with TTok _ _ _ => False | _ => True end.
Lemma plain_in o os p i b : plain o -> In (TTok p i b) (os ++ [o]) -> In (TTok p i b) os.
Proof. intros P H. apply in_app_or in H. destruct H as [H|[->|[]]]; [auto|destruct P]. Qed.
Lemma plain_answered o os : plain o -> answered (os ++ [o]) = answered os.
Proof. intros P. rewrite answered_app. destruct o; cbn; try apply app_nil_r. destruct P. Qed.

Definition good_base (os : list tout) (o : tout) : Prop :=
  match o with TAcq p _ (Some i) (Some b) => In (TTok p i b) os | TAcq _ _ None (Some _) => False | _ => True end.

Lemma tok_ok_noop s os : tok_ok s os -> tok_ok s (os ++ [TNone]).
Proof.
  intros [K1 K2 K3 K4 K5 K6 K7 (own & O1 & O2 & O3)]. constructor; auto.
  - intros p i b H. apply plain_in in H; [|exact I]. eauto.
  - intros h x G D p b H. apply plain_in in H; [|exact I]. apply (K6 _ _ G D _ _ H).
  - rewrite plain_answered; [auto|exact I].
  - exists own. repeat split; auto; try apply (O1 _ _ _ H); try apply (O2 _ _ H); try apply (O3 _ _ H).
    apply in_or_app. left. apply (O3 _ _ H).
Qed.

Lemma tstep_ok s os e : tok_ok s os -> e <> TClear ->
  tok_ok (fst (tstep s e)) (os ++ [snd (tstep s e)]) /\ snd (tstep s e) <> TPanic /\ good_base os (snd (tstep s e)).
Proof.
  intros T NC. pose proof (tok_ok_noop _ _ T) as TN.
  destruct T as [K1 K2 K3 K4 K5 K6 K7 (own & O1 & O2 & O3)].
  destruct e as [h p prev|h tok|h|]; cbn [tstep]; [..|congruence].
  - destruct (aget h (t_ctxs s)) as [x|] eqn:G; [split; [exact TN|split; [discriminate|exact I]]|].
    cbn [lock_estimated]. unfold lock_estimated.
    set (m1 := mkMgr (m_est (manager s p)) (m_est (manager s p) :: m_locked (manager s p)) (m_slots (manager s p))).
    set (r := match prev with None => (None, m1, t_fresh s) | Some i => let (c, m) := find_revision m1 i (fun _ => t_fresh s) in (t_cells s c, m, S (t_fresh s)) end).
    assert (R : exists pv m2 f own2, r = (pv, m2, f) /\ t_fresh s <= f /\ m_locked m2 = m_locked m1 /\
      (forall c, c < t_fresh s -> own2 c = own c) /\
      (forall r c, In (r, c) (m_slots m2) -> c < f /\ own2 c = (p, r)) /\
      good_base os (TAcq p (S (t_next s)) prev pv)).
    { destruct prev as [i|]; cbn [r] in *; unfold r.
      - destruct (find_revision m1 i (fun _ => t_fresh s)) as [c m2] eqn:F.
        destruct (find_sum _ _ _ _ _ F) as (F1 & F2 & F3 & F4 & F5).
        exists (t_cells s c), m2, (S (t_fresh s)), (upd own (t_fresh s) (p, i)).
        split; auto. split; [lia|]. split; [exact F1|]. split; [|split].
        + intros c' H. apply upd_neq. lia.
        + intros r' c' H. destruct (F4 _ H) as [X|X].
          * destruct (O1 _ _ _ X) as [Y Z]. rewrite upd_neq by lia. auto.
          * injection X as -> ->. rewrite upd_eq. auto.
        + cbn. destruct (t_cells s c) as [b|] eqn:C; auto. destruct (O3 _ _ C) as [Y Z].
          destruct F5 as [F5| ->]; [|lia]. destruct (O1 _ _ _ F5) as [_ X]. rewrite X in Z. exact Z.
      - exists None, m1, (t_fresh s), own. split; auto. split; auto. split; auto. split; auto. split; [|exact I].
        intros r' c' H. apply (O1 _ _ _ H). }
    destruct R as (pv & m2 & f & own2 & -> & R1 & R2 & R3 & R4 & R5).
    destruct (find_revision m2 (S (t_next s)) (fun _ => f)) as [c m3] eqn:F. cbn.
    destruct (find_sum _ _ _ _ _ F) as (F1 & F2 & F3 & F4 & F5).
    split; [|split; [discriminate|exact R5]].
    set (own3 := upd own2 f (p, S (t_next s))).
    assert (W : forall r' c', In (r', c') (m_slots m3) -> c' < S f /\ own3 c' = (p, r')).
    { intros r' c' H. unfold own3. destruct (F4 _ H) as [X|X].
      - destruct (R4 _ _ X). rewrite upd_neq by lia. auto.
      - injection X as -> ->. rewrite upd_eq. auto. }
    assert (PL : plain (TAcq p (S (t_next s)) prev pv)) by exact I.
    constructor; cbn [t_ctxs t_next t_cells t_fresh t_mgrs].
    + now apply (nodup_aset _ h).
    + intros q e. rewrite manager_set, (wcount_set _ _ _ _ G). unfold on at 1. cbn [x_path x_est].
      destruct (q =? p) eqn:E.
      * apply Nat.eqb_eq in E. subst q. rewrite F1, R2, Nat.eqb_refl. cbn. rewrite <- K2.
        destruct (m_est (manager s p) =? e) eqn:X.
        -- apply Nat.eqb_eq in X. destruct (Nat.eq_dec _ e); [lia|congruence].
        -- apply Nat.eqb_neq in X. destruct (Nat.eq_dec _ e); [congruence|lia].
      * rewrite K2. rewrite Nat.eqb_sym, E. reflexivity.
    + intros h' x. rewrite aget_aset. destruct (h' =? h).
      * intros H. injection H as <-. cbn. lia.
      * intros H. apply K3 in H. lia.
    + intros h1 h2 x1 x2. rewrite !aget_aset. destruct (h1 =? h) eqn:E1, (h2 =? h) eqn:E2.
      * apply Nat.eqb_eq in E1, E2. congruence.
      * intros H1 H2. injection H1 as <-. apply K3 in H2. cbn. lia.
      * intros H1 H2. injection H2 as <-. apply K3 in H1. cbn. lia.
      * apply K4.
    + intros p' i b H. apply (plain_in _ _ _ _ _ PL) in H. apply K5 in H. lia.
    + intros h' x. rewrite aget_aset. destruct (h' =? h).
      * intros H. injection H as <-. cbn. intros _ p' b H. apply (plain_in _ _ _ _ _ PL) in H. apply K5 in H. lia.
      * intros H D p' b H'. apply (plain_in _ _ _ _ _ PL) in H'. apply (K6 _ _ H D _ _ H').
    + now rewrite (plain_answered _ _ PL).
    + exists own3. split; [|split].
      * intros q r' c' H. rewrite manager_set in H. destruct (q =? p) eqn:E.
        -- apply Nat.eqb_eq in E. subst q. now apply W.
        -- destruct (O1 _ _ _ H). unfold own3. rewrite upd_neq by lia. rewrite R3 by auto. split; [lia|auto].
      * intros h' x. rewrite aget_aset. destruct (h' =? h).
        -- intros H. injection H as <-. cbn. now apply W.
        -- intros H. destruct (O2 _ _ H). unfold own3. rewrite upd_neq by lia. rewrite R3 by auto. split; [lia|auto].
      * intros c' b H. destruct (O3 _ _ H). unfold own3. rewrite upd_neq by lia. rewrite R3 by auto.
        split; [lia|]. apply in_or_app. now left.
  - destruct (aget h (t_ctxs s)) as [[p est pv c id [|]]|] eqn:G;
      [split; [exact TN|split; [discriminate|exact I]]| |split; [exact TN|split; [discriminate|exact I]]].
    destruct (O2 _ _ G) as [C1 C2]. cbn in C1, C2.
    destruct (t_cells s c) as [b|] eqn:C.
    { exfalso. destruct (O3 _ _ C) as [_ X]. rewrite C2 in X. apply (K6 _ _ G eq_refl _ _ X). }
    cbn. split; [|split; [discriminate|exact I]].
    constructor; cbn [t_ctxs t_next t_cells t_fresh t_mgrs].
    + now apply (nodup_aset _ h).
    + intros q e. change (manager _ q) with (manager s q). rewrite K2. rewrite (wcount_del _ _ _ _ K1 G).
      unfold aset. unfold wcount at 2. cbn. unfold on at 1 3. cbn.
      destruct ((p =? q) && (est =? e)); reflexivity.
    + intros h' x. rewrite aget_aset. destruct (h' =? h).
      * intros H. injection H as <-. cbn. apply (K3 _ _ G).
      * apply K3.
    + intros h1 h2 x1 x2. rewrite !aget_aset. destruct (h1 =? h) eqn:E1, (h2 =? h) eqn:E2.
      * apply Nat.eqb_eq in E1, E2. congruence.
      * intros H1 H2. injection H1 as <-. cbn. intros X. apply Nat.eqb_eq in E1. subst h1. apply (K4 _ _ _ _ G H2 X).
      * intros H1 H2. injection H2 as <-. cbn. intros X. apply Nat.eqb_eq in E2. subst h2. apply (K4 _ _ _ _ H1 G X).
      * apply K4.
    + intros p' i b H. apply in_app_or in H. destruct H as [H|[H|[]]]; [eauto|]. injection H as <- <- <-. apply (K3 _ _ G).
    + intros h' x. rewrite aget_aset. destruct (h' =? h) eqn:E.
      * intros H. injection H as <-. discriminate.
      * intros H D p' b H'. apply in_app_or in H'. destruct H' as [H'|[H'|[]]]; [apply (K6 _ _ H D _ _ H')|].
        injection H' as <- X <-. apply Nat.eqb_neq in E. apply E. apply (K4 _ _ _ _ H G). auto.
    + rewrite answered_app. cbn. apply NoDup_app_one; auto.
      intros H. apply in_answered in H. destruct H as (p' & b & H). apply (K6 _ _ G eq_refl _ _ H).
    + exists own. split; [|split].
      * intros q r' c' H. apply (O1 q). exact H.
      * intros h' x. rewrite aget_aset. destruct (h' =? h).
        -- intros H. injection H as <-. cbn. auto.
        -- apply O2.
      * intros c' b. unfold upd. destruct (c' =? c) eqn:E.
        -- intros H. injection H as <-. apply Nat.eqb_eq in E. subst c'. split; auto. rewrite C2. apply in_or_app. right. now left.
        -- intros H. destruct (O3 _ _ H). split; auto. apply in_or_app. now left.
  - destruct (aget h (t_ctxs s)) as [x|] eqn:G; [|split; [exact TN|split; [discriminate|exact I]]].
    pose proof (wcount_del (on (x_path x) (x_est x)) _ _ _ K1 G) as WC.
    unfold on in WC at 2. rewrite !Nat.eqb_refl in WC. cbn in WC. rewrite <- K2 in WC.
    assert (IN : In (x_est x) (m_locked (manager s (x_path x)))) by (apply (count_occ_In Nat.eq_dec); lia).
    unfold manager in IN. destruct (aget (x_path x) (t_mgrs s)) as [m|] eqn:M; [|destruct IN].
    destruct (unlock m (x_est x)) as [[m1 g]|] eqn:U.
    + destruct (unlock_cases _ _ _ _ U) as (U1 & U2 & U3).
      set (m2 := match g with Some r => gc m1 r | None => m1 end).
      assert (L2 : m_locked m2 = remove1 (x_est x) (m_locked m)) by (unfold m2; subst m1; destruct g; reflexivity).
      assert (S2 : forall y, In y (m_slots m2) -> In y (m_slots m)).
      { unfold m2. subst m1. destruct g; cbn; auto. intros y H. apply filter_In in H. tauto. }
      assert (MM : manager s (x_path x) = m) by (unfold manager; now rewrite M).
      cbn. split; [|split; [discriminate|exact I]].
      assert (SUB : forall j q', aget j (adel h (t_ctxs s)) = Some q' -> aget j (t_ctxs s) = Some q').
      { intros j q'. rewrite aget_adel. destruct (j =? h); [discriminate|auto]. }
      constructor; cbn [t_ctxs t_next t_cells t_fresh t_mgrs].
      * now apply nodup_adel.
      * intros q e. rewrite manager_set. pose proof (wcount_del (on q e) _ _ _ K1 G) as WD. rewrite <- K2 in WD.
        destruct (q =? x_path x) eqn:E.
        -- apply Nat.eqb_eq in E. subst q. rewrite L2, remove1_count. rewrite MM in WD. unfold on in WD at 1.
           rewrite Nat.eqb_refl in WD. cbn in WD. destruct (Nat.eq_dec (x_est x) e) as [<-|N].
           ++ rewrite Nat.eqb_refl in WD. lia.
           ++ apply Nat.eqb_neq in N. rewrite N in WD. exact WD.
        -- unfold on in WD at 1. rewrite Nat.eqb_sym, E in WD. exact WD.
      * intros h' y H. apply (K3 h'). auto.
      * intros h1 h2 x1 x2 H1 H2. apply K4; auto.
      * intros p' i b H. apply plain_in in H; [|exact I]. eauto.
      * intros h' y H D p' b H'. apply plain_in in H'; [|exact I]. apply (K6 h' y (SUB _ _ H) D _ _ H').
      * rewrite plain_answered; [auto|exact I].
      * exists own. split; [|split].
        -- intros q r' c' H. rewrite manager_set in H. destruct (q =? x_path x) eqn:E; [|now apply O1].
           apply Nat.eqb_eq in E. subst q. apply O1. rewrite MM. auto.
        -- intros h' y H. apply (O2 h'). auto.
        -- intros c' b H. destruct (O3 _ _ H). split; auto. apply in_or_app. now left.
    + exfalso. unfold unlock in U. apply existsb_in in IN. rewrite IN in U.
      destruct (existsb _ (remove1 _ _)); discriminate.
Qed.

Record tok_wb (s : tst) (os : list tout) : Prop := {
  wb_ok : tok_ok s os;
  wb_slots : forall p r c, In (r, c) (m_slots (manager s p)) -> r <= m_est (manager s p);
  wb_est : forall p, m_est (manager s p) <= t_next s;
  wb_top : forall p, 0 < m_est (manager s p) -> In (m_est (manager s p)) (map fst (m_slots (manager s p)));
  wb_nodup : forall p, NoDup (map fst (m_slots (manager s p)));
  wb_locked : forall p e, In e (m_locked (manager s p)) -> e <= m_est (manager s p);
  wb_acq : forall p, m_est (manager s p) = 0 \/ exists a b, In (TAcq p (m_est (manager s p)) a b) os;
  wb_tok : forall p i b, In (TTok p i b) os -> 0 < i <= m_est (manager s p);
  wb_ctx : forall h x, aget h (t_ctxs s) = Some x ->
    In (x_id x, x_cell x) (m_slots (manager s (x_path x))) /\ x_est x < x_id x;
  wb_cell : forall p c b, In (m_est (manager s p), c) (m_slots (manager s p)) -> In (TTok p (m_est (manager s p)) b) os ->
    t_cells s c = Some b
}.
Lemma tok_wb_0 : tok_wb tst0 [].
Proof.
  constructor; cbn; try tauto; try discriminate; try lia.
  - apply tok_ok_0.
  - constructor.
Qed.
Lemma nodup_fst {A} (l : list (nat * A)) r a b : NoDup (map fst l) -> In (r, a) l -> In (r, b) l -> a = b.
Proof.
  induction l as [|[k v] l IH]; cbn; [tauto|]. intros N [H|H] [H'|H']; inversion N as [|? ? N1 N2]; subst.
  - congruence.
  - injection H as -> ->. exfalso. apply N1. apply (in_map fst) in H'. exact H'.
  - injection H' as -> ->. exfalso. apply N1. apply (in_map fst) in H. exact H.
  - auto.
Qed.
Lemma in_snoc {A} (x y : A) l : In x (l ++ [y]) -> In x l \/ x = y.
Proof. intros H. apply in_app_or in H. destruct H as [H|[H|[]]]; auto. Qed.

Lemma tok_wb_noop s os : tok_wb s os -> tok_wb s (os ++ [TNone]).
Proof.
  intros [W0 W1 W2 W3 W4 W5 W6 W7 W8 W9]. constructor; auto.
  - now apply tok_ok_noop.
  - intros p. destruct (W6 p) as [H|(a & b & H)]; [now left|right]. exists a, b. apply in_or_app. now left.
  - intros p i b H. apply plain_in in H; [|exact I]. eauto.
  - intros p c b H H'. apply plain_in in H'; [|exact I]. eauto.
Qed.

Lemma acquire_shape s os h p prev : tok_wb s os -> (forall i, prev = Some i -> exists b, In (TTok p i b) os) ->
  aget h (t_ctxs s) = None ->
  exists ex f pv,
    tstep s (Acquire h p prev) =
      (mkTst (S (t_next s))
         (aset p (mkMgr (S (t_next s)) (m_est (manager s p) :: m_locked (manager s p))
                        (m_slots (manager s p) ++ ex ++ [(S (t_next s), f)])) (t_mgrs s))
         (t_cells s) (S f) (aset h (mkCtx p (m_est (manager s p)) pv f (S (t_next s)) false) (t_ctxs s)),
       TAcq p (S (t_next s)) prev pv) /\
    (ex = [] \/ exists i c, ex = [(i, c)] /\ i < m_est (manager s p) /\ ~ In i (map fst (m_slots (manager s p)))) /\
    (forall i b c, prev = Some i -> In (i, c) (m_slots (manager s p)) -> t_cells s c = Some b -> pv = Some b).
Proof.
  intros W KN G. cbn [tstep]. rewrite G. unfold lock_estimated.
  set (m := manager s p). set (m1 := mkMgr (m_est m) (m_est m :: m_locked m) (m_slots m)).
  assert (R : exists ex f pv,
    match prev with None => (None, m1, t_fresh s) | Some i => let (c, m) := find_revision m1 i (fun _ => t_fresh s) in (t_cells s c, m, S (t_fresh s)) end =
    (pv, mkMgr (m_est m) (m_est m :: m_locked m) (m_slots m ++ ex), f) /\
    (ex = [] \/ exists i c, ex = [(i, c)] /\ i < m_est m /\ ~ In i (map fst (m_slots m))) /\
    (forall i b c, prev = Some i -> In (i, c) (m_slots m) -> t_cells s c = Some b -> pv = Some b)).
  { destruct prev as [i|].
    - destruct (KN i eq_refl) as [b0 Hb]. destruct (wb_tok _ _ W _ _ _ Hb) as [B1 B2]. fold m in B2.
      destruct (find_revision m1 i (fun _ => t_fresh s)) as [c m2] eqn:F.
      destruct (find_cases _ _ _ _ _ F) as [[-> Hin]|(-> & -> & Hn)].
      + exists [], (S (t_fresh s)), (t_cells s c). rewrite app_nil_r. split; [reflexivity|]. split; [now left|].
        intros i' b c' E Hc Hb'. injection E as <-. cbn in Hin.
        rewrite (nodup_fst _ _ _ _ (wb_nodup _ _ W p) Hin Hc). exact Hb'.
      + cbn in *. exists [(i, t_fresh s)], (S (t_fresh s)), (t_cells s (t_fresh s)).
        assert (NI : ~ In i (map fst (m_slots m))).
        { intros H. apply in_map_iff in H. destruct H as (x & Hx & H). apply (Hn x H Hx). }
        assert (LT : i < m_est m).
        { destruct (Nat.eq_dec i (m_est m)) as [E|E]; [|lia]. exfalso. apply NI. rewrite E. apply (wb_top _ _ W). fold m. lia. }
        split; [now rewrite Nat.max_r by lia|]. split.
        * right. exists i, (t_fresh s). auto.
        * intros i' b c E Hc _. injection E as <-. exfalso. apply NI. apply (in_map fst) in Hc. exact Hc.
    - exists [], (t_fresh s), None. rewrite app_nil_r. split; [reflexivity|]. split; [now left|]. discriminate. }
  destruct R as (ex & f & pv & -> & R1 & R2). exists ex, f, pv. split; [|split; auto].
  destruct (find_revision (mkMgr (m_est m) (m_est m :: m_locked m) (m_slots m ++ ex)) (S (t_next s)) (fun _ => f)) as [c m3] eqn:F.
  pose proof (wb_est _ _ W p) as EST. fold m in EST.
  destruct (find_cases _ _ _ _ _ F) as [[-> Hin]|(-> & -> & Hn)].
  - exfalso. cbn in Hin. apply in_app_or in Hin. destruct Hin as [H|H].
    + apply (wb_slots _ _ W) in H. fold m in H. lia.
    + destruct R1 as [->|(i & c' & -> & L & _)]; [destruct H|]. destruct H as [H|[]]. injection H as H _. lia.
  - cbn [m_est m_locked m_slots]. rewrite Nat.max_l by lia. rewrite <- app_assoc. reflexivity.
Qed.

Lemma tstep_wb s os e : tok_wb s os -> e <> TClear ->
  (forall h p i, e = Acquire h p (Some i) -> exists b, In (TTok p i b) os) ->
  tok_wb (fst (tstep s e)) (os ++ [snd (tstep s e)]).
Proof.
  intros W NC KN. pose proof (tok_wb_noop _ _ W) as WN.
  destruct (tstep_ok s os e (wb_ok _ _ W) NC) as [OK _].
  destruct e as [h p prev|h tok|h|]; [..|congruence].
  - destruct (aget h (t_ctxs s)) as [x|] eqn:G; [cbn [tstep]; rewrite G; exact WN|].
    destruct (acquire_shape s os h p prev W) as (ex & f & pv & E & X1 & X2); auto.
    { intros i ->. apply (KN h p i eq_refl). }
    rewrite E in OK |- *. cbn [fst snd] in *. clear E.
    destruct W as [W0 W1 W2 W3 W4 W5 W6 W7 W8 W9].
    assert (PL : plain (TAcq p (S (t_next s)) prev pv)) by exact I.
    pose proof (W2 p) as EP.
    assert (SL : forall r c, In (r, c) (m_slots (manager s p) ++ ex ++ [(S (t_next s), f)]) ->
              In (r, c) (m_slots (manager s p)) \/ r < m_est (manager s p) \/ (r, c) = (S (t_next s), f)).
    { intros r c H. apply in_app_or in H. destruct H as [H|H]; [auto|]. apply in_snoc in H. destruct H as [H|H]; [|auto].
      destruct X1 as [->|(i & c' & -> & L & _)]; [destruct H|]. destruct H as [H|[]]. injection H as <- <-. auto. }
    constructor; cbn [t_ctxs t_next t_cells t_fresh].
    + exact OK.
    + intros q r c. rewrite manager_set. destruct (q =? p); [|apply W1]. cbn. intros H.
      destruct (SL _ _ H) as [Y|[Y|Y]]; [apply W1 in Y; lia|lia|]. injection Y as -> ->. auto.
    + intros q. rewrite manager_set. destruct (q =? p); [cbn; lia|]. pose proof (W2 q). lia.
    + intros q. rewrite manager_set. destruct (q =? p); [|apply W3]. cbn [m_est m_slots]. intros _. rewrite !map_app.
      apply in_or_app. right. apply in_or_app. right. now left.
    + intros q. rewrite manager_set. destruct (q =? p); [|apply W4]. cbn [m_slots]. rewrite app_assoc, map_app. cbn.
      apply NoDup_app_one.
      * rewrite map_app. destruct X1 as [->|(i & c' & -> & L & NI)]; [cbn; rewrite app_nil_r; apply W4|].
        cbn. apply NoDup_app_one; auto.
      * intros H. apply in_map_iff in H. destruct H as ([r c] & Hr & H). cbn in Hr. subst r.
        apply in_app_or in H. destruct H as [H|H]; [apply W1 in H; lia|].
        destruct X1 as [->|(i & c' & -> & L & _)]; [destruct H|]. destruct H as [H|[]]. injection H as H _. lia.
    + intros q e. rewrite manager_set. destruct (q =? p); [|apply W5]. cbn. intros [<-|H]; [lia|]. apply W5 in H. lia.
    + intros q. rewrite manager_set. destruct (q =? p) eqn:E.
      * apply Nat.eqb_eq in E. subst q. cbn. right. exists prev, pv. apply in_or_app. right. now left.
      * destruct (W6 q) as [H|(a & b & H)]; [now left|right]. exists a, b. apply in_or_app. now left.
    + intros q i b H. apply (plain_in _ _ _ _ _ PL) in H. rewrite manager_set.
      pose proof (W7 _ _ _ H). destruct (q =? p) eqn:E; [|auto]. apply Nat.eqb_eq in E. subst q. cbn. lia.
    + intros h' x. rewrite aget_aset. destruct (h' =? h).
      * intros H. injection H as <-. cbn [x_id x_cell x_path x_est]. rewrite manager_set, Nat.eqb_refl. cbn [m_slots].
        split; [|lia]. apply in_or_app. right. apply in_or_app. right. now left.
      * intros H. rewrite manager_set. destruct (W8 _ _ H) as [A B]. split; auto.
        destruct (x_path x =? p) eqn:E; auto. apply Nat.eqb_eq in E. rewrite E in A. cbn. apply in_or_app. now left.
    + intros q c b. rewrite manager_set. destruct (q =? p) eqn:E.
      * apply Nat.eqb_eq in E. subst q. cbn [m_est]. intros _ H. apply (plain_in _ _ _ _ _ PL) in H. apply W7 in H. lia.
      * intros H H'. apply (plain_in _ _ _ _ _ PL) in H'. apply (W9 q); auto.
  - cbn [tstep] in *. destruct (aget h (t_ctxs s)) as [[p est pv c id [|]]|] eqn:G; [exact WN| |exact WN].
    destruct (t_cells s c) as [b|] eqn:C.
    { exfalso. destruct (tstep_ok s os (Finish h tok) (wb_ok _ _ W) NC) as (_ & X & _). cbn in X. rewrite G, C in X. apply X. reflexivity. }
    cbn [fst snd] in *. destruct W as [W0 W1 W2 W3 W4 W5 W6 W7 W8 W9].
    destruct (W8 _ _ G) as [CI CE]. cbn in CI, CE.
    constructor; cbn [t_ctxs t_next t_cells t_fresh]; auto.
    + intros q. destruct (W6 q) as [H|(a & b & H)]; [now left|right]. exists a, b. apply in_or_app. now left.
    + intros q i b H. apply in_snoc in H. destruct H as [H|H]; [exact (W7 _ _ _ H)|].
      injection H as -> -> ->. apply W1 in CI. change (manager _ p) with (manager s p). lia.
    + intros h' x. rewrite aget_aset. destruct (h' =? h); [|apply W8]. intros H. injection H as <-. cbn. split; auto.
    + intros q c' b H H'. change (manager _ q) with (manager s q) in *. apply in_snoc in H'. destruct H' as [H'|H'].
      * pose proof (W9 _ _ _ H H') as X. rewrite upd_neq; auto. intros ->. congruence.
      * injection H' as -> E ->. rewrite E in H.
        rewrite (nodup_fst _ _ _ _ (W4 p) H CI). apply upd_eq.
  - cbn [tstep] in *. destruct (aget h (t_ctxs s)) as [x|] eqn:G; [|exact WN].
    destruct (aget (x_path x) (t_mgrs s)) as [m|] eqn:M.
    2:{ exfalso. destruct (wb_ctx _ _ W _ _ G) as [A _]. unfold manager in A. rewrite M in A. destruct A. }
    assert (MM : manager s (x_path x) = m) by (unfold manager; now rewrite M).
    destruct (unlock m (x_est x)) as [[m1 g]|] eqn:U.
    2:{ exfalso. destruct (tstep_ok s os (Drop h) (wb_ok _ _ W) NC) as (_ & X & _). cbn in X. rewrite G, M, U in X. apply X. reflexivity. }
    destruct (unlock_cases _ _ _ _ U) as (U1 & U2 & U3).
    set (m2 := match g with Some r => gc m1 r | None => m1 end) in *. cbn [fst snd] in *.
    destruct W as [W0 W1 W2 W3 W4 W5 W6 W7 W8 W9].
    assert (L2 : m_locked m2 = remove1 (x_est x) (m_locked m)) by (unfold m2; subst m1; destruct g; reflexivity).
    assert (E2 : m_est m2 = m_est m) by (unfold m2; subst m1; destruct g; reflexivity).
    assert (S2 : exists th, m_slots m2 = filter (fun y => th <=? fst y) (m_slots m) /\
              th <= m_est m /\ (forall e, In e (remove1 (x_est x) (m_locked m)) -> th <= e)).
    { destruct U3 as [->|(g' & -> & Hn & U3)].
      - exists 0. split; [|split; [lia|intros; lia]]. unfold m2. subst m1. cbn. symmetry.
        clear. induction (m_slots m) as [|a l IH]; cbn; [auto|now rewrite IH].
      - exists g'. unfold m2. subst m1. cbn. split; auto. destruct U3 as [[A B]|[A B]].
        + split; auto. apply remove1_in in A. rewrite <- MM in *. now apply W5.
        + rewrite A. split; [|cbn; tauto]. apply in_map_iff in B. destruct B as ([r c] & <- & B).
          rewrite <- MM in *. now apply (W1 _ _ _ B). }
    destruct S2 as (th & S2 & T1 & T2).
    assert (SUB : forall j q', aget j (adel h (t_ctxs s)) = Some q' -> j <> h /\ aget j (t_ctxs s) = Some q').
    { intros j q'. rewrite aget_adel. destruct (j =? h) eqn:E; [discriminate|]. apply Nat.eqb_neq in E. auto. }
    assert (NF : forall l : list (nat * nat), NoDup (map fst l) -> NoDup (map fst (filter (fun y => th <=? fst y) l))).
    { clear. induction l as [|a l IH]; cbn; auto. intros N. inversion N as [|? ? N1 N2]. subst.
      destruct (th <=? fst a); cbn; auto. constructor; auto. intros H. apply N1.
      apply in_map_iff in H. destruct H as (y & <- & H). apply filter_In in H. apply in_map. tauto. }
    constructor; cbn [t_ctxs t_next t_cells t_fresh].
    + exact OK.
    + intros q r c. rewrite manager_set. destruct (q =? x_path x); [|apply W1]. rewrite S2, E2. intros H.
      apply filter_In in H. rewrite <- MM in *. now apply (W1 _ _ c).
    + intros q. rewrite manager_set. destruct (q =? x_path x); [|apply W2]. rewrite E2, <- MM. apply W2.
    + intros q. rewrite manager_set. destruct (q =? x_path x); [|apply W3]. rewrite E2, S2. intros H.
      rewrite <- MM in *. apply W3 in H. apply in_map_iff in H. destruct H as (y & Hy & H).
      apply in_map_iff. exists y. split; auto. apply filter_In. split; auto. apply Nat.leb_le. lia.
    + intros q. rewrite manager_set. destruct (q =? x_path x); [|apply W4]. rewrite S2. apply NF. rewrite <- MM. apply W4.
    + intros q e. rewrite manager_set. destruct (q =? x_path x); [|apply W5]. rewrite L2, E2. intros H.
      apply remove1_in in H. rewrite <- MM in *. now apply W5.
    + intros q. rewrite manager_set. destruct (q =? x_path x) eqn:E.
      * apply Nat.eqb_eq in E. subst q. rewrite E2, <- MM. destruct (W6 (x_path x)) as [H|(a & b & H)]; [now left|right].
        exists a, b. apply in_or_app. now left.
      * destruct (W6 q) as [H|(a & b & H)]; [now left|right]. exists a, b. apply in_or_app. now left.
    + intros q i b H. apply plain_in in H; [|exact I]. rewrite manager_set. destruct (q =? x_path x) eqn:E; [|exact (W7 _ _ _ H)].
      apply Nat.eqb_eq in E. subst q. rewrite E2, <- MM. apply (W7 _ _ _ H).
    + intros h' y H. destruct (SUB _ _ H) as [NH H']. destruct (W8 _ _ H') as [A B]. split; auto.
      rewrite manager_set. destruct (x_path y =? x_path x) eqn:E; [|exact A].
      apply Nat.eqb_eq in E. rewrite S2. apply filter_In. rewrite E, MM in A. split; auto. cbn.
      apply Nat.leb_le. assert (X : In (x_est y) (remove1 (x_est x) (m_locked m))).
      { apply (count_occ_In Nat.eq_dec).
        pose proof (ko_count _ _ OK (x_path x) (x_est y)) as CO. cbn [t_ctxs] in CO. rewrite manager_set, Nat.eqb_refl, L2 in CO.
        rewrite CO. pose proof (ko_nodup _ _ OK) as ND. cbn in ND.
        rewrite (wcount_del _ _ _ _ ND H). unfold on at 1. rewrite E, !Nat.eqb_refl. cbn. lia. }
      apply T2 in X. lia.
    + intros q c b. rewrite manager_set. destruct (q =? x_path x) eqn:E.
      * apply Nat.eqb_eq in E. subst q. rewrite E2, S2. intros H H'. apply plain_in in H'; [|exact I].
        apply filter_In in H. rewrite <- MM in *. apply (W9 (x_path x)); tauto.
      * intros H H'. apply plain_in in H'; [|exact I]. apply (W9 q); auto.
Qed.

Lemma trun_app s a b : trun s (a ++ b) = let (s1, o1) := trun s a in let (s2, o2) := trun s1 b in (s2, o1 ++ o2).
Proof.
  revert s. induction a as [|e a IH]; cbn; intros s.
  - destruct (trun s b); reflexivity.
  - destruct (tstep s e) as [s1 o]. rewrite IH. destruct (trun s1 a) as [s2 o1].
    destruct (trun s2 b); reflexivity.
Qed.
Lemma trun_ok es : forall s os, tok_ok s os -> ~ In TClear es ->
  tok_ok (fst (trun s es)) (os ++ snd (trun s es)) /\ ~ In TPanic (snd (trun s es)) /\
  (forall pre o post, snd (trun s es) = pre ++ o :: post -> good_base (os ++ pre) o).
Proof.
  induction es as [|e es IH]; cbn; intros s os T N.
  - rewrite app_nil_r. split; auto. split; auto. intros [|? ?] o post H; discriminate.
  - assert (NC : e <> TClear) by (intros ->; apply N; now left).
    destruct (tstep_ok s os e T NC) as (T1 & P1 & B1). destruct (tstep s e) as [s1 o1]. cbn in T1, P1, B1.
    specialize (IH s1 (os ++ [o1]) T1 (fun H => N (or_intror H))). destruct (trun s1 es) as [s2 o2]. cbn in *.
    rewrite <- app_assoc in IH. cbn in IH. destruct IH as (A & B & C). split; auto. split; [intros [H|H]; auto|].
    intros [|x pre] o post H; injection H as <- H.
    + rewrite app_nil_r. exact B1.
    + specialize (C _ _ _ H). rewrite <- app_assoc in C. exact C.
Qed.
Lemma trun_wb es : ~ In TClear es -> known_ids es -> tok_wb (fst (trun tst0 es)) (snd (trun tst0 es)).
Proof.
  induction es as [|e es IH] using rev_ind; intros N K; [apply tok_wb_0|].
  assert (N' : ~ In TClear es) by (intros H; apply N; apply in_or_app; now left).
  assert (NC : e <> TClear) by (intros ->; apply N; apply in_or_app; right; now left).
  assert (K' : known_ids es).
  { intros pre post h p i ->. apply (K pre (post ++ [e]) h p i). now rewrite <- app_assoc. }
  specialize (IH N' K'). pose proof (K es [] ) as KE. rewrite trun_app.
  destruct (trun tst0 es) as [s os]. cbn in *.
  pose proof (tstep_wb s os e IH NC) as X. destruct (tstep s e) as [s1 o]. cbn in *. apply X.
  intros h p i ->. apply (KE h p i). reflexivity.
Qed.
Lemma latest_usable es s os h p i b : trun tst0 es = (s, os) -> ~ In TClear es -> known_ids es ->
  In (TTok p i b) os -> (forall id a a', In (TAcq p id a a') os -> id <= i) -> aget h (t_ctxs s) = None ->
  exists id, snd (tstep s (Acquire h p (Some i))) = TAcq p id (Some i) (Some b).
Proof.
  intros R N K HT HL G. pose proof (trun_wb es N K) as W. rewrite R in W. cbn in W.
  pose proof (wb_tok _ _ W _ _ _ HT) as [A1 A2].
  assert (EQ : m_est (manager s p) = i).
  { destruct (wb_acq _ _ W p) as [H|(a & a' & H)]; [lia|]. apply HL in H. lia. }
  assert (TOP : In i (map fst (m_slots (manager s p)))) by (rewrite <- EQ; apply (wb_top _ _ W); lia).
  apply in_map_iff in TOP. destruct TOP as ([r c] & Hr & TOP). cbn in Hr. subst r.
  destruct (acquire_shape s os h p (Some i) W) as (ex & f & pv & E & _ & X); auto.
  { intros i' Hi. injection Hi as <-. eauto. }
  rewrite E. cbn. exists (S (t_next s)). rewrite (X i b c eq_refl TOP); auto.
  apply (wb_cell _ _ W p); rewrite EQ; auto.
Qed.

(** * C36: nothing but the latest slot survives the last release *)
Lemma fold_max_ge l a x : x = a \/ In x l -> x <= fold_left Nat.max l a.
Proof.
  revert a x. induction l as [|y l IH]; cbn; intros a x H.
  - destruct H as [H|[]]; lia.
  - destruct H as [H|[H|H]].
    + transitivity (Nat.max a y); [lia|]. apply IH. now left.
    + transitivity (Nat.max a y); [lia|]. apply IH. now left.
    + apply IH. now right.
Qed.
Lemma last_release imports s i q r c r' c' : locks_ok s -> a_reqs s = [(i, q)] ->
  has_slot (fst (arun imports s [Release i; Gc (length (a_gcs s))])) r c -> has_slot s r' c' -> r' <= r.
Proof.
  intros L R H H'.
  assert (C : forall e, count_occ Nat.eq_dec (m_locked (a_mgr s)) e = if Nat.eq_dec (q_est q) e then 1 else 0).
  { intros e. rewrite (lo_count _ L), R. reflexivity. }
  assert (LK : remove1 (q_est q) (m_locked (a_mgr s)) = []).
  { destruct (remove1 (q_est q) (m_locked (a_mgr s))) as [|a l] eqn:E; auto. exfalso.
    pose proof (remove1_count (q_est q) a (m_locked (a_mgr s))) as X. rewrite E, (C a) in X. cbn in X.
    destruct (Nat.eq_dec a a); [|congruence]. destruct (Nat.eq_dec (q_est q) a); lia. }
  assert (IN : existsb (fun x => x =? q_est q) (m_locked (a_mgr s)) = true).
  { apply existsb_in, (count_occ_In Nat.eq_dec). rewrite C. destruct (Nat.eq_dec _ _); [lia|congruence]. }
  cbn [arun astep] in H. rewrite R in H. cbn [aget] in H. rewrite Nat.eqb_refl in H.
  unfold unlock in H. rewrite IN, LK in H. cbn in H. unfold has_slot in H'.
  destruct (map fst (m_slots (a_mgr s))) as [|a l] eqn:E.
  - apply (in_map fst) in H'. rewrite E in H'. destruct H'.
  - cbn in H. rewrite nth_error_app2 in H by lia. rewrite Nat.sub_diag in H. cbn in H.
    unfold has_slot in H. cbn in H. apply filter_In in H. destruct H as [_ H]. apply Nat.leb_le in H. cbn in H.
    apply (in_map fst) in H'. rewrite E in H'. cbn in H'.
    transitivity (fold_left Nat.max l a); auto. apply fold_max_ge. destruct H' as [<-|H']; auto.
Qed.
