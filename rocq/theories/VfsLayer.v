(** Lemmas about the layers of the virtual file system in orderly histories. *)
From Coq Require Import List NArith Arith Bool Lia.
From Verif Require Import NumModel MsgModel AssocModel AssocProof VfsModel VfsSpec VfsProof.
Import ListNotations.

Section Layers.
Context (resolve : nat -> option nat).

Record mok (m : maps) : Prop := {
  mo_reg : forall p f, registered m p f -> resolve f = Some p;
  mo_ids : forall f p rv, aget f (m_ids m) = Some (p, rv) -> registered m p f;
  mo_ent : forall f e p, aget f (m_entries m) = Some e -> resolve f = Some p -> registered m p f
}.
Lemma mok_none : mok no_maps.
Proof. constructor; cbn; try discriminate. intros p f (l & H & _). discriminate. Qed.

(** ** Registration *)
Lemma path_insert_ok : forall p f rv m, resolve f = Some p ->
  (forall p f, registered m p f -> resolve f = Some p) ->
  (forall f p rv, aget f (m_ids m) = Some (p, rv) -> registered m p f) ->
  let m' := path_insert p f rv m in
  (forall p f, registered m' p f -> resolve f = Some p) /\
  (forall f p rv, aget f (m_ids m') = Some (p, rv) -> registered m' p f) /\
  registered m' p f /\ (forall q g, registered m q g -> registered m' q g).
Proof.
  intros p f rv m Hf H1 H2. unfold path_insert. destruct (aget f (m_ids m)) as [[q rq]|] eqn:E.
  - pose proof (H2 _ _ _ E) as R. pose proof (H1 _ _ R) as Hq. rewrite Hf in Hq. inversion Hq; subst q.
    rewrite Nat.eqb_refl. auto.
  - cbn zeta. set (l := match aget p (m_paths m) with Some x => x | None => [] end).
    assert (M : forall q g, registered m q g -> registered (mkMaps (m_entries m) (aset p (l ++ [f]) (m_paths m)) (aset f (p, rv) (m_ids m))) q g).
    { intros q g (k & Hk & Hg). unfold registered. cbn. rewrite aget_aset. destruct (Nat.eqb_spec q p) as [->|N].
      - exists (l ++ [f]). split; [reflexivity|]. apply in_or_app. left. unfold l. rewrite Hk. exact Hg.
      - eauto. }
    assert (N : registered (mkMaps (m_entries m) (aset p (l ++ [f]) (m_paths m)) (aset f (p, rv) (m_ids m))) p f).
    { exists (l ++ [f]). cbn. rewrite aget_aset_eq. split; [reflexivity|]. apply in_or_app. right. left. reflexivity. }
    split; [|split; [|split; [exact N|exact M]]].
    + intros q g (k & Hk & Hg). cbn in Hk. rewrite aget_aset in Hk. destruct (Nat.eqb_spec q p) as [->|Nq].
      * inversion Hk; subst k. apply in_app_or in Hg. destruct Hg as [Hg|[<-|[]]]; [|exact Hf].
        apply H1. unfold l in Hg. destruct (aget p (m_paths m)) as [k|] eqn:Ek; [|destruct Hg]. exists k. auto.
      * apply H1. exists k. auto.
    + intros g q rq. cbn. rewrite aget_aset. destruct (Nat.eqb_spec g f) as [->|Ng].
      * intros X. inversion X; subst. exact N.
      * intros X. apply M. eapply H2, X.
Qed.

(** ** Batches *)
Lemma inval_ids_dom : forall l r f e, aget f (m_entries (r_maps (fold_left (fun r f => invalidate_id f r) l r))) = Some e ->
  (exists e0, aget f (m_entries (r_maps r)) = Some e0) \/ In f l.
Proof.
  induction l as [|g l IH]; intros r f e; cbn [fold_left]; [eauto|].
  intros H. apply IH in H. destruct H as [[e0 H]|H]; [|cbn; auto].
  unfold invalidate_id in H. cbn in H. rewrite aget_aset in H. destruct (Nat.eqb_spec f g) as [->|N]; [cbn; auto|eauto].
Qed.
Lemma invalidate_path_mok : forall p r, rwf r -> mok (r_maps r) -> mok (r_maps (invalidate_path p r)).
Proof.
  intros p r W M. pose proof (invalidate_path_ext p r W) as X. constructor.
  - intros q f (l & H1 & H2). rewrite (x_paths _ _ X) in H1. apply (mo_reg _ M). exists l. auto.
  - intros f q rv. rewrite (x_ids _ _ X). intros H. eapply registered_ext; [exact X|]. eapply (mo_ids _ M), H.
  - intros f e q He Hq. eapply registered_ext; [exact X|]. unfold invalidate_path in He.
    destruct (aget p (m_paths (r_maps r))) as [l|] eqn:El; [|eapply (mo_ent _ M); eauto].
    apply inval_ids_dom in He. destruct He as [[e0 He]|Hi]; [eapply (mo_ent _ M); eauto|].
    assert (R : registered (r_maps r) p f) by (exists l; auto).
    pose proof (mo_reg _ M _ _ R) as Hp. rewrite Hq in Hp. inversion Hp; subst. exact R.
Qed.
Lemma inval_paths_mok : forall A (g : A -> nat) l r, rwf r -> mok (r_maps r) ->
  mok (r_maps (fold_left (fun r x => invalidate_path (g x) r) l r)).
Proof.
  intros A g. induction l as [|p l IH]; intros r W M; cbn [fold_left]; [exact M|].
  apply IH; [eapply rext_wf; [exact W|now apply invalidate_path_ext]|now apply invalidate_path_mok].
Qed.
Lemma rstep_mok : forall r o, by_path o -> a_ids (r_am r) = [] -> rwf r -> mok (r_maps r) ->
  mok (r_maps (rstep r o)) /\ a_ids (r_am (rstep r o)) = [].
Proof.
  intros r o B I W M. assert (WV : rwf (set_view r)) by exact W. assert (MV : mok (r_maps (set_view r))) by exact M.
  destruct o; cbn [rstep]; try contradiction.
  - split; [apply (invalidate_path_mok p _ WV MV)|]. cbn. rewrite (x_am _ _ (invalidate_path_ext p _ WV)). exact I.
  - split; [apply (invalidate_path_mok p _ WV MV)|]. cbn. rewrite (x_am _ _ (invalidate_path_ext p _ WV)). exact I.
  - rewrite I. cbn [akeys map fold_left]. split; [|reflexivity].
    apply (inval_paths_mok nat (fun p => p) (akeys (a_shadow (r_am r))) r W M).
  - split; [apply mok_none|exact I].
  - pose proof (inval_paths_ext nat (fun p => p) removes r W) as X. pose proof (rext_wf _ _ W X) as W1.
    pose proof (inval_paths_mok nat (fun p => p) removes r W M) as M1.
    pose proof (inval_paths_ext _ fst inserts _ W1) as Y.
    split; [apply (inval_paths_mok _ fst inserts _ W1 M1)|]. cbn. rewrite (x_am _ _ Y), (x_am _ _ X). exact I.
Qed.

(** The content the layers give a path, if any. *)
Definition lay (am : access) (p : nat) : option fres * option fres := (aget p (a_shadow am), aget p (a_notify am)).

Lemma notify_other : forall p rm ins l, ~ In p rm -> ~ In p (map fst ins) -> aget p (notify rm ins l) = aget p l.
Proof.
  intros p rm ins l H1 H2. unfold notify.
  assert (A : forall l : list (nat * fres), aget p (fold_left (fun l p => adel p l) rm l) = aget p l).
  { clear H2. induction rm as [|q rm IH]; intros k; cbn [fold_left]; [reflexivity|]. cbn in H1.
    rewrite IH by tauto. apply aget_adel_neq. intros ->. tauto. }
  rewrite <- (A l). clear A H1. generalize (fold_left (fun l p => adel p l) rm l). clear l.
  induction ins as [|[q c] ins IH]; intros k; cbn [fold_left]; [reflexivity|]. cbn in H2.
  rewrite IH by tauto. apply aget_aset_neq. intros ->. tauto.
Qed.

(** After a batch, a file known to be at [p] has a new cell unless the layers of [p] are as before. *)
Definition tracked (n : nat) (l0 : option fres * option fres) (p f : nat) (r : rst) : Prop :=
  (registered (r_maps r) p f \/ (m_paths (r_maps r) = [] /\ m_entries (r_maps r) = [])) /\
  (lay (r_am r) p = l0 \/ forall e, aget f (m_entries (r_maps r)) = Some e -> n <= e_cell e) /\ n <= r_ncells r.
Lemma inval_nothing : forall A (g : A -> nat) l r, m_paths (r_maps r) = [] ->
  fold_left (fun r x => invalidate_path (g x) r) l r = r.
Proof.
  intros A g. induction l as [|x l IH]; intros r H; cbn [fold_left]; [reflexivity|].
  assert (E : invalidate_path (g x) r = r) by (unfold invalidate_path; rewrite H; reflexivity).
  rewrite E. now apply IH.
Qed.
Lemma rstep_tracked : forall n l0 p f r o, by_path o -> a_ids (r_am r) = [] -> rwf r -> tracked n l0 p f r ->
  tracked n l0 p f (rstep r o).
Proof.
  intros n l0 p f r o B I W (H1 & H2 & H3).
  pose proof (rstep_grow r o W) as G. pose proof (g_n _ _ G) as Hn.
  (* the general case: a list of paths is invalidated, then the layers of those paths change *)
  assert (K : forall A (g : A -> nat) l r' am, rext r r' ->
     (registered (r_maps r) p f -> In p (map g l) -> forall e, aget f (m_entries (r_maps r')) = Some e -> r_ncells r <= e_cell e) ->
     (m_paths (r_maps r) = [] -> m_entries (r_maps r') = m_entries (r_maps r)) ->
     (~ In p (map g l) -> lay am p = lay (r_am r) p) -> tracked n l0 p f (set_am r' am)).
  { intros A g l r' am X F0 F1 F2. pose proof (x_n _ _ X). split; [|split; [|cbn; lia]].
    - cbn. destruct H1 as [H1|[H1 H1']]; [left; eapply registered_ext; eauto|right].
      rewrite (x_paths _ _ X), (F1 H1). auto.
    - cbn [r_am r_maps set_am]. destruct (in_dec Nat.eq_dec p (map g l)) as [Hi|Hi].
      + right. destruct H1 as [H1|[H1 H1']].
        * intros e He. specialize (F0 H1 Hi e He). lia.
        * rewrite (F1 H1), H1'. discriminate.
      + rewrite (F2 Hi). destruct H2 as [H2|H2]; [auto|right]. eapply fresh_stays; eauto. }
  assert (V : forall r', rext (set_view r) r' -> rext r (mkR (r_maps r') (r_am r') (r_cells r') (r_ncells r') (r_goal r') (r_view r'))).
  { intros r' X. destruct X. constructor; cbn in *; auto. }
  assert (WV : rwf (set_view r)) by exact W.
  assert (VE : forall q, rext r (invalidate_path q (set_view r))).
  { intros q. pose proof (V _ (invalidate_path_ext q _ WV)) as X. destruct (invalidate_path q (set_view r)); exact X. }
  assert (AM : forall q, r_am (invalidate_path q (set_view r)) = r_am r) by (intros q; apply (VE q)).
  assert (LK : forall q (k : list (nat * fres)), p <> q -> True) by auto. clear LK.
  destruct o as [q c|q| | | | |rm ins]; cbn [rstep]; try contradiction.
  - apply (K _ (fun x => x) [q]); [apply VE| | |].
    + cbn. intros R [<-|[]]. apply (invalidate_path_fresh q (set_view r) f WV R).
    + intros E. unfold invalidate_path. cbn [r_maps set_view]. rewrite E. reflexivity.
    + cbn. intros Hq. unfold lay. rewrite !AM. cbn. rewrite aget_aset_neq by (intros ->; tauto). reflexivity.
  - apply (K _ (fun x => x) [q]); [apply VE| | |].
    + cbn. intros R [<-|[]]. apply (invalidate_path_fresh q (set_view r) f WV R).
    + intros E. unfold invalidate_path. cbn [r_maps set_view]. rewrite E. reflexivity.
    + cbn. intros Hq. unfold lay. rewrite !AM. cbn. rewrite aget_adel_neq by (intros ->; tauto). reflexivity.
  - rewrite I. cbn [akeys map fold_left]. pose proof (inval_paths_ext nat (fun p => p) (akeys (a_shadow (r_am r))) r W) as X.
    apply (K _ (fun x => x) (akeys (a_shadow (r_am r)))); [exact X| | |].
    + intros R Hi. apply (inval_paths_fresh nat (fun p => p) _ r f p W Hi R).
    + intros E. rewrite (inval_nothing nat (fun p => p)) by exact E. reflexivity.
    + rewrite map_id. intros Hi. unfold lay. cbn. rewrite (x_am _ _ X). apply aget_none in Hi. rewrite Hi. reflexivity.
  - split; [right; auto|]. split; [right; cbn; discriminate|exact H3].
  - pose proof (inval_paths_ext nat (fun p => p) rm r W) as X. pose proof (rext_wf _ _ W X) as W1.
    pose proof (inval_paths_ext _ fst ins _ W1) as Y. pose proof (rext_trans _ _ _ W X Y) as XY.
    apply (K _ (fun x => x) (rm ++ map fst ins)); [exact XY| | |].
    + rewrite map_id. intros R Hi. apply in_app_or in Hi. destruct Hi as [Hi|Hi].
      * eapply fresh_stays; [exact Y|apply X|]. apply (inval_paths_fresh nat (fun p => p) rm r f p W); [now rewrite map_id|exact R].
      * intros e He. eapply (inval_paths_fresh _ fst ins _ f p W1 Hi) in He; [|eapply registered_ext; eauto].
        pose proof (x_n _ _ X). lia.
    + intros E. rewrite (inval_nothing nat (fun p => p) rm r E), (inval_nothing _ fst ins r E). reflexivity.
    + rewrite map_id. intros Hi. unfold lay. cbn. rewrite (x_am _ _ XY).
      rewrite notify_other; [reflexivity| |]; intros H; apply Hi, in_or_app; auto.
Qed.
Lemma rsteps_tracked : forall ops r n l0 p f, Forall by_path ops -> a_ids (r_am r) = [] -> rwf r -> mok (r_maps r) ->
  tracked n l0 p f r -> tracked n l0 p f (fold_left rstep ops r).
Proof.
  induction ops as [|o ops IH]; intros r n l0 p f B I W M T; cbn [fold_left]; [exact T|].
  inversion B; subst. destruct (rstep_mok r o H1 I W M) as [M1 I1]. apply IH; auto.
  - eapply rgrow_wf; [exact W|]. now apply rstep_grow.
  - now apply rstep_tracked.
Qed.
Lemma rsteps_mok : forall ops r, Forall by_path ops -> a_ids (r_am r) = [] -> rwf r -> mok (r_maps r) ->
  mok (r_maps (fold_left rstep ops r)) /\ a_ids (r_am (fold_left rstep ops r)) = [].
Proof.
  induction ops as [|o ops IH]; intros r B I W M; cbn [fold_left]; [auto|].
  inversion B; subst. destruct (rstep_mok r o H1 I W M) as [M1 I1]. apply IH; auto.
  eapply rgrow_wf; [exact W|]. now apply rstep_grow.
Qed.

(** ** The invariant *)
Definition fits (D : nat -> fres -> Prop) (l : option fres * option fres) (p : nat) (r : fres) : Prop :=
  match fst l with
  | Some c => r = c
  | None => match snd l with Some c => r = c | None => D p r end
  end.
Record J (D : nat -> fres -> Prop) (s : st) : Prop := {
  j_ids : forall i v, s_vfs s i = Some v -> a_ids (v_am v) = [];
  j_am : forall i j v w, s_vfs s i = Some v -> s_vfs s j = Some w -> v_maps v = v_maps w -> v_am v = v_am w;
  j_maps : forall h, mok (s_maps s h);
  j_cell : forall i v f e p' rv r, s_vfs s i = Some v -> aget f (m_entries (s_maps s (v_maps v))) = Some e ->
    c_bytes (s_cells s (e_cell e)) = Some (p', rv, r) ->
    match resolve f with Some p => fits D (lay (v_am v) p) p r | None => r = FErr unresolved end;
  j_share : forall i j v w f e e' p, s_vfs s i = Some v -> s_vfs s j = Some w ->
    aget f (m_entries (s_maps s (v_maps v))) = Some e -> aget f (m_entries (s_maps s (v_maps w))) = Some e' ->
    e_cell e = e_cell e' -> resolve f = Some p -> lay (v_am v) p = lay (v_am w) p
}.
Lemma J_init : forall D disk, J D (init disk).
Proof.
  intros. constructor; cbn.
  - intros i v. destruct (i =? 0); [|discriminate]. intros H. inversion H. reflexivity.
  - intros i j v w. destruct (i =? 0); [|discriminate]. destruct (j =? 0); [|discriminate]. congruence.
  - intros. apply mok_none.
  - discriminate.
  - discriminate.
Qed.
Lemma J_mono : forall (D D' : nat -> fres -> Prop) s, (forall p r, D p r -> D' p r) -> J D s -> J D' s.
Proof.
  intros D D' s H []. constructor; auto. intros i v f e p' rv r H1 H2 H3.
  specialize (j_cell0 i v f e p' rv r H1 H2 H3). destruct (resolve f) as [p|]; [|exact j_cell0].
  unfold fits in *. destruct (fst _); [auto|]. destruct (snd _); auto.
Qed.
(** Only the bytes of the cells matter. *)
Lemma J_bytes : forall D s s', J D s -> s_vfs s' = s_vfs s -> s_maps s' = s_maps s ->
  (forall c, c_bytes (s_cells s' c) = c_bytes (s_cells s c)) -> J D s'.
Proof.
  intros D s s' [] E1 E2 E3. destruct s, s'. cbn in *. subst. constructor; cbn; auto.
  intros i v f e p' rv r H1 H2. rewrite E3. exact (j_cell0 i v f e p' rv r H1 H2).
Qed.

Lemma J_read : forall D v i f s s1 r, wf s -> own s -> J D s -> (forall p, D p (s_disk s p)) ->
  s_vfs s i = Some v -> read resolve v f s = (s1, r) -> J D s1.
Proof.
  intros D v i f s s1 r W O Jn HD Hi Hr. pose proof (w_vfs _ W i v Hi) as [_ Hh].
  destruct (read_ok _ _ _ _ _ _ W Hh Hr) as (W1 & G1 & (V1 & _) & _). revert Hr.
  unfold read, slot. destruct (aget f (m_entries (s_maps s (v_maps v)))) as [e0|] eqn:E.
  - (* existing entry *)
    unfold read_content. destruct (c_bytes (s_cells s (e_cell e0))) as [[[p0 rv0] r0]|] eqn:Eb.
    { intros H. inversion H; subst. exact Jn. }
    unfold content. rewrite (j_ids _ _ Jn i v Hi). cbn [aget].
    assert (UN : forall h g e, aget g (m_entries (s_maps s h)) = Some e -> e_cell e = e_cell e0 -> g = f).
    { intros h g e He Hc. eapply (o_uniq _ O (e_cell e0)); left; eauto. }
    destruct (resolve f) as [p|] eqn:Ef; intros H; inversion H; subst; clear H.
    + pose proof (path_insert_ok p f (v_rev v) (s_maps s (v_maps v)) Ef (mo_reg _ (j_maps _ _ Jn _)) (mo_ids _ (j_maps _ _ Jn _))) as (P1 & P2 & P3 & P4).
      assert (EN : forall h, m_entries (upd (s_maps s) (v_maps v) (path_insert p f (v_rev v) (s_maps s (v_maps v))) h) = m_entries (s_maps s h)).
      { intros h. unfold upd. destruct (Nat.eqb_spec h (v_maps v)) as [->|N]; [|reflexivity]. apply path_insert_entries. }
      constructor; cbn.
      * apply Jn.
      * apply Jn.
      * intros h. unfold upd. destruct (Nat.eqb_spec h (v_maps v)) as [->|N]; [|apply Jn].
        constructor; auto. intros g e q. rewrite path_insert_entries. intros He Hq. apply P4. eapply (mo_ent _ (j_maps _ _ Jn _)); eauto.
      * intros j w g e p' rv x Hj. rewrite EN. intros He. unfold upd at 1. destruct (Nat.eqb_spec (e_cell e) (e_cell e0)) as [Ec|N].
        -- assert (g = f) as -> by (eapply UN; eauto). rewrite Ef. cbn. intros X. inversion X.
           rewrite <- (j_share _ _ Jn i j v w f e0 e p Hi Hj E He ltac:(auto) Ef).
           unfold path_content, fits, lay. cbn. destruct (aget p (a_shadow (v_am v))); [reflexivity|].
           destruct (aget p (a_notify (v_am v))); [reflexivity|apply HD].
        -- eapply (j_cell _ _ Jn); eauto.
      * intros j k w x g e e' q Hj Hk. rewrite !EN. eapply (j_share _ _ Jn); eauto.
    + constructor; cbn; try apply Jn.
      intros j w g e p' rv x Hj He. unfold upd. destruct (Nat.eqb_spec (e_cell e) (e_cell e0)) as [Ec|N].
      * assert (g = f) as -> by (eapply UN; eauto). rewrite Ef. cbn. congruence.
      * eapply (j_cell _ _ Jn); eauto.
  - (* new entry *)
    set (c := s_ncells s). unfold read_content. cbn [s_cells]. rewrite upd_eq. cbn [c_bytes fresh].
    unfold content. rewrite (j_ids _ _ Jn i v Hi). cbn [aget s_disk s_maps].
    assert (OLD : forall h g e, aget g (m_entries (s_maps s h)) = Some e -> e_cell e <> c).
    { intros h g e He. apply (w_cell _ W) in He. unfold c. lia. }
    (* entries of the new maps *)
    set (m1 := mkMaps (aset f (mkEntry 0 c) (m_entries (s_maps s (v_maps v)))) (m_paths (s_maps s (v_maps v))) (m_ids (s_maps s (v_maps v)))).
    assert (EN : forall h g e m2, m_entries m2 = m_entries m1 -> aget g (m_entries (upd (s_maps s) (v_maps v) m2 h)) = Some e ->
       (e_cell e <> c /\ aget g (m_entries (s_maps s h)) = Some e) \/ (h = v_maps v /\ g = f /\ e_cell e = c)).
    { intros h g e m2 Em. unfold upd. destruct (Nat.eqb_spec h (v_maps v)) as [->|N].
      - rewrite Em. unfold m1. cbn. rewrite aget_aset. destruct (Nat.eqb_spec g f) as [->|Ng].
        + intros X. inversion X. cbn. auto.
        + intros X. left. split; [eapply OLD, X|exact X].
      - intros X. left. split; [eapply OLD, X|exact X]. }
    (* the common part *)
    assert (K : forall s', s_vfs s' = s_vfs s -> forall m2, m_entries m2 = m_entries m1 -> mok m2 ->
       (forall h, s_maps s' h = upd (s_maps s) (v_maps v) m2 h) ->
       (forall c', c' <> c -> s_cells s' c' = s_cells s c') ->
       (forall p' rv x, c_bytes (s_cells s' c) = Some (p', rv, x) ->
          match resolve f with Some p => fits D (lay (v_am v) p) p x | None => x = FErr unresolved end) -> J D s').
    { intros s' A1 m2 A2 A3 A4 A5 A6. constructor; rewrite ?A1.
      - apply Jn.
      - apply Jn.
      - intros h. rewrite A4. unfold upd. destruct (h =? v_maps v); [exact A3|apply Jn].
      - intros j w g e p' rv x Hj. rewrite A4. intros He. destruct (EN _ _ _ _ A2 He) as [[N He']|(Eh & -> & Ec)].
        + rewrite (A5 _ N). eapply (j_cell _ _ Jn); eauto.
        + rewrite Ec. rewrite (j_am _ _ Jn j i w v Hj Hi Eh). apply A6.
      - intros j k w x g e e' q Hj Hk. rewrite !A4. intros He He' Ec Hq.
        destruct (EN _ _ _ _ A2 He) as [[N He1]|(Eh & -> & Ec1)]; destruct (EN _ _ _ _ A2 He') as [[N' He1']|(Eh' & Eg & Ec1')].
        + eapply (j_share _ _ Jn); eauto.
        + congruence.
        + congruence.
        + rewrite (j_am _ _ Jn j k w x Hj Hk) by congruence. reflexivity. }
    destruct (resolve f) as [p|] eqn:Ef; intros H; inversion H; subst; clear H.
    + assert (R1 : forall p f, registered m1 p f -> resolve f = Some p) by (apply (mo_reg _ (j_maps _ _ Jn (v_maps v)))).
      assert (R2 : forall f p rv, aget f (m_ids m1) = Some (p, rv) -> registered m1 p f) by (apply (mo_ids _ (j_maps _ _ Jn (v_maps v)))).
      pose proof (path_insert_ok p f (v_rev v) m1 Ef R1 R2) as (P1 & P2 & P3 & P4).
      apply (K _ V1 (path_insert p f (v_rev v) m1)).
      * apply path_insert_entries.
      * constructor; auto. intros g e q. rewrite path_insert_entries. unfold m1 at 1. cbn [m_entries]. rewrite aget_aset.
        destruct (Nat.eqb_spec g f) as [->|Ng]; [intros _ Hq; assert (q = p) as -> by congruence; exact P3|].
        intros He Hq. apply P4. apply (mo_ent _ (j_maps _ _ Jn (v_maps v)) g e q He Hq).
      * intros h. cbn. unfold upd. rewrite Nat.eqb_refl. destruct (h =? v_maps v); reflexivity.
      * intros c' N. cbn. rewrite !upd_neq by (exact N). reflexivity.
      * cbn. rewrite upd_eq. cbn. intros p' rv x X. inversion X.
        unfold path_content, fits, lay. cbn. destruct (aget p (a_shadow (v_am v))); [reflexivity|].
        destruct (aget p (a_notify (v_am v))); [reflexivity|apply HD].
    + apply (K _ V1 m1).
      * reflexivity.
      * constructor; [apply (mo_reg _ (j_maps _ _ Jn (v_maps v)))|apply (mo_ids _ (j_maps _ _ Jn (v_maps v)))|].
        intros g e q. unfold m1 at 1. cbn [m_entries]. rewrite aget_aset.
        destruct (Nat.eqb_spec g f) as [->|Ng]; [congruence|]. intros He Hq. apply (mo_ent _ (j_maps _ _ Jn (v_maps v)) g e q He Hq).
      * intros h. reflexivity.
      * intros c' N. cbn. rewrite !upd_neq by (exact N). reflexivity.
      * cbn. rewrite upd_eq. cbn. congruence.
Qed.

Lemma J_source : forall D v i f s s1 r, wf s -> own s -> J D s -> (forall p, D p (s_disk s p)) ->
  s_vfs s i = Some v -> source resolve v f s = (s1, r) -> J D s1.
Proof.
  intros D v i f s s1 r W O Jn HD Hi Hr.
  destruct (read resolve v f s) as [s2 b] eqn:R. pose proof (J_read D v i f s s2 b W O Jn HD Hi R) as J2.
  unfold source in Hr. unfold read in R. destruct (slot v f s) as [s0 c] eqn:Es.
  destruct (c_source (s_cells s0 c)) as [q|] eqn:Eq.
  - inversion Hr; subst. unfold slot in Es. destruct (aget f (m_entries (s_maps s (v_maps v)))) as [e|] eqn:E.
    + inversion Es; subst. exact Jn.
    + inversion Es; subst. cbn in Eq. rewrite upd_eq in Eq. discriminate.
  - rewrite R in Hr. destruct b as [b|err].
    + destruct (parse (v_rev v) f b (s_cache s2)) as [cache q]. inversion Hr; subst.
      apply (J_bytes D s2); auto. intros c'. cbn. unfold upd. destruct (Nat.eqb_spec c' c) as [->|N]; reflexivity.
    + inversion Hr; subst.
      apply (J_bytes D s2); auto. intros c'. cbn. unfold upd. destruct (Nat.eqb_spec c' c) as [->|N]; reflexivity.
Qed.

Lemma J_revise : forall D i v l s, wf s -> own s -> J D s -> s_vfs s i = Some v -> Forall by_path l ->
  (r_view (fold_left rstep l (revise_begin v s)) = true \/ r_am (fold_left rstep l (revise_begin v s)) = v_am v) ->
  J D (revise i v l s).
Proof.
  intros D i v l s W O Jn Hi B Hv. unfold revise.
  pose proof (revise_begin_wf v s W) as W0.
  pose proof (rsteps_grow l _ W0) as G.
  assert (I0 : a_ids (r_am (revise_begin v s)) = []) by (apply (j_ids _ _ Jn i v Hi)).
  assert (M0 : mok (r_maps (revise_begin v s))) by (apply (j_maps _ _ Jn)).
  destruct (rsteps_mok l _ B I0 W0 M0) as [M1 I1].
  assert (T : forall f p, registered (s_maps s (v_maps v)) p f ->
     tracked (s_ncells s) (lay (v_am v) p) p f (fold_left rstep l (revise_begin v s))).
  { intros f p R. apply rsteps_tracked; auto. split; [left; exact R|]. split; [left; reflexivity|cbn; lia]. }
  set (r := fold_left rstep l (revise_begin v s)) in *. clearbody r. unfold revise_end.
  pose proof (w_vfs _ W i v Hi) as [Hv1 Hv2].
  assert (CO : forall c, c < s_ncells s -> r_cells r c = s_cells s c) by (intros c L; apply (g_old _ _ G); exact L).
  destruct (r_view r) eqn:Ev.
  - (* a new view *)
    assert (KEEP : forall f e p, aget f (m_entries (r_maps r)) = Some e -> e_cell e < s_ncells s -> resolve f = Some p ->
       aget f (m_entries (s_maps s (v_maps v))) = Some e /\ lay (r_am r) p = lay (v_am v) p).
    { intros f e p He L Hp. destruct (g_entry _ _ G f e He) as [H1|[H1 _]]; [|cbn in H1; lia]. split; [exact H1|].
      pose proof (mo_ent _ M0 f e p H1 Hp) as R. destruct (T f p R) as (_ & [H2|H2] & _); [exact H2|].
      specialize (H2 e He). lia. }
    constructor; cbn.
    + intros j w. unfold upd. destruct (j =? i); [|apply (j_ids _ _ Jn)]. intros X. inversion X. exact I1.
    + intros j k w x. unfold upd. destruct (Nat.eqb_spec j i) as [->|Nj]; destruct (Nat.eqb_spec k i) as [->|Nk].
      * congruence.
      * intros X Y. inversion X; subst. cbn. intros E. apply (w_vfs _ W) in Y. lia.
      * intros Y X. inversion X; subst. cbn. intros E. apply (w_vfs _ W) in Y. lia.
      * apply (j_am _ _ Jn).
    + intros h. unfold upd. destruct (h =? s_nmaps s); [exact M1|apply Jn].
    + intros j w f e p' rv x. unfold upd. destruct (Nat.eqb_spec j i) as [->|Nj].
      * intros X. inversion X; subst. cbn. rewrite Nat.eqb_refl. intros He Hb.
        destruct (Nat.lt_ge_cases (e_cell e) (s_ncells s)) as [L|L].
        -- rewrite (CO _ L) in Hb. destruct (resolve f) as [p|] eqn:Ef.
           ++ destruct (KEEP f e p He L Ef) as [H1 H2]. pose proof (j_cell _ _ Jn i v f e p' rv x Hi H1 Hb) as H3.
              rewrite Ef in H3. rewrite H2. exact H3.
           ++ destruct (g_entry _ _ G f e He) as [H1|[H1 _]]; [|cbn in H1; lia].
              pose proof (j_cell _ _ Jn i v f e p' rv x Hi H1 Hb) as H3. rewrite Ef in H3. exact H3.
        -- pose proof (rgrow_wf _ _ W0 G f e He) as L2.
           rewrite (g_fresh _ _ G) in Hb; [discriminate|exact L|exact L2].
      * intros Hj He Hb. pose proof (w_vfs _ W j w Hj) as [_ Hw].
        destruct (Nat.eqb_spec (v_maps w) (s_nmaps s)); [lia|].
        rewrite CO in Hb by (eapply (w_cell _ W), He). exact (j_cell _ _ Jn j w f e p' rv x Hj He Hb).
    + assert (SH : forall k w f e e' p, k <> i -> s_vfs s k = Some w -> aget f (m_entries (r_maps r)) = Some e ->
        aget f (m_entries (s_maps s (v_maps w))) = Some e' -> e_cell e = e_cell e' -> resolve f = Some p ->
        lay (r_am r) p = lay (v_am w) p).
      { intros k w f e e' p Nk Hk He He' Ec Hp. pose proof (w_cell _ W _ _ _ He') as L.
        destruct (KEEP f e p He ltac:(lia) Hp) as [H1 ->]. eapply (j_share _ _ Jn i k v w f e e' p); eauto. }
      intros j k w x f e e' p. unfold upd. destruct (Nat.eqb_spec j i) as [->|Nj]; destruct (Nat.eqb_spec k i) as [->|Nk].
      * intros X Y. inversion X; inversion Y; subst. reflexivity.
      * intros X Y. inversion X; subst. cbn. rewrite Nat.eqb_refl. pose proof (w_vfs _ W _ _ Y) as [_ Hw].
        destruct (Nat.eqb_spec (v_maps x) (s_nmaps s)); [lia|]. eauto.
      * intros Y X. inversion X; subst. cbn. rewrite Nat.eqb_refl. pose proof (w_vfs _ W _ _ Y) as [_ Hw].
        destruct (Nat.eqb_spec (v_maps w) (s_nmaps s)); [lia|]. intros He He' Ec Hp. symmetry.
        eapply (SH j w f e' e p); eauto.
      * intros Hj Hk. pose proof (w_vfs _ W _ _ Hj) as [_ Hw]. pose proof (w_vfs _ W _ _ Hk) as [_ Hx].
        destruct (Nat.eqb_spec (v_maps w) (s_nmaps s)); [lia|]. destruct (Nat.eqb_spec (v_maps x) (s_nmaps s)); [lia|].
        eapply (j_share _ _ Jn); eauto.
  - (* the view is unchanged, and so are the layers *)
    destruct Hv as [Hv|Hv]; [discriminate|].
    assert (E : forall j w, upd (s_vfs s) i (Some (mkVfs (v_maps v) (v_rev v) (r_am r))) j = Some w -> s_vfs s j = Some w).
    { intros j w. unfold upd. destruct (Nat.eqb_spec j i) as [->|N]; [|auto]. intros X. inversion X. rewrite Hi, Hv. destruct v; reflexivity. }
    constructor; cbn.
    + intros j w Hj. apply E in Hj. eapply (j_ids _ _ Jn); eauto.
    + intros j k w x Hj Hk. apply E in Hj. apply E in Hk. eapply (j_am _ _ Jn); eauto.
    + apply Jn.
    + intros j w f e p' rv x Hj He Hb. apply E in Hj. rewrite CO in Hb by (eapply (w_cell _ W), He).
      exact (j_cell _ _ Jn j w f e p' rv x Hj He Hb).
    + intros j k w x f e e' p Hj Hk. apply E in Hj. apply E in Hk. eapply (j_share _ _ Jn); eauto.
Qed.

(** One step of an orderly history. *)
Definition orderly1 (s : st) (o : op) : Prop :=
  match o with
  | BeginRead _ _ _ | EndRead _ => False
  | Revise i l => Forall by_path l /\
      match s_vfs s i with
      | Some v => let q := fold_left rstep l (revise_begin v s) in r_view q = true \/ r_am q = v_am v
      | None => True
      end
  | _ => True
  end.
Lemma J_step : forall D s o, wf s -> own s -> J D s -> (forall p, D p (s_disk s p)) -> orderly1 s o ->
  J D (fst (step resolve s o)).
Proof.
  intros D s o W O Jn HD Ho. destruct o as [j|j|j f|j f|t j f|t|j l|j n|j n|p c]; cbn [step];
    try contradiction; try (destruct (s_vfs s j) as [u|] eqn:E; [pose proof (proj2 (w_vfs _ W j u E)) as Hh|exact Jn]).
  - cbn [fst]. assert (K : forall i v, upd (s_vfs s) (s_nvfs s) (Some u) i = Some v -> exists i', s_vfs s i' = Some v).
    { intros i v. unfold upd. destruct (i =? s_nvfs s); [|eauto]. intros X. inversion X; subst. eauto. }
    constructor; cbn.
    + intros i v H. apply K in H. destruct H as [i' H]. eapply (j_ids _ _ Jn); eauto.
    + intros i k v w H1 H2. apply K in H1. apply K in H2. destruct H1, H2. eapply (j_am _ _ Jn); eauto.
    + apply Jn.
    + intros i v f e p' rv r H1. apply K in H1. destruct H1 as [i' H1]. apply (j_cell _ _ Jn i' v f e p' rv r H1).
    + intros i k v w f e e' p H1 H2. apply K in H1. apply K in H2. destruct H1, H2. eapply (j_share _ _ Jn); eauto.
  - cbn [fst]. set (x := mkVfs (s_nmaps s) 2 (v_am u)).
    assert (K : forall i v, upd (s_vfs s) (s_nvfs s) (Some x) i = Some v -> v = x \/ exists i', s_vfs s i' = Some v /\ v_maps v < s_nmaps s).
    { intros i v. unfold upd. destruct (i =? s_nvfs s); [intros X; inversion X; auto|]. intros X. right. exists i.
      split; [exact X|]. apply (w_vfs _ W) in X. lia. }
    assert (MX : forall h, h < s_nmaps s -> upd (s_maps s) (s_nmaps s) no_maps h = s_maps s h) by (intros h L; apply upd_neq; lia).
    constructor; cbn.
    + intros i v H. apply K in H. destruct H as [->|[i' [H _]]]; [apply (j_ids _ _ Jn j u E)|]. eapply (j_ids _ _ Jn); eauto.
    + intros i k v w H1 H2. apply K in H1. apply K in H2.
      destruct H1 as [->|[i' [H1 L1]]]; destruct H2 as [->|[k' [H2 L2]]]; cbn; intros EQ; try lia; try reflexivity.
      eapply (j_am _ _ Jn); eauto.
    + intros h. unfold upd. destruct (h =? s_nmaps s); [apply mok_none|apply Jn].
    + intros i v f e p' rv r H1. apply K in H1. destruct H1 as [->|[i' [H1 L1]]].
      * cbn. rewrite upd_eq. discriminate.
      * rewrite MX by exact L1. apply (j_cell _ _ Jn i' v f e p' rv r H1).
    + intros i k v w f e e' p H1 H2. apply K in H1. apply K in H2.
      destruct H1 as [->|[i' [H1 L1]]]; [cbn; rewrite upd_eq; discriminate|].
      destruct H2 as [->|[k' [H2 L2]]]; [cbn; rewrite upd_eq; discriminate|].
      rewrite !MX by assumption. eapply (j_share _ _ Jn); eauto.
  - destruct (read resolve u f s) as [s' r] eqn:R. cbn. eapply J_read; eauto.
  - destruct (source resolve u f s) as [s' r] eqn:R. cbn. eapply J_source; eauto.
  - cbn [fst]. cbn in Ho. rewrite E in Ho. destruct Ho as [B Hv]. now apply J_revise.
  - cbn [fst]. constructor.
    + apply Jn.
    + apply Jn.
    + intros h. constructor.
      * intros p f (k & H1 & H2). apply (mo_reg _ (j_maps _ _ Jn h)). exists k. split; [|exact H2].
        revert H1. unfold evict, set_maps. cbn [s_maps]. unfold upd. destruct (Nat.eqb_spec h (v_maps u)) as [->|N]; auto.
      * intros f p rv H1. assert (H2 : aget f (m_ids (s_maps s h)) = Some (p, rv)).
        { revert H1. unfold evict, set_maps. cbn [s_maps]. unfold upd. destruct (Nat.eqb_spec h (v_maps u)) as [->|N]; auto. }
        apply (mo_ids _ (j_maps _ _ Jn h)) in H2. destruct H2 as (k & H3 & H4). exists k. split; [|exact H4].
        unfold evict, set_maps. cbn [s_maps]. unfold upd. destruct (Nat.eqb_spec h (v_maps u)) as [->|N]; auto.
      * intros f e p He Hp. apply evict_sub in He. destruct (mo_ent _ (j_maps _ _ Jn h) f e p He Hp) as (k & H3 & H4).
        exists k. split; [|exact H4].
        unfold evict, set_maps. cbn [s_maps]. unfold upd. destruct (Nat.eqb_spec h (v_maps u)) as [->|N]; auto.
    + intros i v f e p' rv r H1 H2. apply evict_sub in H2. apply (j_cell _ _ Jn i v f e p' rv r H1 H2).
    + intros i k v w f e e' p H1 H2 H3 H4. apply evict_sub in H3. apply evict_sub in H4. eapply (j_share _ _ Jn); eauto.
  - cbn [fst]. apply (J_bytes D s); auto.
  - cbn [fst]. apply (J_bytes D s); auto.
Qed.

(** ** What the instances were told *)
Definition tie (s : st) (k : nat -> option told) : Prop :=
  forall i, match s_vfs s i, k i with
  | Some v, Some t => forall p, aget p (a_shadow (v_am v)) = t_editor t p /\ aget p (a_notify (v_am v)) = t_watch t p
  | None, None => True
  | _, _ => False
  end.
Lemma put_eq : forall A (f : nat -> A) k v x, put f k v x = if x =? k then v else f x.
Proof. intros. unfold put. destruct (Nat.eq_dec x k) as [->|N]; [now rewrite Nat.eqb_refl|]. apply Nat.eqb_neq in N. now rewrite N. Qed.
Lemma notify_told : forall rm ins (l : list (nat * fres)) w, (forall p, aget p l = w p) ->
  forall p, aget p (notify rm ins l) =
    fold_left (fun w x => put w (fst x) (Some (snd x))) ins (fold_left (fun w p => put w p None) rm w) p.
Proof.
  intros rm ins. unfold notify.
  induction rm as [|q rm IH]; intros l w H; cbn [fold_left].
  - revert l w H. induction ins as [|[q c] ins IH]; intros l w H; cbn [fold_left]; [exact H|].
    apply IH. intros p. rewrite aget_aset, put_eq. cbn. destruct (p =? q); auto.
  - apply IH. intros p. rewrite aget_adel, put_eq. destruct (p =? q); auto.
Qed.
Lemma rstep_am : forall r o, rwf r -> (forall t, (forall p, aget p (a_shadow (r_am r)) = t_editor t p /\ aget p (a_notify (r_am r)) = t_watch t p) ->
  forall p, aget p (a_shadow (r_am (rstep r o))) = t_editor (tell t o) p /\ aget p (a_notify (r_am (rstep r o))) = t_watch (tell t o) p).
Proof.
  intros r o W t H. assert (WV : rwf (set_view r)) by exact W.
  assert (AM : forall q, r_am (invalidate_path q (set_view r)) = r_am r).
  { intros q. rewrite (x_am _ _ (invalidate_path_ext q _ WV)). reflexivity. }
  destruct o; cbn [rstep tell]; intros x.
  - cbn. rewrite AM, aget_aset, put_eq. destruct (H x) as [H1 H2]. destruct (x =? p); auto.
  - cbn. rewrite AM, aget_adel, put_eq. destruct (H x) as [H1 H2]. destruct (x =? p); auto.
  - apply H.
  - apply H.
  - cbn. split; [reflexivity|]. pose proof (inval_paths_ext nat (fun p => p) (akeys (a_shadow (r_am r))) r W) as X.
    pose proof (inval_ids_ext (akeys (a_ids (r_am r))) _ (rext_wf _ _ W X)) as Y. rewrite (x_am _ _ Y), (x_am _ _ X). apply H.
  - apply H.
  - pose proof (inval_paths_ext nat (fun p => p) removes r W) as X.
    pose proof (inval_paths_ext _ fst inserts _ (rext_wf _ _ W X)) as Y. cbn. rewrite (x_am _ _ Y), (x_am _ _ X).
    split; [apply H|]. apply notify_told. intros q. apply H.
Qed.
Lemma rsteps_am : forall l r t, rwf r -> (forall p, aget p (a_shadow (r_am r)) = t_editor t p /\ aget p (a_notify (r_am r)) = t_watch t p) ->
  forall p, aget p (a_shadow (r_am (fold_left rstep l r))) = t_editor (fold_left tell l t) p /\
            aget p (a_notify (r_am (fold_left rstep l r))) = t_watch (fold_left tell l t) p.
Proof.
  induction l as [|o l IH]; intros r t W H; cbn [fold_left]; [exact H|].
  apply IH; [eapply rgrow_wf; [exact W|now apply rstep_grow]|]. now apply rstep_am.
Qed.

(** Following a history. *)
Lemma step_tie : forall s o k r, wf s -> tie s k -> exists k',
  knowledge (s_nvfs s) k (o :: r) = knowledge (s_nvfs (fst (step resolve s o))) k' r /\ tie (fst (step resolve s o)) k'.
Proof.
  intros s o k r W T.
  assert (ADD : forall j u t x s', s_vfs s j = Some u -> k j = Some t -> v_am x = v_am u -> s_vfs s' = upd (s_vfs s) (s_nvfs s) (Some x) ->
     tie s' (put k (s_nvfs s) (Some t))).
  { intros j u t x s' E Ek Ea Es i. rewrite Es, put_eq. unfold upd. destruct (i =? s_nvfs s); [|apply T].
    rewrite Ea. specialize (T j). rewrite E, Ek in T. exact T. }
  destruct o as [j|j|j f|j f|t j f|t|j l|j n|j n|p c]; cbn [step knowledge];
    try (pose proof (T j) as Tj; destruct (s_vfs s j) as [u|] eqn:E; destruct (k j) as [tj|] eqn:Ek; try contradiction;
         [pose proof (proj2 (w_vfs _ W j u E)) as Hh|eexists; split; [reflexivity|exact T]]).
  - cbn [fst]. eexists. split; [reflexivity|]. eapply (ADD j u tj u); auto.
  - cbn [fst]. eexists. split; [reflexivity|]. apply (ADD j u tj (mkVfs (s_nmaps s) 2 (v_am u))); auto.
  - destruct (read resolve u f s) as [s' b] eqn:R. cbn [fst]. destruct (read_ok _ _ _ _ _ _ W Hh R) as (_ & _ & (V & V2 & _) & _).
    exists k. rewrite V2. split; [reflexivity|]. intros i. rewrite V. apply T.
  - destruct (source resolve u f s) as [s' b] eqn:R. cbn [fst]. destruct (source_ok _ _ _ _ _ _ W Hh R) as (_ & _ & (V & V2 & _) & _).
    exists k. rewrite V2. split; [reflexivity|]. intros i. rewrite V. apply T.
  - destruct (slot u f s) as [s' b] eqn:R. cbn [fst]. destruct (slot_ok _ _ _ _ _ W Hh R) as (_ & _ & (V & V2 & _) & _).
    exists k. cbn. rewrite V2. split; [reflexivity|]. intros i. cbn. rewrite V. apply T.
  - destruct (aget t (s_reads s)) as [[[j f] c]|] eqn:R; [|exists k; auto].
    destruct (s_vfs s j) as [u|] eqn:E; [|exists k; auto]. destruct (read_content resolve u c f s) as [s' b] eqn:Q. cbn [fst].
    assert (C : c < s_ncells s) by (eapply (w_read _ W), R).
    destruct (read_content_ok _ _ _ _ _ _ _ W C Q) as (_ & _ & (V & V2 & _) & _).
    exists k. cbn. rewrite V2. split; [reflexivity|]. intros i. cbn. rewrite V. apply T.
  - cbn [fst]. eexists. split; [reflexivity|]. unfold revise.
    pose proof (rsteps_am l (revise_begin u s) tj (revise_begin_wf u s W) Tj) as H.
    set (q := fold_left rstep l (revise_begin u s)) in *. clearbody q.
    intros i. unfold revise_end. cbn [s_vfs]. rewrite put_eq. unfold upd. destruct (i =? j); [|apply T].
    destruct (r_view q); exact H.
  - cbn [fst]. exists k. auto.
  - cbn [fst]. exists k. auto.
  - cbn [fst]. exists k. auto.
Qed.
Lemma step_disk : forall s o, wf s -> s_disk (fst (step resolve s o)) =
  match o with Disk p c => upd (s_disk s) p c | _ => s_disk s end.
Proof.
  intros s o W. destruct o as [j|j|j f|j f|t j f|t|j l|j n|j n|p c]; cbn [step];
    try (destruct (s_vfs s j) as [u|] eqn:E; [pose proof (proj2 (w_vfs _ W j u E)) as Hh|reflexivity]); try reflexivity.
  - destruct (read resolve u f s) as [s' b] eqn:R. cbn [fst]. destruct (read_ok _ _ _ _ _ _ W Hh R) as (_ & _ & (_&_&_&V&_) & _). exact V.
  - destruct (source resolve u f s) as [s' b] eqn:R. cbn [fst]. destruct (source_ok _ _ _ _ _ _ W Hh R) as (_ & _ & (_&_&_&V&_) & _). exact V.
  - destruct (slot u f s) as [s' b] eqn:R. cbn [fst]. destruct (slot_ok _ _ _ _ _ W Hh R) as (_ & _ & (_&_&_&V&_) & _). exact V.
  - destruct (aget t (s_reads s)) as [[[j f] c]|] eqn:R; [|reflexivity].
    destruct (s_vfs s j) as [u|] eqn:E; [|reflexivity]. destruct (read_content resolve u c f s) as [s' b] eqn:Q. cbn [fst].
    assert (C : c < s_ncells s) by (eapply (w_read _ W), R).
    destruct (read_content_ok _ _ _ _ _ _ _ W C Q) as (_ & _ & (_&_&_&V&_) & _). exact V.
Qed.

Lemma on_disk_ext : forall ops d d', (forall p, d p = d' p) -> forall p c, on_disk d ops p c -> on_disk d' ops p c.
Proof.
  induction ops as [|o ops IH]; intros d d' E p c; cbn [on_disk]; rewrite (E p); [auto|].
  intros [H|H]; [auto|right]. destruct o; try (eapply IH; [|exact H]; auto).
  intros q. rewrite !put_eq. destruct (q =? p0); auto.
Qed.
Lemma on_disk_now : forall ops d p, on_disk d ops p (d p).
Proof. destruct ops; cbn; auto. Qed.
Lemma run_layers : forall ops s k D, wf s -> own s -> J D s -> tie s k -> (forall p, D p (s_disk s p)) ->
  orderly resolve s ops ->
  let s' := fst (run resolve s ops) in
  let D' := fun p c => D p c \/ on_disk (s_disk s) ops p c in
  J D' s' /\ tie s' (knowledge (s_nvfs s) k ops) /\ (forall p, D' p (s_disk s' p)).
Proof.
  induction ops as [|o ops IH]; intros s k D W O Jn T HD Ho.
  - cbn. split; [|split; [exact T|auto]]. eapply J_mono; [|exact Jn]. auto.
  - cbn [orderly] in Ho. destruct Ho as [H1 H2].
    destruct (step_tie s o k ops W T) as (k' & E & T1). rewrite E.
    pose proof (step_wf resolve s o W) as W1. pose proof (step_own resolve s o W O) as O1.
    pose proof (J_step D s o W O Jn HD H1) as J1. pose proof (step_disk s o W) as DS.
    assert (SUB : forall p c, on_disk (s_disk (fst (step resolve s o))) ops p c -> on_disk (s_disk s) (o :: ops) p c).
    { intros p c H. rewrite DS in H. cbn [on_disk]. right. destruct o; auto.
      eapply on_disk_ext; [|exact H]. intros q. rewrite put_eq. reflexivity. }
    cbn [run]. destruct (step resolve s o) as [s1 x]. cbn [fst] in *.
    set (D1 := fun p c => D p c \/ on_disk (s_disk s1) ops p c).
    assert (J1' : J D1 s1) by (eapply J_mono; [|exact J1]; unfold D1; auto).
    assert (HD1 : forall p, D1 p (s_disk s1 p)) by (intros p; right; apply on_disk_now).
    specialize (IH s1 k' D1 W1 O1 J1' T1 HD1 H2). destruct (run resolve s1 ops) as [s2 ys]. cbn [fst] in *.
    destruct IH as (A & B & C). split; [|split; [exact B|]].
    + eapply J_mono; [|exact A]. unfold D1. intros p c [[H|H]|H]; auto.
    + intros p. destruct (C p) as [[H|H]|H]; auto.
Qed.

Lemma layered_reads : forall disk ops i f p t r, orderly resolve (init disk) ops -> resolve f = Some p ->
  knowledge0 ops i = Some t ->
  snd (step resolve (fst (run resolve (init disk) ops)) (Read i f)) = RBytes r ->
  match t_editor t p with
  | Some c => r = c
  | None => match t_watch t p with Some c => r = c | None => on_disk disk ops p r end
  end.
Proof.
  intros disk ops i f p t r Ho Hf Hk Hr.
  set (k := fun i => if Nat.eq_dec i 0 then Some (mkTold (fun _ => None) (fun _ => None)) else None).
  assert (T0 : tie (init disk) k).
  { intros j. unfold k. cbn. destruct (Nat.eq_dec j 0) as [->|N]; [cbn; auto|]. apply Nat.eqb_neq in N. rewrite N. exact I. }
  pose (D := fun p c => disk p = c).
  destruct (run_layers ops (init disk) k D (wf_init disk) (own_init disk) (J_init D disk) T0 (fun p => eq_refl) Ho) as (A & B & C).
  pose proof (run_wf resolve ops _ (wf_init disk)) as W. pose proof (run_own resolve ops _ (wf_init disk) (own_init disk)) as O.
  set (s := fst (run resolve (init disk) ops)) in *. clearbody s.
  change (knowledge (s_nvfs (init disk)) k ops) with (knowledge0 ops) in B.
  pose proof (J_step _ s (Read i f) W O A C I) as J1. pose proof (read_has_read resolve s i f r W Hr) as HR.
  destruct (step_tie s (Read i f) _ [] W B) as (k' & E & T1). cbn [knowledge] in E. subst k'.
  destruct HR as (v & e & p' & rv & Hv & He & Hb).
  pose proof (j_cell _ _ J1 i v f e p' rv r Hv He Hb) as F. rewrite Hf in F.
  specialize (T1 i). rewrite Hv, Hk in T1. destruct (T1 p) as [E1 E2].
  unfold fits, lay in F. cbn [fst snd] in F. rewrite E1, E2 in F.
  destruct (t_editor t p); [exact F|]. destruct (t_watch t p); [exact F|].
  destruct F as [F|F]; [|exact F]. unfold D in F. rewrite <- F. apply on_disk_now.
Qed.

(** Notifications about files an instance has read are seen. *)
Lemma notify_seen : forall r rm ins p f e, rwf r -> registered (r_maps r) p f -> In p (rm ++ map fst ins) ->
  aget f (m_entries (r_maps r)) = Some e -> r_view (rstep r (RNotify rm ins)) = true.
Proof.
  intros r rm ins p f e W R Hi He. cbn [rstep]. change (r_view (fold_left (fun r x => invalidate_path (fst x) r) ins
     (fold_left (fun r p => invalidate_path p r) rm r)) = true).
  pose proof (inval_paths_ext nat (fun p => p) rm r W) as X. pose proof (rext_wf _ _ W X) as W1.
  pose proof (inval_paths_ext _ fst ins _ W1) as Y. apply in_app_or in Hi.
  destruct (x_dom _ _ X f e He) as [e1 He1]. destruct (x_dom _ _ Y f e1 He1) as [e2 He2].
  destruct Hi as [Hi|Hi].
  - pose proof (inval_paths_fresh nat (fun p => p) rm r f p W ltac:(now rewrite map_id) R e1 He1) as L.
    destruct (x_entry _ _ X f e1 He1) as [H|(_ & _ & H)]; [apply W in H; lia|]. apply (x_view _ _ Y), H.
  - pose proof (inval_paths_fresh _ fst ins _ f p W1 Hi ltac:(eapply registered_ext; eauto) e2 He2) as L.
    destruct (x_entry _ _ Y f e2 He2) as [H|(_ & _ & H)]; [apply W1 in H; lia|]. exact H.
Qed.

Lemma rev_notify : forall disk ops i v f p l rm ins, orderly resolve (init disk) ops ->
  let s := fst (run resolve (init disk) ops) in
  s_vfs s i = Some v -> resolve f = Some p -> Forall by_path l -> In (RNotify rm ins) l -> In p (rm ++ map fst ins) ->
  let s1 := fst (step resolve s (Read i f)) in
  exists v', s_vfs (fst (step resolve s1 (Revise i l))) i = Some v' /\ v_rev v' = S (v_rev v).
Proof.
  intros disk ops i v f p l rm ins Ho s Hi Hf B Hl Hp s1.
  pose (D := fun p c => disk p = c).
  set (k := fun i => if Nat.eq_dec i 0 then Some (mkTold (fun _ => None) (fun _ => None)) else None).
  assert (T0 : tie (init disk) k).
  { intros j. unfold k. cbn. destruct (Nat.eq_dec j 0) as [->|N]; [cbn; auto|]. apply Nat.eqb_neq in N. rewrite N. exact I. }
  destruct (run_layers ops (init disk) k D (wf_init disk) (own_init disk) (J_init D disk) T0 (fun p => eq_refl) Ho) as (A & _ & C).
  pose proof (run_wf resolve ops _ (wf_init disk)) as W. pose proof (run_own resolve ops _ (wf_init disk) (own_init disk)) as O.
  fold s in A, C, W, O. clearbody s.
  pose proof (J_step _ s (Read i f) W O A C I) as J1. pose proof (step_wf resolve s (Read i f) W) as W1.
  assert (E1 : s_vfs s1 i = Some v) by (apply step_vfs; auto; discriminate).
  assert (HE : exists e, aget f (m_entries (s_maps s1 (v_maps v))) = Some e).
  { assert (exists r, snd (step resolve s (Read i f)) = RBytes r) as [r Hr].
    { cbn [step]. rewrite Hi. destruct (read resolve v f s). cbn. eauto. }
    destruct (read_has_read resolve s i f r W Hr) as (v' & e & p' & rv & Hv' & He & _).
    fold s1 in Hv', He. rewrite E1 in Hv'. inversion Hv'; subst. eauto. }
  fold s1 in J1, W1. clearbody s1. clear A C W O Hi.
  cbn [step]. rewrite E1. cbn [fst]. destruct (revise_rev i v l s1 W1) as (v' & H1 & _ & H3).
  exists v'. split; [exact H1|]. apply H3. clear H1 H3 v'.
  set (r0 := revise_begin v s1). pose proof (revise_begin_wf v s1 W1) as W0. fold r0 in W0.
  assert (M0 : mok (r_maps r0)) by apply (j_maps _ _ J1).
  assert (I0 : a_ids (r_am r0) = []) by apply (j_ids _ _ J1 i v E1).
  destruct HE as [e He].
  destruct (in_split _ _ Hl) as (a & b & ->). apply Forall_app in B. destruct B as [Ba Bb]. inversion Bb; subst.
  rewrite fold_left_app. cbn [fold_left].
  pose proof (rsteps_grow a r0 W0) as Ga. pose proof (rgrow_wf _ _ W0 Ga) as Wa.
  pose proof (rstep_grow (fold_left rstep a r0) (RNotify rm ins) Wa) as Gn. pose proof (rgrow_wf _ _ Wa Gn) as Wn.
  apply (g_view _ _ (rsteps_grow b _ Wn)).
  destruct (existsb (fun o => match o with RResetCache => true | _ => false end) a) eqn:X.
  - apply existsb_exists in X. destruct X as (o & Ho1 & Ho2). apply (g_view _ _ Gn).
    apply (rsteps_view a r0 o W0 Ho1). destruct o; try discriminate; exact I.
  - assert (NR : Forall no_reset a).
    { apply Forall_forall. intros o Hin. destruct o; cbn; auto.
      assert (existsb (fun o => match o with RResetCache => true | _ => false end) a = true); [|congruence].
      apply existsb_exists. exists RResetCache. auto. }
    destruct (rsteps_dom a r0 f NR W0 (ex_intro _ e He)) as [e1 He1].
    assert (R0 : registered (r_maps r0) p f) by (eapply (mo_ent _ M0); eauto).
    assert (T : tracked (r_ncells r0) (lay (r_am r0) p) p f (fold_left rstep a r0)).
    { apply rsteps_tracked; auto. split; [left; exact R0|]. split; [left; reflexivity|lia]. }
    destruct T as ([R|[_ R]] & _); [|rewrite R in He1; discriminate].
    eapply notify_seen; eauto.
Qed.
End Layers.
