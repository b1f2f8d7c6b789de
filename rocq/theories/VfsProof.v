(** Lemmas about the virtual file system. *)
From Coq Require Import List NArith Arith Bool Lia.
From Verif Require Import NumModel MsgModel AssocModel AssocProof VfsModel VfsSpec.
Import ListNotations.

(** ** Invalidation *)
Record rext (r r' : rst) : Prop := {
  x_paths : m_paths (r_maps r') = m_paths (r_maps r);
  x_ids : m_ids (r_maps r') = m_ids (r_maps r);
  x_am : r_am r' = r_am r;
  x_goal : r_goal r' = r_goal r;
  x_n : r_ncells r <= r_ncells r';
  x_view : r_view r = true -> r_view r' = true;
  x_old : forall c, c < r_ncells r -> r_cells r' c = r_cells r c;
  x_fresh : forall c, r_ncells r <= c -> c < r_ncells r' -> r_cells r' c = fresh;
  x_entry : forall f e, aget f (m_entries (r_maps r')) = Some e ->
    aget f (m_entries (r_maps r)) = Some e \/
    (r_ncells r <= e_cell e < r_ncells r' /\ e_changed e = r_goal r /\ r_view r' = true);
  x_dom : forall f e, aget f (m_entries (r_maps r)) = Some e -> exists e', aget f (m_entries (r_maps r')) = Some e';
  x_dist : forall f1 e1 f2 e2, aget f1 (m_entries (r_maps r')) = Some e1 -> aget f2 (m_entries (r_maps r')) = Some e2 ->
    r_ncells r <= e_cell e1 -> r_ncells r <= e_cell e2 -> e_cell e1 = e_cell e2 ->
    f1 = f2 \/ (aget f1 (m_entries (r_maps r)) = Some e1 /\ aget f2 (m_entries (r_maps r)) = Some e2)
}.
(** Cells of the entries are allocated. *)
Definition rwf (r : rst) : Prop := forall f e, aget f (m_entries (r_maps r)) = Some e -> e_cell e < r_ncells r.

Lemma rext_refl : forall r, rext r r.
Proof. intros r. constructor; auto; try lia. intros f e H. eauto. Qed.
Lemma rext_wf : forall r r', rwf r -> rext r r' -> rwf r'.
Proof.
  intros r r' W X f e H. destruct (x_entry _ _ X f e H) as [H1|H1]; [|lia].
  pose proof (W f e H1). pose proof (x_n _ _ X). lia.
Qed.
Lemma rext_trans : forall a b c, rwf a -> rext a b -> rext b c -> rext a c.
Proof.
  intros a b c W X Y. pose proof (rext_wf _ _ W X) as Wb.
  pose proof (x_n _ _ X). pose proof (x_n _ _ Y).
  constructor.
  - rewrite (x_paths _ _ Y). apply X.
  - rewrite (x_ids _ _ Y). apply X.
  - rewrite (x_am _ _ Y). apply X.
  - rewrite (x_goal _ _ Y). apply X.
  - lia.
  - intros Hv. apply (x_view _ _ Y), (x_view _ _ X), Hv.
  - intros i Hi. rewrite (x_old _ _ Y) by lia. apply (x_old _ _ X). lia.
  - intros i H1 H2. destruct (Nat.lt_ge_cases i (r_ncells b)) as [Hl|Hl].
    + rewrite (x_old _ _ Y) by lia. apply (x_fresh _ _ X); lia.
    + apply (x_fresh _ _ Y); lia.
  - intros f e He. destruct (x_entry _ _ Y f e He) as [H1|(H1&H2&H3)].
    + destruct (x_entry _ _ X f e H1) as [H2|(H2&H3&H4)]; [auto|right].
      repeat split; try lia; auto. apply (x_view _ _ Y), H4.
    + right. rewrite (x_goal _ _ X) in H2. repeat split; auto; lia.
  - intros f e He. destruct (x_dom _ _ X f e He) as [e' He']. eapply (x_dom _ _ Y), He'.
  - intros f1 e1 f2 e2 H1 H2 L1 L2 E.
    destruct (Nat.lt_ge_cases (e_cell e1) (r_ncells b)) as [Hl|Hl].
    + assert (A1 : aget f1 (m_entries (r_maps b)) = Some e1)
        by (destruct (x_entry _ _ Y f1 e1 H1) as [?|?]; [auto|lia]).
      assert (A2 : aget f2 (m_entries (r_maps b)) = Some e2)
        by (destruct (x_entry _ _ Y f2 e2 H2) as [?|?]; [auto|lia]).
      apply (x_dist _ _ X f1 e1 f2 e2 A1 A2); lia.
    + assert (D : f1 = f2 \/ (aget f1 (m_entries (r_maps b)) = Some e1 /\ aget f2 (m_entries (r_maps b)) = Some e2))
        by (apply (x_dist _ _ Y f1 e1 f2 e2 H1 H2); lia).
      destruct D as [Hd|[Hd1 Hd2]]; [auto|]. apply Wb in Hd1. lia.
Qed.

Lemma invalidate_id_ext : forall f r, rwf r -> rext r (invalidate_id f r).
Proof.
  intros f r W. unfold invalidate_id. constructor; cbn; auto; try lia.
  - intros c Hc. apply upd_neq. lia.
  - intros c H1 H2. assert (c = r_ncells r) as -> by lia. apply upd_eq.
  - intros g e. rewrite aget_aset. destruct (g =? f); [|auto].
    intros E. inversion E; subst e. right. cbn. repeat split; auto; lia.
  - intros g e He. rewrite aget_aset. destruct (g =? f); eauto.
  - intros f1 e1 f2 e2. rewrite !aget_aset.
    destruct (Nat.eqb_spec f1 f) as [->|N1]; destruct (Nat.eqb_spec f2 f) as [->|N2]; auto.
    + intros _ H2 L1 L2 _. apply W in H2. lia.
    + intros H1 _ L1 L2 _. apply W in H1. lia.
Qed.
Lemma invalidate_id_entry : forall f r, aget f (m_entries (r_maps (invalidate_id f r))) = Some (mkEntry (r_goal r) (r_ncells r)).
Proof. intros. cbn. apply aget_aset_eq. Qed.

Lemma inval_ids_ext : forall l r, rwf r -> rext r (fold_left (fun r f => invalidate_id f r) l r).
Proof.
  induction l as [|f l IH]; intros r W; cbn [fold_left]; [apply rext_refl|].
  pose proof (invalidate_id_ext f r W) as X. eapply rext_trans; [exact W|exact X|].
  apply IH. eapply rext_wf; eauto.
Qed.
(** Entries that are fresh stay fresh. *)
Lemma fresh_stays : forall r r' n f, rext r r' -> n <= r_ncells r ->
  (forall e, aget f (m_entries (r_maps r)) = Some e -> n <= e_cell e) ->
  (forall e, aget f (m_entries (r_maps r')) = Some e -> n <= e_cell e).
Proof.
  intros r r' n f X Hn H e He. destruct (x_entry _ _ X f e He) as [H1|H1]; [auto|lia].
Qed.
Lemma inval_ids_fresh : forall l r f, rwf r -> In f l ->
  forall e, aget f (m_entries (r_maps (fold_left (fun r f => invalidate_id f r) l r))) = Some e -> r_ncells r <= e_cell e.
Proof.
  induction l as [|g l IH]; intros r f W Hi; [destruct Hi|]. cbn [fold_left].
  pose proof (invalidate_id_ext g r W) as X. pose proof (rext_wf _ _ W X) as W'.
  destruct Hi as [->|Hi].
  - eapply (fresh_stays (invalidate_id f r)).
    + apply inval_ids_ext. exact W'.
    + apply X.
    + intros e. rewrite invalidate_id_entry. intros E. inversion E. cbn. lia.
  - intros e He. apply (IH _ f W' Hi) in He. pose proof (x_n _ _ X). lia.
Qed.

Lemma invalidate_path_ext : forall p r, rwf r -> rext r (invalidate_path p r).
Proof. intros p r W. unfold invalidate_path. destruct (aget p (m_paths (r_maps r))); [now apply inval_ids_ext|apply rext_refl]. Qed.
(** Files registered under a path. *)
Definition registered (m : maps) (p f : nat) : Prop := exists l, aget p (m_paths m) = Some l /\ In f l.
Lemma invalidate_path_fresh : forall p r f, rwf r -> registered (r_maps r) p f ->
  forall e, aget f (m_entries (r_maps (invalidate_path p r))) = Some e -> r_ncells r <= e_cell e.
Proof. intros p r f W (l & Hl & Hi). unfold invalidate_path. rewrite Hl. now apply inval_ids_fresh. Qed.
Lemma registered_ext : forall r r' p f, rext r r' -> registered (r_maps r) p f -> registered (r_maps r') p f.
Proof. intros r r' p f X (l & Hl & Hi). exists l. rewrite (x_paths _ _ X). auto. Qed.

Lemma inval_paths_ext : forall A (g : A -> nat) l r, rwf r -> rext r (fold_left (fun r x => invalidate_path (g x) r) l r).
Proof.
  intros A g. induction l as [|p l IH]; intros r W; cbn [fold_left]; [apply rext_refl|].
  pose proof (invalidate_path_ext (g p) r W) as X. eapply rext_trans; [exact W|exact X|].
  apply IH. eapply rext_wf; eauto.
Qed.
Lemma inval_paths_fresh : forall A (g : A -> nat) l r f p, rwf r -> In p (map g l) -> registered (r_maps r) p f ->
  forall e, aget f (m_entries (r_maps (fold_left (fun r x => invalidate_path (g x) r) l r))) = Some e -> r_ncells r <= e_cell e.
Proof.
  intros A g. induction l as [|q l IH]; intros r f p W Hi R; [destruct Hi|]. cbn [fold_left].
  pose proof (invalidate_path_ext (g q) r W) as X. pose proof (rext_wf _ _ W X) as W'.
  destruct Hi as [<-|Hi].
  - eapply (fresh_stays (invalidate_path (g q) r)).
    + apply inval_paths_ext. exact W'.
    + apply X.
    + now apply invalidate_path_fresh.
  - intros e He. eapply (IH _ f p W' Hi) in He; [|eapply registered_ext; eauto]. pose proof (x_n _ _ X). lia.
Qed.

(** ** One batch of changes *)
(** What every batch guarantees about the entries. *)
Record rgrow (r r' : rst) : Prop := {
  g_goal : r_goal r' = r_goal r;
  g_n : r_ncells r <= r_ncells r';
  g_view : r_view r = true -> r_view r' = true;
  g_old : forall c, c < r_ncells r -> r_cells r' c = r_cells r c;
  g_fresh : forall c, r_ncells r <= c -> c < r_ncells r' -> r_cells r' c = fresh;
  g_entry : forall f e, aget f (m_entries (r_maps r')) = Some e ->
    aget f (m_entries (r_maps r)) = Some e \/
    (r_ncells r <= e_cell e < r_ncells r' /\ e_changed e = r_goal r);
  g_dist : forall f1 e1 f2 e2, aget f1 (m_entries (r_maps r')) = Some e1 -> aget f2 (m_entries (r_maps r')) = Some e2 ->
    r_ncells r <= e_cell e1 -> r_ncells r <= e_cell e2 -> e_cell e1 = e_cell e2 ->
    f1 = f2 \/ (aget f1 (m_entries (r_maps r)) = Some e1 /\ aget f2 (m_entries (r_maps r)) = Some e2)
}.
Lemma rext_grow : forall r r', rext r r' -> rgrow r r'.
Proof.
  intros r r' X. constructor; try apply X.
  intros f e He. destruct (x_entry _ _ X f e He) as [?|(?&?&?)]; auto.
Qed.
Lemma rgrow_wf : forall r r', rwf r -> rgrow r r' -> rwf r'.
Proof.
  intros r r' W X f e H. destruct (g_entry _ _ X f e H) as [H1|H1]; [|lia].
  pose proof (W f e H1). pose proof (g_n _ _ X). lia.
Qed.
Lemma rgrow_trans : forall a b c, rwf a -> rgrow a b -> rgrow b c -> rgrow a c.
Proof.
  intros a b c W X Y. pose proof (rgrow_wf _ _ W X) as Wb.
  pose proof (g_n _ _ X). pose proof (g_n _ _ Y).
  constructor.
  - rewrite (g_goal _ _ Y). apply X.
  - lia.
  - intros Hv. apply (g_view _ _ Y), (g_view _ _ X), Hv.
  - intros i Hi. rewrite (g_old _ _ Y) by lia. apply (g_old _ _ X). lia.
  - intros i H1 H2. destruct (Nat.lt_ge_cases i (r_ncells b)) as [Hl|Hl].
    + rewrite (g_old _ _ Y) by lia. apply (g_fresh _ _ X); lia.
    + apply (g_fresh _ _ Y); lia.
  - intros f e He. destruct (g_entry _ _ Y f e He) as [H1|(H1&H2)].
    + destruct (g_entry _ _ X f e H1) as [H2|(H2&H3)]; [auto|right]. split; auto; lia.
    + right. rewrite (g_goal _ _ X) in H2. split; auto; lia.
  - intros f1 e1 f2 e2 H1 H2 L1 L2 E.
    destruct (Nat.lt_ge_cases (e_cell e1) (r_ncells b)) as [Hl|Hl].
    + assert (A1 : aget f1 (m_entries (r_maps b)) = Some e1)
        by (destruct (g_entry _ _ Y f1 e1 H1) as [?|?]; [auto|lia]).
      assert (A2 : aget f2 (m_entries (r_maps b)) = Some e2)
        by (destruct (g_entry _ _ Y f2 e2 H2) as [?|?]; [auto|lia]).
      apply (g_dist _ _ X f1 e1 f2 e2 A1 A2); lia.
    + assert (D : f1 = f2 \/ (aget f1 (m_entries (r_maps b)) = Some e1 /\ aget f2 (m_entries (r_maps b)) = Some e2))
        by (apply (g_dist _ _ Y f1 e1 f2 e2 H1 H2); lia).
      destruct D as [Hd|[Hd1 Hd2]]; [auto|]. apply Wb in Hd1. lia.
Qed.
(** Changing the layers, the view flag: nothing happens to the entries. *)
Lemma set_am_grow : forall r am, rgrow r (set_am r am).
Proof. intros. constructor; cbn; auto; lia. Qed.
Lemma set_view_grow : forall r, rgrow r (set_view r).
Proof. intros. constructor; cbn; auto; lia. Qed.
Lemma set_maps_grow : forall r, rgrow r (set_rmaps r no_maps).
Proof. intros. constructor; cbn; auto; try lia; discriminate. Qed.

Lemma rstep_grow : forall r op, rwf r -> rgrow r (rstep r op).
Proof.
  intros r op W. pose proof (set_view_grow r) as V. pose proof (rgrow_wf _ _ W V) as WV.
  destruct op; cbn [rstep].
  - eapply rgrow_trans; [exact W|exact V|]. pose proof (invalidate_path_ext p _ WV) as X.
    eapply rgrow_trans; [exact WV|apply rext_grow, X|apply set_am_grow].
  - eapply rgrow_trans; [exact W|exact V|]. pose proof (invalidate_path_ext p _ WV) as X.
    eapply rgrow_trans; [exact WV|apply rext_grow, X|apply set_am_grow].
  - eapply rgrow_trans; [exact W|exact V|]. pose proof (invalidate_id_ext f _ WV) as X.
    eapply rgrow_trans; [exact WV|apply rext_grow, X|apply set_am_grow].
  - eapply rgrow_trans; [exact W|exact V|]. pose proof (invalidate_id_ext f _ WV) as X.
    eapply rgrow_trans; [exact WV|apply rext_grow, X|apply set_am_grow].
  - pose proof (inval_paths_ext nat (fun p => p) (akeys (a_shadow (r_am r))) r W) as X.
    pose proof (rext_wf _ _ W X) as W1.
    pose proof (inval_ids_ext (akeys (a_ids (r_am r))) _ W1) as Y.
    eapply rgrow_trans; [exact W|apply rext_grow, X|].
    eapply rgrow_trans; [exact W1|apply rext_grow, Y|apply set_am_grow].
  - eapply rgrow_trans; [exact W|exact V|apply set_maps_grow].
  - pose proof (inval_paths_ext nat (fun p => p) removes r W) as X.
    pose proof (rext_wf _ _ W X) as W1.
    pose proof (inval_paths_ext _ fst inserts _ W1) as Y.
    eapply rgrow_trans; [exact W|apply rext_grow, X|].
    eapply rgrow_trans; [exact W1|apply rext_grow, Y|apply set_am_grow].
Qed.
Lemma rsteps_grow : forall ops r, rwf r -> rgrow r (fold_left rstep ops r).
Proof.
  induction ops as [|o ops IH]; intros r W; cbn [fold_left]; [apply rext_grow, rext_refl|].
  pose proof (rstep_grow r o W) as X. eapply rgrow_trans; [exact W|exact X|].
  apply IH. eapply rgrow_wf; eauto.
Qed.

(** ** Well-formed states *)
Record wf (s : st) : Prop := {
  w_cell : forall h f e, aget f (m_entries (s_maps s h)) = Some e -> e_cell e < s_ncells s;
  w_read : forall t i f c, aget t (s_reads s) = Some (i, f, c) -> c < s_ncells s;
  w_vfs : forall i v, s_vfs s i = Some v -> i < s_nvfs s /\ v_maps v < s_nmaps s
}.
(** Growth of the heap (no eviction). *)
Record grow (s s' : st) : Prop := {
  gr_n : s_ncells s <= s_ncells s';
  gr_m : s_nmaps s <= s_nmaps s';
  gr_v : s_nvfs s <= s_nvfs s';
  gr_entry : forall h f e, h < s_nmaps s -> aget f (m_entries (s_maps s h)) = Some e ->
    aget f (m_entries (s_maps s' h)) = Some e;
  gr_bytes : forall c b, c < s_ncells s -> c_bytes (s_cells s c) = Some b -> c_bytes (s_cells s' c) = Some b;
  gr_source : forall c b, c < s_ncells s -> c_source (s_cells s c) = Some b -> c_source (s_cells s' c) = Some b
}.
Lemma grow_refl : forall s, grow s s.
Proof. intros. constructor; auto. Qed.
Lemma grow_trans : forall a b c, grow a b -> grow b c -> grow a c.
Proof.
  intros a b c X Y. destruct X, Y. constructor; try lia.
  - intros h f e Hh He. apply gr_entry1; [lia|auto].
  - intros i x Hi Hx. apply gr_bytes1; [lia|auto].
  - intros i x Hi Hx. apply gr_source1; [lia|auto].
Qed.

Lemma wf_init : forall disk, wf (init disk).
Proof.
  intros. constructor; cbn; try discriminate.
  intros i v. destruct (Nat.eqb_spec i 0); [|discriminate]. intros E. inversion E. cbn. lia.
Qed.

(** Fields a read does not touch. *)
Definition same_env (s s' : st) : Prop :=
  s_vfs s' = s_vfs s /\ s_nvfs s' = s_nvfs s /\ s_nmaps s' = s_nmaps s /\ s_disk s' = s_disk s /\ s_reads s' = s_reads s.

Lemma slot_ok : forall v f s s1 c, wf s -> v_maps v < s_nmaps s -> slot v f s = (s1, c) ->
  wf s1 /\ grow s s1 /\ same_env s s1 /\ s_cache s1 = s_cache s /\ c < s_ncells s1 /\
  (exists e, aget f (m_entries (s_maps s1 (v_maps v))) = Some e /\ e_cell e = c) /\
  (forall h g e, aget g (m_entries (s_maps s1 h)) = Some e ->
     aget g (m_entries (s_maps s h)) = Some e \/ (h = v_maps v /\ g = f /\ e_cell e = c /\ c = s_ncells s /\ e_changed e = 0)) /\
  (forall h, m_paths (s_maps s1 h) = m_paths (s_maps s h) /\ m_ids (s_maps s1 h) = m_ids (s_maps s h)) /\
  (c < s_ncells s /\ s1 = s \/ c = s_ncells s /\ s_ncells s1 = S (s_ncells s) /\ s_cells s1 = upd (s_cells s) c fresh).
Proof.
  intros v f s s1 c W Hh. unfold slot.
  destruct (aget f (m_entries (s_maps s (v_maps v)))) as [e|] eqn:E; intros H; inversion H; subst; clear H.
  - pose proof (w_cell _ W _ _ _ E). unfold same_env.
    repeat (split; [solve [auto using grow_refl|eauto]|]). auto.
  - cbn. assert (EN : forall h g e, aget g (m_entries (upd (s_maps s) (v_maps v)
        (mkMaps (aset f (mkEntry 0 (s_ncells s)) (m_entries (s_maps s (v_maps v)))) (m_paths (s_maps s (v_maps v))) (m_ids (s_maps s (v_maps v))))
        h)) = Some e -> aget g (m_entries (s_maps s h)) = Some e \/
          (h = v_maps v /\ g = f /\ e_cell e = s_ncells s /\ s_ncells s = s_ncells s /\ e_changed e = 0)).
    { intros h g e. unfold upd. destruct (Nat.eqb_spec h (v_maps v)) as [->|N]; [|auto].
      cbn. rewrite aget_aset. destruct (Nat.eqb_spec g f) as [->|Ng]; [|auto].
      intros X. inversion X; subst. right. auto. }
    split; [|split; [|split; [|split; [|split; [|split; [|split; [|split]]]]]]].
    + constructor; cbn.
      * intros h g e He. destruct (EN _ _ _ He) as [H1|(_&_&H1&_)]; [|lia].
        apply (w_cell _ W) in H1. lia.
      * intros t i g c Hc. apply (w_read _ W) in Hc. lia.
      * apply (w_vfs _ W).
    + constructor; cbn; auto.
      * intros h g e _ He. unfold upd. destruct (Nat.eqb_spec h (v_maps v)) as [->|N]; [|auto].
        cbn. rewrite aget_aset. destruct (Nat.eqb_spec g f) as [->|Ng]; [congruence|auto].
      * intros c b Hc. rewrite upd_neq by lia. auto.
      * intros c b Hc. rewrite upd_neq by lia. auto.
    + unfold same_env. cbn. auto.
    + reflexivity.
    + lia.
    + rewrite upd_eq. cbn. rewrite aget_aset_eq. eauto.
    + exact EN.
    + intros h. unfold upd. destruct (Nat.eqb_spec h (v_maps v)) as [->|N]; auto.
    + right. auto.
Qed.

Lemma path_insert_entries : forall p f rv m, m_entries (path_insert p f rv m) = m_entries m.
Proof.
  intros. unfold path_insert. destruct (aget f (m_ids m)) as [[q r]|]; [|reflexivity].
  destruct (q =? p); reflexivity.
Qed.

Lemma read_content_ok : forall resolve v c f s s1 r, wf s -> c < s_ncells s -> read_content resolve v c f s = (s1, r) ->
  wf s1 /\ grow s s1 /\ same_env s s1 /\ s_cache s1 = s_cache s /\ s_ncells s1 = s_ncells s /\
  (forall h, m_entries (s_maps s1 h) = m_entries (s_maps s h)) /\
  (exists p rv, c_bytes (s_cells s1 c) = Some (p, rv, r)) /\
  (forall c', c' <> c -> s_cells s1 c' = s_cells s c') /\
  c_source (s_cells s1 c) = c_source (s_cells s c) /\
  (forall b, c_bytes (s_cells s c) = Some b -> s1 = s).
Proof.
  intros resolve v c f s s1 r W Hc. unfold read_content.
  destruct (c_bytes (s_cells s c)) as [[[p rv] b]|] eqn:E.
  - intros H. inversion H; subst. unfold same_env. rewrite E. repeat (split; [solve [auto using grow_refl|eauto]|]). auto.
  - destruct (content resolve (v_am v) (s_disk s) f) as [p b]. intros H. inversion H; subst; clear H.
    set (s1 := match p with Some p0 => _ | None => s end).
    assert (S1 : wf s1 /\ same_env s s1 /\ s_cache s1 = s_cache s /\ s_ncells s1 = s_ncells s /\ s_cells s1 = s_cells s /\
                 (forall h, m_entries (s_maps s1 h) = m_entries (s_maps s h))).
    { unfold s1. destruct p as [p|]; unfold same_env; [|auto 10].
      assert (EN : forall h, m_entries (upd (s_maps s) (v_maps v) (path_insert p f (v_rev v) (s_maps s (v_maps v))) h) = m_entries (s_maps s h)).
      { intros h. unfold upd. destruct (Nat.eqb_spec h (v_maps v)) as [->|N]; [|reflexivity]. apply path_insert_entries. }
      cbn. split; [|auto 10]. constructor; cbn.
      - intros h g e. rewrite EN. apply (w_cell _ W).
      - apply (w_read _ W).
      - apply (w_vfs _ W). }
    clearbody s1. destruct S1 as (W1 & (V1&V2&V3&V4&V5) & C1 & N1 & L1 & E1).
    unfold same_env. cbn.
    repeat match goal with |- _ /\ _ => split end; auto.
    + constructor; cbn; apply W1.
    + constructor; cbn; try lia.
      * intros h g e Hh He. rewrite E1. exact He.
      * intros c' x Hc'. unfold upd. destruct (Nat.eqb_spec c' c) as [->|N]; [congruence|]. rewrite L1. auto.
      * intros c' x Hc'. unfold upd. destruct (Nat.eqb_spec c' c) as [->|N]; [|rewrite L1; auto]. cbn. auto.
    + rewrite upd_eq. cbn. eauto.
    + intros c' N. rewrite upd_neq by exact N. rewrite L1. reflexivity.
    + rewrite upd_eq. reflexivity.
    + intros x Hx. congruence.
Qed.

(** ** All operations *)
Lemma revise_begin_wf : forall v s, wf s -> rwf (revise_begin v s).
Proof. intros v s W f e H. eapply (w_cell _ W), H. Qed.

Lemma revise_ok : forall i v ops s, wf s -> s_vfs s i = Some v -> wf (revise i v ops s) /\ grow s (revise i v ops s).
Proof.
  intros i v ops s W Hi. unfold revise. pose proof (rsteps_grow ops _ (revise_begin_wf v s W)) as G.
  pose proof (rgrow_wf _ _ (revise_begin_wf v s W) G) as W'.
  set (r := fold_left rstep ops (revise_begin v s)) in *. clearbody r.
  pose proof (g_n _ _ G) as Hn. cbn in Hn. unfold revise_end.
  pose proof (w_vfs _ W i v Hi) as [Hv1 Hv2].
  split.
  - constructor; cbn.
    + intros h f e. destruct (r_view r).
      * unfold upd. destruct (Nat.eqb_spec h (s_nmaps s)) as [->|N]; [apply W'|].
        intros He. apply (w_cell _ W) in He. lia.
      * intros He. apply (w_cell _ W) in He. lia.
    + intros t j f c Hc. apply (w_read _ W) in Hc. lia.
    + intros j u. unfold upd. destruct (Nat.eqb_spec j i) as [->|N].
      * intros E. inversion E; subst. destruct (r_view r); cbn; lia.
      * intros E. apply (w_vfs _ W) in E. destruct (r_view r); cbn; lia.
  - constructor; cbn; auto; try (destruct (r_view r); lia).
    + intros h f e Hh He. destruct (r_view r); [|exact He]. rewrite upd_neq by lia. exact He.
    + intros c b Hc. pose proof (g_old _ _ G c) as O. cbn in O. rewrite O by exact Hc. auto.
    + intros c b Hc. pose proof (g_old _ _ G c) as O. cbn in O. rewrite O by exact Hc. auto.
Qed.

Lemma evict_entries_sub : forall (old : entry -> bool) (l acc : list (nat * entry)) f e,
  aget f (fold_left (fun l x => if old (snd x) then adel (fst x) l else l) l acc) = Some e -> aget f acc = Some e.
Proof.
  intros old. induction l as [|[g x] l IH]; intros acc f e; cbn [fold_left]; [auto|].
  intros H. apply IH in H. destruct (old (snd (g, x))); [|exact H].
  rewrite aget_adel in H. destruct (f =? fst (g, x)); [discriminate|exact H].
Qed.

Lemma evict_sub : forall v n s h f e,
  aget f (m_entries (s_maps (evict v n s) h)) = Some e -> aget f (m_entries (s_maps s h)) = Some e.
Proof.
  intros v n s h f e. unfold evict, set_maps. cbn [s_maps]. unfold upd.
  destruct (Nat.eqb_spec h (v_maps v)) as [->|N]; [|auto]. cbn [m_entries].
  apply (evict_entries_sub (fun e => match c_bytes (s_cells s (e_cell e)) with Some (_, r, _) => r | None => 0 end + n <? v_rev v)).
Qed.

Lemma source_ok : forall resolve v f s s1 r, wf s -> v_maps v < s_nmaps s -> source resolve v f s = (s1, r) ->
  wf s1 /\ grow s s1 /\ same_env s s1 /\
  (exists e, aget f (m_entries (s_maps s1 (v_maps v))) = Some e /\ c_source (s_cells s1 (e_cell e)) = Some r).
Proof.
  intros resolve v f s s1 r W Hh. unfold source. destruct (slot v f s) as [s0 c] eqn:Es.
  destruct (slot_ok v f s s0 c W Hh Es) as (W0 & G0 & V0 & _ & C0 & (e & He & Hc) & _).
  destruct (c_source (s_cells s0 c)) as [q|] eqn:Eq.
  - intros H. inversion H; subst. eauto 10.
  - destruct (read_content resolve v c f s0) as [s2 b] eqn:Er.
    destruct (read_content_ok _ _ _ _ _ _ _ W0 C0 Er) as (W2 & G2 & V2 & _ & N2 & E2 & _ & _ & S2 & _).
    assert (V : same_env s s2) by (unfold same_env in *; intuition congruence).
    assert (K : forall x y, s1 = set_cache (set_cell s2 c (mkCell (c_bytes (s_cells s2 c)) (Some x))) y -> r = x ->
      wf s1 /\ grow s s1 /\ same_env s s1 /\
      (exists e, aget f (m_entries (s_maps s1 (v_maps v))) = Some e /\ c_source (s_cells s1 (e_cell e)) = Some r)).
    { intros x y -> ->. split; [constructor; cbn; apply W2|]. split; [|split; [exact V|]].
      - eapply grow_trans; [eapply grow_trans; [exact G0|exact G2]|]. constructor; cbn; auto.
        + intros c' z Hc' Hz. unfold upd. destruct (Nat.eqb_spec c' c) as [->|N]; cbn; auto.
        + intros c' z Hc' Hz. unfold upd. destruct (Nat.eqb_spec c' c) as [->|N]; cbn; auto. congruence.
      - exists e. cbn. rewrite E2, Hc, upd_eq. auto. }
    destruct b as [b|err].
    + destruct (parse (v_rev v) f b (s_cache s2)) as [cache q]. intros H. inversion H; subst. eapply K; reflexivity.
    + intros H. inversion H; subst. apply (K (SErr err) (s_cache s2)); destruct s2; reflexivity.
Qed.

Lemma read_ok : forall resolve v f s s1 r, wf s -> v_maps v < s_nmaps s -> read resolve v f s = (s1, r) ->
  wf s1 /\ grow s s1 /\ same_env s s1 /\ s_cache s1 = s_cache s /\
  (exists e p rv, aget f (m_entries (s_maps s1 (v_maps v))) = Some e /\ c_bytes (s_cells s1 (e_cell e)) = Some (p, rv, r)).
Proof.
  intros resolve v f s s1 r W Hh. unfold read. destruct (slot v f s) as [s0 c] eqn:Es. intros Er.
  destruct (slot_ok v f s s0 c W Hh Es) as (W0 & G0 & V0 & K0 & C0 & (e & He & Hc) & _).
  destruct (read_content_ok _ _ _ _ _ _ _ W0 C0 Er) as (W2 & G2 & V2 & K2 & N2 & E2 & (p & rv & B2) & _).
  split; [exact W2|]. split; [eapply grow_trans; eauto|].
  split; [unfold same_env in *; intuition congruence|]. split; [congruence|].
  exists e, p, rv. rewrite E2, Hc. auto.
Qed.

Lemma step_wf : forall resolve s o, wf s -> wf (fst (step resolve s o)).
Proof.
  intros resolve s o W. destruct o; cbn [step].
  - destruct (s_vfs s i) as [v|] eqn:E; [|exact W]. constructor; cbn; try apply W.
    intros j u. unfold upd. destruct (Nat.eqb_spec j (s_nvfs s)) as [->|N].
    + intros X. inversion X; subst. apply (w_vfs _ W) in E. lia.
    + intros X. apply (w_vfs _ W) in X. lia.
  - destruct (s_vfs s i) as [v|] eqn:E; [|exact W]. constructor; cbn.
    + intros h f e. unfold upd. destruct (h =? s_nmaps s); [discriminate|]. apply (w_cell _ W).
    + apply (w_read _ W).
    + intros j u. unfold upd. destruct (Nat.eqb_spec j (s_nvfs s)) as [->|N].
      * intros X. inversion X; subst. cbn. lia.
      * intros X. apply (w_vfs _ W) in X. lia.
  - destruct (s_vfs s i) as [v|] eqn:E; [|exact W]. destruct (read resolve v f s) as [s' r] eqn:R. cbn.
    eapply read_ok; eauto. apply (w_vfs _ W) in E. lia.
  - destruct (s_vfs s i) as [v|] eqn:E; [|exact W]. destruct (source resolve v f s) as [s' r] eqn:R. cbn.
    eapply source_ok; eauto. apply (w_vfs _ W) in E. lia.
  - destruct (s_vfs s i) as [v|] eqn:E; [|exact W]. destruct (slot v f s) as [s' c] eqn:R. cbn.
    apply (w_vfs _ W) in E. destruct (slot_ok v f s s' c W (proj2 E) R) as (W0 & _ & V0 & _ & C0 & _).
    constructor; cbn; try apply W0. intros t' j g c'. rewrite aget_aset.
    destruct (t' =? t); [|apply (w_read _ W0)]. intros X. inversion X; subst. exact C0.
  - destruct (aget t (s_reads s)) as [[[i f] c]|] eqn:R; [|exact W].
    destruct (s_vfs s i) as [v|] eqn:E; [|exact W]. destruct (read_content resolve v c f s) as [s' r] eqn:Q. cbn.
    assert (C : c < s_ncells s) by (eapply (w_read _ W), R).
    destruct (read_content_ok _ _ _ _ _ _ _ W C Q) as (W2 & _).
    constructor; cbn; try apply W2. intros t' j g c'. rewrite aget_adel.
    destruct (t' =? t); [discriminate|apply (w_read _ W2)].
  - destruct (s_vfs s i) as [v|] eqn:E; [|exact W]. now apply revise_ok.
  - destruct (s_vfs s i) as [v|] eqn:E; [|exact W]. cbn [fst]. constructor.
    + intros h f e H. apply evict_sub in H. apply (w_cell _ W) in H. exact H.
    + apply (w_read _ W).
    + apply (w_vfs _ W).
  - destruct (s_vfs s i) as [v|] eqn:E; [|exact W]. constructor; cbn; apply W.
  - constructor; cbn; apply W.
Qed.
Lemma run_wf : forall resolve ops s, wf s -> wf (fst (run resolve s ops)).
Proof.
  intros resolve. induction ops as [|o ops IH]; intros s W; cbn [run]; [exact W|].
  pose proof (step_wf resolve s o W) as W1. destruct (step resolve s o) as [s1 x]. cbn in W1.
  specialize (IH s1 W1). destruct (run resolve s1 ops) as [s2 xs]. exact IH.
Qed.

Definition no_evict (o : op) : Prop := match o with Evict _ _ => False | _ => True end.
Lemma step_grow : forall resolve s o, wf s -> no_evict o -> grow s (fst (step resolve s o)).
Proof.
  intros resolve s o W Ho. destruct o; cbn [step]; try contradiction.
  - destruct (s_vfs s i) as [v|] eqn:E; [|apply grow_refl]. constructor; cbn; auto; lia.
  - destruct (s_vfs s i) as [v|] eqn:E; [|apply grow_refl]. constructor; cbn; auto; try lia.
    intros h f e Hh. rewrite upd_neq by lia. auto.
  - destruct (s_vfs s i) as [v|] eqn:E; [|apply grow_refl]. destruct (read resolve v f s) as [s' r] eqn:R. cbn.
    eapply read_ok; eauto. apply (w_vfs _ W) in E. lia.
  - destruct (s_vfs s i) as [v|] eqn:E; [|apply grow_refl]. destruct (source resolve v f s) as [s' r] eqn:R. cbn.
    eapply source_ok; eauto. apply (w_vfs _ W) in E. lia.
  - destruct (s_vfs s i) as [v|] eqn:E; [|apply grow_refl]. destruct (slot v f s) as [s' c] eqn:R. cbn.
    apply (w_vfs _ W) in E. destruct (slot_ok v f s s' c W (proj2 E) R) as (_ & G0 & _).
    destruct G0. constructor; auto.
  - destruct (aget t (s_reads s)) as [[[i f] c]|] eqn:R; [|apply grow_refl].
    destruct (s_vfs s i) as [v|] eqn:E; [|apply grow_refl]. destruct (read_content resolve v c f s) as [s' r] eqn:Q. cbn.
    assert (C : c < s_ncells s) by (eapply (w_read _ W), R).
    destruct (read_content_ok _ _ _ _ _ _ _ W C Q) as (_ & G0 & _). destruct G0. constructor; auto.
  - destruct (s_vfs s i) as [v|] eqn:E; [|apply grow_refl]. now apply revise_ok.
  - destruct (s_vfs s i) as [v|] eqn:E; [|apply grow_refl]. constructor; cbn; auto.
  - constructor; cbn; auto.
Qed.
Lemma run_grow : forall resolve ops s, wf s -> Forall no_evict ops -> grow s (fst (run resolve s ops)).
Proof.
  intros resolve. induction ops as [|o ops IH]; intros s W F; cbn [run]; [apply grow_refl|].
  inversion F; subst. pose proof (step_wf resolve s o W) as W1. pose proof (step_grow resolve s o W H1) as G1.
  destruct (step resolve s o) as [s1 x]. cbn in *.
  specialize (IH s1 W1 H2). destruct (run resolve s1 ops) as [s2 xs]. cbn in *. eapply grow_trans; eauto.
Qed.

(** Instances other than the revised one do not change. *)
Lemma step_vfs : forall resolve s o i v, wf s -> s_vfs s i = Some v ->
  (forall l, o <> Revise i l) -> s_vfs (fst (step resolve s o)) i = Some v.
Proof.
  intros resolve s o i v W Hi Ho. pose proof (w_vfs _ W i v Hi) as [Hv _].
  destruct o as [j|j|j f|j f|t j f|t|j l|j n|j n|p c]; cbn [step];
    try (destruct (s_vfs s j) as [u|] eqn:E; [|exact Hi]).
  - cbn. rewrite upd_neq by lia. exact Hi.
  - cbn. rewrite upd_neq by lia. exact Hi.
  - destruct (read resolve u f s) as [s' r] eqn:R. cbn. apply read_ok in R; auto; [|apply (w_vfs _ W) in E; lia].
    destruct R as (_ & _ & (V & _) & _). rewrite V. exact Hi.
  - destruct (source resolve u f s) as [s' r] eqn:R. cbn. apply source_ok in R; auto; [|apply (w_vfs _ W) in E; lia].
    destruct R as (_ & _ & (V & _) & _). rewrite V. exact Hi.
  - destruct (slot u f s) as [s' c] eqn:R. cbn. apply slot_ok in R; auto; [|apply (w_vfs _ W) in E; lia].
    destruct R as (_ & _ & (V & _) & _). rewrite V. exact Hi.
  - destruct (aget t (s_reads s)) as [[[j f] c]|] eqn:R; [|exact Hi].
    destruct (s_vfs s j) as [u|] eqn:E; [|exact Hi]. destruct (read_content resolve u c f s) as [s' r] eqn:Q. cbn.
    apply read_content_ok in Q; auto; [|eapply (w_read _ W), R]. destruct Q as (_ & _ & (V & _) & _). rewrite V. exact Hi.
  - cbn. rewrite upd_neq; [exact Hi|]. intros ->. apply (Ho l). reflexivity.
  - exact Hi.
  - exact Hi.
  - exact Hi.
Qed.

(** ** C16: reads are stable *)
Lemma undisturbed_no_evict : forall i ops, Forall (undisturbed i) ops -> Forall no_evict ops.
Proof. intros i ops. apply Forall_impl. intros []; cbn; auto. Qed.
Lemma run_vfs : forall resolve ops s i v, wf s -> s_vfs s i = Some v -> Forall (undisturbed i) ops ->
  s_vfs (fst (run resolve s ops)) i = Some v.
Proof.
  intros resolve. induction ops as [|o ops IH]; intros s i v W Hi F; cbn [run]; [exact Hi|].
  inversion F; subst. pose proof (step_wf resolve s o W) as W1.
  assert (V : s_vfs (fst (step resolve s o)) i = Some v).
  { apply step_vfs; auto. intros l ->. cbn in H1. congruence. }
  destruct (step resolve s o) as [s1 x]. cbn in *. specialize (IH s1 i v W1 V H2).
  destruct (run resolve s1 ops) as [s2 xs]. exact IH.
Qed.

Lemma read_cached : forall resolve v f s e p rv r, aget f (m_entries (s_maps s (v_maps v))) = Some e ->
  c_bytes (s_cells s (e_cell e)) = Some (p, rv, r) -> read resolve v f s = (s, r).
Proof.
  intros resolve v f s e p rv r He Hb. unfold read, slot. rewrite He. unfold read_content. rewrite Hb. reflexivity.
Qed.
Lemma source_cached : forall resolve v f s e r, aget f (m_entries (s_maps s (v_maps v))) = Some e ->
  c_source (s_cells s (e_cell e)) = Some r -> source resolve v f s = (s, r).
Proof.
  intros resolve v f s e r He Hb. unfold source, slot. rewrite He. rewrite Hb. reflexivity.
Qed.

Lemma reachable_wf : forall resolve s, reachable resolve s -> wf s.
Proof. intros resolve s (disk & ops & ->). apply run_wf, wf_init. Qed.

Lemma snapshot_isolation : forall resolve s i f r s1 ops, reachable resolve s ->
  step resolve s (Read i f) = (s1, RBytes r) -> Forall (undisturbed i) ops ->
  snd (step resolve (fst (run resolve s1 ops)) (Read i f)) = RBytes r.
Proof.
  intros resolve s i f r s1 ops Hr Hs F. apply reachable_wf in Hr. rename Hr into W.
  pose proof (step_wf resolve s (Read i f) W) as W1. rewrite Hs in W1. cbn [fst] in W1.
  cbn [step] in Hs. destruct (s_vfs s i) as [v|] eqn:Ei; [|discriminate].
  destruct (read resolve v f s) as [s' r'] eqn:R. inversion Hs; subst s' r'; clear Hs.
  pose proof (w_vfs _ W i v Ei) as [_ Hh].
  destruct (read_ok _ _ _ _ _ _ W Hh R) as (_ & G & (V & _ & M & _) & _ & (e & p & rv & He & Hb)).
  assert (E1 : s_vfs s1 i = Some v) by congruence.
  pose proof (run_vfs resolve ops s1 i v W1 E1 F) as E2.
  pose proof (run_grow resolve ops s1 W1 (undisturbed_no_evict _ _ F)) as G2.
  assert (Hb2 : c_bytes (s_cells (fst (run resolve s1 ops)) (e_cell e)) = Some (p, rv, r)).
  { apply (gr_bytes _ _ G2); [eapply (w_cell _ W1), He|exact Hb]. }
  assert (He2 : aget f (m_entries (s_maps (fst (run resolve s1 ops)) (v_maps v))) = Some e).
  { apply (gr_entry _ _ G2); [lia|exact He]. }
  set (s2 := fst (run resolve s1 ops)) in *. cbn [step]. rewrite E2.
  rewrite (read_cached resolve v f s2 e p rv r He2 Hb2). reflexivity.
Qed.

(** ** C17: revisions *)
Lemma rstep_view : forall r o, match o with RNotify _ _ | RResetShadow => False | _ => True end -> rwf r ->
  r_view (rstep r o) = true.
Proof.
  intros r o H W. assert (WV : rwf (set_view r)) by exact W. destruct o; cbn [rstep]; try contradiction.
  - change (r_view (invalidate_path p (set_view r)) = true). now apply (invalidate_path_ext p _ WV).
  - change (r_view (invalidate_path p (set_view r)) = true). now apply (invalidate_path_ext p _ WV).
  - reflexivity.
  - reflexivity.
  - reflexivity.
Qed.
Lemma rsteps_view : forall ops r o, rwf r -> In o ops -> match o with RNotify _ _ | RResetShadow => False | _ => True end ->
  r_view (fold_left rstep ops r) = true.
Proof.
  induction ops as [|x ops IH]; intros r o W Hi Ho; [destruct Hi|]. cbn [fold_left].
  pose proof (rstep_grow r x W) as G. pose proof (rgrow_wf _ _ W G) as W'. destruct Hi as [->|Hi].
  - apply (g_view _ _ (rsteps_grow ops _ W')). now apply rstep_view.
  - now apply (IH _ o).
Qed.

Lemma revise_rev : forall i v ops s, wf s -> exists v', s_vfs (revise i v ops s) i = Some v' /\
  (v_rev v' = v_rev v \/ v_rev v' = S (v_rev v)) /\
  (r_view (fold_left rstep ops (revise_begin v s)) = true -> v_rev v' = S (v_rev v)).
Proof.
  intros i v ops s W. unfold revise.
  pose proof (rsteps_grow ops _ (revise_begin_wf v s W)) as G. pose proof (g_goal _ _ G) as Hg. cbn in Hg.
  set (r := fold_left rstep ops (revise_begin v s)) in *. clearbody r. unfold revise_end. cbn [s_vfs].
  rewrite upd_eq. eexists. split; [reflexivity|]. destruct (r_view r); cbn; split; auto; discriminate.
Qed.
Lemma step_rev : forall resolve s o i v, wf s -> s_vfs s i = Some v ->
  exists v', s_vfs (fst (step resolve s o)) i = Some v' /\ (v_rev v' = v_rev v \/ v_rev v' = S (v_rev v)).
Proof.
  intros resolve s o i v W Hi.
  assert (D : (forall l, o <> Revise i l) \/ exists l, o = Revise i l).
  { destruct o; try (left; discriminate). destruct (Nat.eq_dec i0 i) as [->|N]; [eauto|left; congruence]. }
  destruct D as [D|[l ->]].
  - exists v. split; [now apply step_vfs|auto].
  - cbn [step]. rewrite Hi. cbn [fst]. destruct (revise_rev i v l s W) as (v' & H1 & H2 & _). eauto.
Qed.
Lemma run_rev : forall resolve ops s i v, wf s -> s_vfs s i = Some v ->
  exists v', s_vfs (fst (run resolve s ops)) i = Some v' /\ v_rev v <= v_rev v'.
Proof.
  intros resolve. induction ops as [|o ops IH]; intros s i v W Hi; cbn [run]; [eauto|].
  pose proof (step_wf resolve s o W) as W1. destruct (step_rev resolve s o i v W Hi) as (v1 & H1 & H2).
  destruct (step resolve s o) as [s1 x]. cbn in *. destruct (IH s1 i v1 W1 H1) as (v2 & H3 & H4).
  destruct (run resolve s1 ops) as [s2 xs]. cbn in *. exists v2. split; [exact H3|lia].
Qed.

(** ** C18: skipping *)
Definition no_reset (o : rop) : Prop := match o with RResetCache => False | _ => True end.
Lemma rstep_dom : forall r o f, no_reset o -> rwf r -> (exists e, aget f (m_entries (r_maps r)) = Some e) ->
  exists e, aget f (m_entries (r_maps (rstep r o))) = Some e.
Proof.
  intros r o f H W [e He]. assert (WV : rwf (set_view r)) by exact W.
  assert (K : forall r' am, rext (set_view r) r' -> exists e, aget f (m_entries (r_maps (set_am r' am))) = Some e).
  { intros r' am X. cbn. eapply (x_dom _ _ X). exact He. }
  assert (K' : forall r' am, rext r r' -> exists e, aget f (m_entries (r_maps (set_am r' am))) = Some e).
  { intros r' am X. cbn. eapply (x_dom _ _ X). exact He. }
  destruct o; cbn [rstep]; try contradiction.
  - apply K, invalidate_path_ext, WV.
  - apply K, invalidate_path_ext, WV.
  - apply K, invalidate_id_ext, WV.
  - apply K, invalidate_id_ext, WV.
  - apply K'. pose proof (inval_paths_ext nat (fun p => p) (akeys (a_shadow (r_am r))) r W) as X.
    eapply rext_trans; [exact W|exact X|]. apply inval_ids_ext. exact (rext_wf _ _ W X).
  - apply K'. pose proof (inval_paths_ext nat (fun p => p) removes r W) as X.
    eapply rext_trans; [exact W|exact X|]. apply (inval_paths_ext _ fst). exact (rext_wf _ _ W X).
Qed.
Lemma rsteps_dom : forall ops r f, Forall no_reset ops -> rwf r -> (exists e, aget f (m_entries (r_maps r)) = Some e) ->
  exists e, aget f (m_entries (r_maps (fold_left rstep ops r))) = Some e.
Proof.
  induction ops as [|o ops IH]; intros r f F W H; cbn [fold_left]; [exact H|].
  inversion F; subst. apply IH; auto.
  - eapply rgrow_wf; [exact W|]. now apply rstep_grow.
  - now apply rstep_dom.
Qed.
Lemma kept_no_reset : forall l, ~ In RResetCache l -> Forall no_reset l.
Proof. intros l H. apply Forall_forall. intros [] Hx; cbn; auto. Qed.

(** The entry of a file in the map of an instance is the one it had, or newer. *)
Definition newer (f : nat) (e0 : entry) (rev : nat) (i : nat) (s : st) : Prop :=
  exists v e, s_vfs s i = Some v /\ rev <= v_rev v /\ aget f (m_entries (s_maps s (v_maps v))) = Some e /\
    (e = e0 \/ rev < e_changed e).
Lemma step_newer : forall resolve s o f e0 rev i, wf s -> cache_kept o -> newer f e0 rev i s ->
  newer f e0 rev i (fst (step resolve s o)).
Proof.
  intros resolve s o f e0 rev i W Ho (v & e & Hi & Hr & He & Hd).
  assert (D : (forall l, o <> Revise i l) \/ exists l, o = Revise i l).
  { destruct o; try (left; discriminate). destruct (Nat.eq_dec i0 i) as [->|N]; [eauto|left; congruence]. }
  destruct D as [D|[l ->]].
  - exists v, e. split; [now apply step_vfs|]. split; [exact Hr|]. split; [|exact Hd].
    assert (G : grow s (fst (step resolve s o))) by (apply step_grow; [exact W|]; destruct o; cbn in *; tauto).
    apply (gr_entry _ _ G); [apply (w_vfs _ W i v Hi)|exact He].
  - cbn [step]. rewrite Hi. cbn [fst]. cbn in Ho. unfold revise.
    pose proof (rsteps_grow l _ (revise_begin_wf v s W)) as G.
    assert (Q : exists e', aget f (m_entries (r_maps (fold_left rstep l (revise_begin v s)))) = Some e').
    { apply rsteps_dom; [now apply kept_no_reset|now apply revise_begin_wf|]. exists e. exact He. }
    set (r := fold_left rstep l (revise_begin v s)) in *. clearbody r. destruct Q as [e' He'].
    pose proof (g_goal _ _ G) as Hg. cbn in Hg. unfold newer, revise_end. cbn [s_vfs s_maps]. rewrite upd_eq.
    destruct (r_view r); eexists.
    + exists e'. split; [reflexivity|]. cbn [v_rev v_maps]. rewrite upd_eq. split; [lia|]. split; [exact He'|].
      destruct (g_entry _ _ G f e' He') as [H1|(_ & H1)]; cbn in H1.
      * assert (e' = e) as -> by congruence. exact Hd.
      * right. lia.
    + exists e. split; [reflexivity|]. cbn [v_rev v_maps]. auto.
Qed.
Lemma run_newer : forall resolve ops s f e0 rev i, wf s -> Forall cache_kept ops -> newer f e0 rev i s ->
  newer f e0 rev i (fst (run resolve s ops)).
Proof.
  intros resolve. induction ops as [|o ops IH]; intros s f e0 rev i W F H; cbn [run]; [exact H|].
  inversion F; subst. pose proof (step_wf resolve s o W) as W1.
  pose proof (step_newer resolve s o f e0 rev i W H2 H) as N1.
  destruct (step resolve s o) as [s1 x]. cbn in *. specialize (IH s1 f e0 rev i W1 H3 N1).
  destruct (run resolve s1 ops) as [s2 xs]. exact IH.
Qed.
Lemma kept_no_evict : forall ops, Forall cache_kept ops -> Forall no_evict ops.
Proof. intros ops. apply Forall_impl. intros []; cbn; auto. Qed.

(** A file that was read has an initialised entry; this persists. *)
Definition has_read (i f : nat) (r : fres) (s : st) : Prop :=
  exists v e p rv, s_vfs s i = Some v /\ aget f (m_entries (s_maps s (v_maps v))) = Some e /\
    c_bytes (s_cells s (e_cell e)) = Some (p, rv, r).
Lemma read_has_read : forall resolve s i f r, wf s -> snd (step resolve s (Read i f)) = RBytes r ->
  has_read i f r (fst (step resolve s (Read i f))).
Proof.
  intros resolve s i f r W. cbn [step]. destruct (s_vfs s i) as [v|] eqn:Ei; [|discriminate].
  destruct (read resolve v f s) as [s' r'] eqn:R. cbn [fst snd]. intros H. inversion H; subst r'.
  pose proof (w_vfs _ W i v Ei) as [_ Hh].
  destruct (read_ok _ _ _ _ _ _ W Hh R) as (_ & G & (V & _) & _ & (e & p & rv & He & Hb)).
  exists v, e, p, rv. split; [congruence|auto].
Qed.
Lemma has_read_read : forall resolve i f r s, has_read i f r s -> step resolve s (Read i f) = (s, RBytes r).
Proof.
  intros resolve i f r s (v & e & p & rv & Hi & He & Hb). cbn [step]. rewrite Hi.
  rewrite (read_cached resolve v f s e p rv r He Hb). reflexivity.
Qed.
Lemma has_read_run : forall resolve ops s i f r, wf s -> Forall (undisturbed i) ops -> has_read i f r s ->
  has_read i f r (fst (run resolve s ops)).
Proof.
  intros resolve ops s i f r W F (v & e & p & rv & Hi & He & Hb).
  pose proof (run_grow resolve ops s W (undisturbed_no_evict _ _ F)) as G.
  exists v, e, p, rv. split; [now apply run_vfs|]. split.
  - apply (gr_entry _ _ G); [apply (w_vfs _ W i v Hi)|exact He].
  - apply (gr_bytes _ _ G); [eapply (w_cell _ W), He|exact Hb].
Qed.
Lemma run_app : forall resolve a b s, fst (run resolve s (a ++ b)) = fst (run resolve (fst (run resolve s a)) b).
Proof.
  intros resolve. induction a as [|o a IH]; intros b s; cbn [run app]; [reflexivity|].
  destruct (step resolve s o) as [s1 x]. specialize (IH b s1).
  destruct (run resolve s1 a) as [s2 xs]. destruct (run resolve s1 (a ++ b)) as [s3 ys]. exact IH.
Qed.
Lemma ran_read : forall resolve ops s i f, wf s -> Forall (undisturbed i) ops -> s_vfs s i <> None ->
  In (Read i f) ops -> exists r, has_read i f r (fst (run resolve s ops)).
Proof.
  intros resolve ops s i f W F Hn Hin. apply in_split in Hin. destruct Hin as (a & b & ->).
  apply Forall_app in F. destruct F as [Fa Fb]. inversion Fb; subst.
  rewrite run_app. pose proof (run_wf resolve a s W) as Wa.
  destruct (s_vfs s i) as [v|] eqn:Ei; [|congruence]. pose proof (run_vfs resolve a s i v W Ei Fa) as Ea.
  set (sa := fst (run resolve s a)) in *. clearbody sa. cbn [run].
  assert (exists r, snd (step resolve sa (Read i f)) = RBytes r) as [r Hr].
  { cbn [step]. rewrite Ea. destruct (read resolve v f sa). cbn. eauto. }
  pose proof (read_has_read resolve sa i f r Wa Hr) as H. pose proof (step_wf resolve sa (Read i f) Wa) as W1.
  destruct (step resolve sa (Read i f)) as [s1 x]. cbn [fst] in *.
  pose proof (has_read_run resolve b s1 i f r W1 H2 H) as H3.
  exists r. destruct (run resolve s1 b) as [s2 ys]. exact H3.
Qed.

Lemma skip_sound : forall resolve s0 i v s1 j a b fs vb,
  reachable resolve s0 -> s_vfs s0 i = Some v -> step resolve s0 (Snapshot i) = (s1, RNew j) ->
  Forall (undisturbed i) a -> Forall (undisturbed j) a -> (forall f, In f fs -> In (Read j f) a) ->
  Forall cache_kept b ->
  let sa := fst (run resolve s1 a) in
  let sb := fst (run resolve sa b) in
  s_vfs sb i = Some vb -> is_clean vb (v_rev v) fs sb = true ->
  forall f, In f fs -> snd (step resolve sb (Read i f)) = snd (step resolve sa (Read j f)).
Proof.
  intros resolve s0 i v s1 j a b fs vb Hr Hi Hs Fi Fj Hfs Fb sa sb Hb Hc f Hf.
  apply reachable_wf in Hr. pose proof (step_wf resolve s0 (Snapshot i) Hr) as W1. rewrite Hs in W1. cbn [fst] in W1.
  cbn [step] in Hs. rewrite Hi in Hs. inversion Hs; subst s1 j; clear Hs.
  assert (E1 : s_vfs (add_vfs v s0) (s_nvfs s0) = Some v) by (cbn; apply upd_eq).
  assert (E2 : s_vfs (add_vfs v s0) i = Some v).
  { cbn. rewrite upd_neq; [exact Hi|]. apply (w_vfs _ Hr) in Hi. lia. }
  destruct (ran_read resolve a _ (s_nvfs s0) f W1 Fj ltac:(congruence) (Hfs f Hf)) as [r Hrd].
  fold sa in Hrd. rewrite (has_read_read resolve _ f r sa Hrd). cbn [snd].
  pose proof (run_wf resolve a _ W1) as Wa. fold sa in Wa.
  pose proof (run_vfs resolve a _ _ v W1 E2 Fi) as Ei. fold sa in Ei.
  pose proof (run_vfs resolve a _ _ v W1 E1 Fj) as Ej. fold sa in Ej.
  destruct Hrd as (v' & e & p & rv & Hv' & He & Hbytes). rewrite Ej in Hv'. inversion Hv'; subst v'.
  assert (N : newer f e (v_rev v) i sa) by (exists v, e; auto).
  pose proof (run_newer resolve b sa f e (v_rev v) i Wa Fb N) as Nb. fold sb in Nb.
  destruct Nb as (vb' & eb & Hvb & Hrev & Heb & Hd). rewrite Hb in Hvb. inversion Hvb; subst vb'.
  unfold is_clean in Hc. rewrite forallb_forall in Hc. specialize (Hc f Hf). rewrite Heb in Hc.
  apply Nat.leb_le in Hc. destruct Hd as [->|Hd]; [|lia].
  pose proof (run_grow resolve b sa Wa (kept_no_evict _ Fb)) as G. fold sb in G.
  assert (Hbb : c_bytes (s_cells sb (e_cell e)) = Some (p, rv, r)).
  { apply (gr_bytes _ _ G); [eapply (w_cell _ Wa), He|exact Hbytes]. }
  cbn [step]. rewrite Hb. rewrite (read_cached resolve vb f sb e p rv r Heb Hbb). reflexivity.
Qed.

(** ** C19: sources and bytes agree *)
Definition owns (s : st) (c f : nat) : Prop :=
  (exists h e, aget f (m_entries (s_maps s h)) = Some e /\ e_cell e = c) \/
  (exists t i, aget t (s_reads s) = Some (i, f, c)).
Definition cache_ok (cache : list (nat * shard)) : Prop :=
  forall f sh b rv r, In (f, sh) cache -> In (b, (rv, r)) (sh_sources sh) -> r = decoded f (FOk b).
Record own (s : st) : Prop := {
  o_uniq : forall c f g, owns s c f -> owns s c g -> f = g;
  o_src : forall c f r, owns s c f -> c_source (s_cells s c) = Some r ->
    exists p rv b, c_bytes (s_cells s c) = Some (p, rv, b) /\ r = decoded f b;
  o_cache : cache_ok (s_cache s)
}.
Lemma owns_lt : forall s c f, wf s -> owns s c f -> c < s_ncells s.
Proof.
  intros s c f W [(h & e & He & <-)|(t & i & H)]; [eapply (w_cell _ W), He|eapply (w_read _ W), H].
Qed.
Lemma own_init : forall disk, own (init disk).
Proof.
  intros disk. assert (N : forall c f, ~ owns (init disk) c f).
  { intros c f [(h & e & He & _)|(t & i & H)]; discriminate. }
  constructor.
  - intros c f g H. now apply N in H.
  - intros c f r H. now apply N in H.
  - intros f sh b rv r [].
Qed.

(** Ownership in the new state is old or of a new, unique cell without a source. *)
Lemma own_extend : forall s s', wf s -> own s ->
  (forall c f, owns s' c f -> owns s c f \/ s_ncells s <= c) ->
  (forall c f g, s_ncells s <= c -> owns s' c f -> owns s' c g -> f = g) ->
  (forall c f, owns s' c f -> s_ncells s <= c -> c_source (s_cells s' c) = None) ->
  (forall c, c < s_ncells s -> s_cells s' c = s_cells s c) ->
  s_cache s' = s_cache s -> own s'.
Proof.
  intros s s' W O H1 H2 H3 H4 H5. constructor.
  - intros c f g Hf Hg. destruct (H1 c f Hf) as [Af|Af]; [|eauto].
    destruct (H1 c g Hg) as [Ag|Ag]; [|eauto]. eapply (o_uniq _ O); eauto.
  - intros c f r Hf Hr. destruct (Nat.lt_ge_cases c (s_ncells s)) as [L|L].
    + destruct (H1 c f Hf) as [Af|Af]; [|lia]. rewrite H4 in * by exact L. eapply (o_src _ O); eauto.
    + rewrite (H3 c f Hf L) in Hr. discriminate.
  - rewrite H5. apply O.
Qed.
Lemma own_same : forall s s', own s -> (forall c f, owns s' c f -> owns s c f) -> s_cells s' = s_cells s ->
  cache_ok (s_cache s') -> own s'.
Proof.
  intros s s' O H1 H2 H3. constructor; [| |exact H3].
  - intros c f g Hf Hg. eapply (o_uniq _ O); eauto.
  - intros c f r Hf. rewrite H2. eapply (o_src _ O); eauto.
Qed.

Lemma own_slot : forall v f s s1 c, wf s -> own s -> v_maps v < s_nmaps s -> slot v f s = (s1, c) -> own s1 /\ owns s1 c f.
Proof.
  intros v f s s1 c W O Hh Hs.
  destruct (slot_ok _ _ _ _ _ W Hh Hs) as (W1 & _ & (V1&V2&V3&V4&V5) & C1 & L1 & (e & He & Hc) & EN & _ & D).
  split; [|left; eauto].
  destruct D as [[_ ->]|(Ec & N1 & Cs)]; [exact O|].
  apply (own_extend s); auto.
  - intros c' g [(h & e' & H1 & H2)|(t & i & H1)].
    + destruct (EN _ _ _ H1) as [H3|(-> & -> & H4 & H5 & _)]; [left; left; eauto|right; lia].
    + left. right. rewrite V5 in H1. eauto.
  - assert (K : forall c' g, s_ncells s <= c' -> owns s1 c' g -> g = f).
    { intros c' g L [(h & e' & H1 & H2)|(t & i & H1)].
      - destruct (EN _ _ _ H1) as [H3|(-> & -> & H4 & H5 & _)]; [|auto]. apply (w_cell _ W) in H3. lia.
      - rewrite V5 in H1. apply (w_read _ W) in H1. lia. }
    intros c' g1 g2 L H1 H2. rewrite (K _ _ L H1), (K _ _ L H2). reflexivity.
  - intros c' g Ho L. apply (owns_lt _ _ _ W1) in Ho. assert (c' = c) as -> by lia. rewrite Cs, upd_eq. reflexivity.
  - intros c' L. rewrite Cs, upd_neq by lia. reflexivity.
Qed.
Lemma owns_same : forall s s', (forall h, m_entries (s_maps s' h) = m_entries (s_maps s h)) -> s_reads s' = s_reads s ->
  forall c f, owns s' c f <-> owns s c f.
Proof.
  intros s s' H1 H2 c f. unfold owns. rewrite H2. split; (intros [(h & e & H)|H]; [left; exists h, e|right; exact H]).
  - now rewrite H1 in H.
  - now rewrite H1.
Qed.
Lemma own_read_content : forall resolve v c f s s1 r, wf s -> own s -> owns s c f -> read_content resolve v c f s = (s1, r) ->
  own s1 /\ owns s1 c f.
Proof.
  intros resolve v c f s s1 r W O Ho Hr. pose proof (owns_lt _ _ _ W Ho) as L.
  destruct (read_content_ok _ _ _ _ _ _ _ W L Hr) as (W1 & G & (V1&V2&V3&V4&V5) & C1 & N1 & E1 & B1 & K1 & S1 & I1).
  pose proof (owns_same s s1 E1 V5) as OS. split; [|now apply OS]. constructor.
  - intros c' g h. rewrite !OS. apply (o_uniq _ O).
  - intros c' g x. rewrite OS. intros Hg Hx. destruct (Nat.eq_dec c' c) as [->|N].
    + rewrite S1 in Hx. destruct (o_src _ O c g x Hg Hx) as (p & rv & b & Hb & Hd).
      rewrite (I1 _ Hb). eauto.
    + rewrite (K1 c' N) in *. eapply (o_src _ O); eauto.
  - rewrite C1. apply O.
Qed.

Lemma decoded_ok : forall f b, decoded f (FOk b) = match from_utf8_or_bom b with Some t => SOk f t | None => SErr invalid_utf8 end.
Proof.
  intros f b. unfold decoded, from_utf8_or_bom. cbn zeta.
  destruct (utf8_valid _); reflexivity.
Qed.
Lemma cache_get_in : forall b l x, cache_get b l = Some x -> In (b, x) l.
Proof.
  intros b. induction l as [|[b' y] l IH]; intros x; cbn; [discriminate|].
  destruct (list_eq_dec N.eq_dec b b') as [->|N]; intros H; [inversion H; auto|auto].
Qed.
Lemma in_adel : forall A k (x : nat * A) l, In x (adel k l) -> In x l.
Proof. intros A k x l H. unfold adel in H. apply filter_In in H. tauto. Qed.
Lemma in_aset : forall A k v (x : nat * A) l, In x (aset k v l) -> x = (k, v) \/ In x l.
Proof. intros A k v x l [H|H]; [auto|right; eapply in_adel, H]. Qed.
Lemma parse_ok : forall rev f b cache cache' r, cache_ok cache -> parse rev f b cache = (cache', r) ->
  cache_ok cache' /\ r = decoded f (FOk b).
Proof.
  intros rev f b cache cache' r K. unfold parse.
  set (sh := match aget f cache with Some sh => sh | None => no_shard end).
  assert (KS : forall b' rv x, In (b', (rv, x)) (sh_sources sh) -> x = decoded f (FOk b')).
  { intros b' rv x. unfold sh. destruct (aget f cache) as [sh'|] eqn:E; [|intros []].
    apply aget_in in E. apply (K f sh' b' rv x E). }
  destruct (cache_get b (sh_sources sh)) as [[rv x]|] eqn:E.
  - intros H. inversion H; subst. apply cache_get_in in E. split; [|eapply KS, E].
    intros g sh' b' rv' x' Hi. apply in_aset in Hi. destruct Hi as [Q|Q].
    + inversion Q; subst. apply KS.
    + eapply K, Q.
  - rewrite decoded_ok.
    set (q := match from_utf8_or_bom b with Some t => SOk f t | None => SErr invalid_utf8 end).
    assert (KQ : forall recent g sh' b' rv' x',
       In (g, sh') (aset f (mkShard (sh_rev sh) recent ((b, (rev, q)) :: sh_sources sh)) cache) ->
       In (b', (rv', x')) (sh_sources sh') -> x' = decoded g (FOk b')).
    { intros recent g sh' b' rv' x' Hi. apply in_aset in Hi. destruct Hi as [Q|Q].
      - inversion Q; subst. cbn [sh_sources]. intros [X|X]; [|eapply KS, X].
        inversion X; subst b'. rewrite decoded_ok. reflexivity.
      - eapply K, Q. }
    destruct (from_utf8_or_bom b) as [t|]; intros H; inversion H; subst; split; auto;
      intros g sh' b' rv' x'; apply KQ.
Qed.
Lemma own_source : forall resolve v f s s1 r, wf s -> own s -> v_maps v < s_nmaps s -> source resolve v f s = (s1, r) -> own s1.
Proof.
  intros resolve v f s s1 r W O Hh. unfold source. destruct (slot v f s) as [s0 c] eqn:Es.
  destruct (slot_ok v f s s0 c W Hh Es) as (W0 & _ & _ & _ & C0 & _).
  destruct (own_slot v f s s0 c W O Hh Es) as [O0 H0].
  destruct (c_source (s_cells s0 c)) as [q|] eqn:Eq.
  - intros H. inversion H; subst. exact O0.
  - destruct (read_content resolve v c f s0) as [s2 b] eqn:Er.
    destruct (own_read_content _ _ _ _ _ _ _ W0 O0 H0 Er) as [O2 H2].
    destruct (read_content_ok _ _ _ _ _ _ _ W0 C0 Er) as (_ & _ & _ & _ & _ & _ & (p & rv & B2) & _).
    assert (K : forall cache, cache_ok cache ->
       own (set_cache (set_cell s2 c (mkCell (c_bytes (s_cells s2 c)) (Some (decoded f b)))) cache)).
    { intros cache Kc. constructor; cbn.
      - apply (o_uniq _ O2).
      - intros c' g x Hg. unfold upd. destruct (Nat.eqb_spec c' c) as [->|N].
        + cbn. intros X. inversion X. assert (g = f) as -> by (eapply (o_uniq _ O2); eauto). eauto.
        + apply (o_src _ O2), Hg.
      - exact Kc. }
    destruct b as [b|err].
    + destruct (parse (v_rev v) f b (s_cache s2)) as [cache q] eqn:Ep. intros H. inversion H; subst.
      destruct (parse_ok _ _ _ _ _ _ (o_cache _ O2) Ep) as [Kc ->]. now apply K.
    + intros H. inversion H; subst. specialize (K _ (o_cache _ O2)). destruct s2; exact K.
Qed.

Lemma own_evict_cache : forall rev n s, cache_ok (s_cache s) -> cache_ok (s_cache (evict_cache rev n s)).
Proof.
  intros rev n s K f sh b rv r. unfold evict_cache. cbn [s_cache set_cache]. rewrite in_map_iff.
  intros ([g sh'] & H1 & H2). cbn in H1. inversion H1; subst. apply filter_In in H2. cbn.
  intros H3. apply filter_In in H3. eapply K; [apply H2|apply H3].
Qed.

Lemma own_revise : forall i v ops s, wf s -> own s -> own (revise i v ops s).
Proof.
  intros i v ops s W O. unfold revise. pose proof (rsteps_grow ops _ (revise_begin_wf v s W)) as G.
  set (r := fold_left rstep ops (revise_begin v s)) in *. clearbody r. unfold revise_end.
  assert (EN : forall h f e, aget f (m_entries ((if r_view r then upd (s_maps s) (s_nmaps s) (r_maps r) else s_maps s) h)) = Some e ->
     aget f (m_entries (s_maps s h)) = Some e \/ aget f (m_entries (r_maps r)) = Some e).
  { intros h f e. destruct (r_view r); [|auto]. unfold upd. destruct (h =? s_nmaps s); auto. }
  assert (K : forall c f, owns (mkSt (s_vfs s) (s_nvfs s) (if r_view r then upd (s_maps s) (s_nmaps s) (r_maps r) else s_maps s)
      (s_nmaps s) (s_cells s) (s_ncells s) (s_disk s) (s_cache s) (s_reads s)) c f ->
      owns s c f \/ (s_ncells s <= c < r_ncells r /\ exists e, aget f (m_entries (r_maps r)) = Some e /\ e_cell e = c)).
  { intros c f [(h & e & He & Hc)|H]; [|left; right; exact H]. cbn in He.
    destruct (EN _ _ _ He) as [H1|H1]; [left; left; eauto|].
    destruct (g_entry _ _ G f e H1) as [H2|[H2 _]].
    - left. left. exists (v_maps v), e. auto.
    - right. cbn in H2. rewrite Hc in H2. split; [exact H2|]. eauto. }
  unfold owns in K. cbn in K.
  apply (own_extend s); auto; unfold owns; cbn [s_maps s_reads s_cells s_cache].
  - intros c f H. destruct (K c f H) as [H1|[H1 _]]; [auto|lia].
  - intros c f g L Hf Hg. destruct (K c f Hf) as [H1|(_ & e1 & H1 & E1)]; [apply (owns_lt _ _ _ W) in H1; lia|].
    destruct (K c g Hg) as [H2|(_ & e2 & H2 & E2)]; [apply (owns_lt _ _ _ W) in H2; lia|].
    assert (D : f = g \/ (aget f (m_entries (r_maps (revise_begin v s))) = Some e1 /\ aget g (m_entries (r_maps (revise_begin v s))) = Some e2)).
    { apply (g_dist _ _ G); cbn; auto; lia. }
    destruct D as [D|[D _]]; [exact D|]. apply (w_cell _ W) in D. lia.
  - intros c f H L. destruct (K c f H) as [H1|[H1 _]]; [apply (owns_lt _ _ _ W) in H1; lia|].
    rewrite (g_fresh _ _ G); cbn; [reflexivity|lia|lia].
  - intros c L. apply (g_old _ _ G). exact L.
Qed.
Lemma own_read : forall resolve v f s s1 r, wf s -> own s -> v_maps v < s_nmaps s -> read resolve v f s = (s1, r) -> own s1.
Proof.
  intros resolve v f s s1 r W O Hh. unfold read. destruct (slot v f s) as [s0 c] eqn:Es. intros Er.
  destruct (own_slot v f s s0 c W O Hh Es) as [O0 H0].
  destruct (slot_ok v f s s0 c W Hh Es) as (W0 & _).
  eapply own_read_content in Er; eauto. tauto.
Qed.

Lemma step_own : forall resolve s o, wf s -> own s -> own (fst (step resolve s o)).
Proof.
  intros resolve s o W O. destruct o as [j|j|j f|j f|t j f|t|j l|j n|j n|p c]; cbn [step];
    try (destruct (s_vfs s j) as [u|] eqn:E; [pose proof (proj2 (w_vfs _ W j u E)) as Hh|exact O]).
  - apply (own_same s); auto. apply O.
  - apply (own_same s); auto; [|apply O]. intros c f [(h & e & He & Hc)|H]; [|right; exact H].
    left. cbn in He. unfold upd in He. destruct (h =? s_nmaps s); [discriminate|]. eauto.
  - destruct (read resolve u f s) as [s' r] eqn:R. cbn. eapply own_read; eauto.
  - destruct (source resolve u f s) as [s' r] eqn:R. cbn. eapply own_source; eauto.
  - destruct (slot u f s) as [s' c] eqn:R. cbn. destruct (own_slot _ _ _ _ _ W O Hh R) as [O1 H1].
    apply (own_same s'); auto; [|apply O1]. intros c' g [(h & e & He & Hc)|(t' & i' & H)]; [left; eauto|].
    cbn in H. rewrite aget_aset in H. destruct (t' =? t).
    + inversion H; subst. exact H1.
    + right. eauto.
  - destruct (aget t (s_reads s)) as [[[j f] c]|] eqn:R; [|exact O].
    destruct (s_vfs s j) as [u|] eqn:E; [|exact O]. destruct (read_content resolve u c f s) as [s' r] eqn:Q. cbn.
    assert (Ho : owns s c f) by (right; eauto).
    destruct (own_read_content _ _ _ _ _ _ _ W O Ho Q) as [O1 _].
    apply (own_same s'); auto; [|apply O1]. intros c' g [(h & e & He & Hc)|(t' & i' & H)]; [left; eauto|].
    cbn in H. rewrite aget_adel in H. destruct (t' =? t); [discriminate|]. right. eauto.
  - now apply own_revise.
  - cbn [fst]. apply (own_same s); auto; [|apply O]. intros c f [(h & e & He & Hc)|H]; [|right; exact H].
    left. apply evict_sub in He. eauto.
  - cbn [fst]. apply (own_same s); auto. apply own_evict_cache, O.
  - apply (own_same s); auto. apply O.
Qed.
Lemma run_own : forall resolve ops s, wf s -> own s -> own (fst (run resolve s ops)).
Proof.
  intros resolve. induction ops as [|o ops IH]; intros s W O; cbn [run]; [exact O|].
  pose proof (step_wf resolve s o W) as W1. pose proof (step_own resolve s o W O) as O1.
  destruct (step resolve s o) as [s1 x]. cbn in *.
  specialize (IH s1 W1 O1). destruct (run resolve s1 ops) as [s2 xs]. exact IH.
Qed.
Lemma reachable_own : forall resolve s, reachable resolve s -> own s.
Proof. intros resolve s (disk & ops & ->). apply run_own; [apply wf_init|apply own_init]. Qed.

(** A file whose source was taken has an entry with both cells set. *)
Lemma source_has_read : forall resolve s i f r, wf s -> own s -> snd (step resolve s (ReadSource i f)) = RSource r ->
  let s1 := fst (step resolve s (ReadSource i f)) in
  exists b, has_read i f b s1 /\ r = decoded f b.
Proof.
  intros resolve s i f r W O. pose proof (step_own resolve s (ReadSource i f) W O) as O1. revert O1. cbn [step].
  destruct (s_vfs s i) as [v|] eqn:Ei; [|discriminate].
  destruct (source resolve v f s) as [s' r'] eqn:R. cbn [fst snd]. intros O1 H. inversion H; subst r'.
  pose proof (w_vfs _ W i v Ei) as [_ Hh].
  destruct (source_ok _ _ _ _ _ _ W Hh R) as (_ & G & (V & _) & (e & He & Hb)).
  destruct (o_src _ O1 (e_cell e) f r ltac:(left; eauto) Hb) as (p & rv & b & H1 & H2).
  exists b. split; [|exact H2]. exists v, e, p, rv. split; [congruence|auto].
Qed.
Lemma source_then_bytes : forall resolve s i f r b ops, reachable resolve s -> Forall (undisturbed i) ops ->
  snd (step resolve s (ReadSource i f)) = RSource r ->
  snd (step resolve (fst (run resolve (fst (step resolve s (ReadSource i f))) ops)) (Read i f)) = RBytes b ->
  r = decoded f b.
Proof.
  intros resolve s i f r b ops Hr F Hs Hb. pose proof (reachable_own _ _ Hr) as O. apply reachable_wf in Hr.
  destruct (source_has_read resolve s i f r Hr O Hs) as (b' & H1 & ->).
  pose proof (step_wf resolve s (ReadSource i f) Hr) as W1.
  apply (has_read_run resolve ops _ i f b' W1 F) in H1. rewrite (has_read_read resolve _ _ _ _ H1) in Hb.
  cbn in Hb. congruence.
Qed.
Lemma bytes_then_source : forall resolve s i f r b ops, reachable resolve s -> Forall (undisturbed i) ops ->
  snd (step resolve s (Read i f)) = RBytes b ->
  snd (step resolve (fst (run resolve (fst (step resolve s (Read i f))) ops)) (ReadSource i f)) = RSource r ->
  r = decoded f b.
Proof.
  intros resolve s i f r b ops Hr F Hb Hs. pose proof (reachable_own _ _ Hr) as O. apply reachable_wf in Hr.
  pose proof (read_has_read resolve s i f b Hr Hb) as H1.
  pose proof (step_wf resolve s (Read i f) Hr) as W1. pose proof (step_own resolve s (Read i f) Hr O) as O1.
  set (s1 := fst (step resolve s (Read i f))) in *. clearbody s1.
  pose proof (run_wf resolve ops s1 W1) as W2. pose proof (run_own resolve ops s1 W1 O1) as O2.
  apply (has_read_run resolve ops _ i f b W1 F) in H1.
  set (s2 := fst (run resolve s1 ops)) in *. clearbody s2.
  destruct (source_has_read resolve s2 i f r W2 O2 Hs) as (b' & H2 & ->).
  assert (H3 : has_read i f b (fst (step resolve s2 (ReadSource i f)))).
  { apply (has_read_run resolve [ReadSource i f]) in H1; [|exact W2|repeat constructor].
    cbn [run] in H1. destruct (step resolve s2 (ReadSource i f)) as [s3 x]. exact H1. }
  pose proof (has_read_read resolve _ _ _ _ H2) as E2. rewrite (has_read_read resolve _ _ _ _ H3) in E2. congruence.
Qed.

Lemma reset_recompiles : forall resolve s i ops vb rev fs, fs <> [] ->
  let sb := fst (step resolve s (Revise i (ops ++ [RResetCache]))) in
  s_vfs sb i = Some vb -> is_clean vb rev fs sb = false.
Proof.
  intros resolve s i ops vb rev fs Hne. cbn zeta. unfold step.
  destruct (s_vfs s i) as [v|] eqn:Ev; cbn [fst]; [|intro X; rewrite Ev in X; discriminate X].
  unfold revise. rewrite fold_left_app. cbn [fold_left].
  set (r := fold_left rstep ops (revise_begin v s)). unfold rstep, revise_end.
  cbn [set_rmaps set_view r_view r_goal r_am r_maps s_vfs].
  unfold upd at 1. rewrite Nat.eqb_refl. intro X. inversion X; subst. clear X.
  unfold is_clean. cbn [v_maps s_maps]. unfold upd. rewrite Nat.eqb_refl. cbn [no_maps m_entries].
  destruct fs as [|f fs]; [congruence|]. reflexivity.
Qed.
