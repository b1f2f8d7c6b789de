(** The counts are those of the calls. *)
From Coq Require Import String Ascii List Arith Bool Lia.
From Verif Require Import CovModel CovSpec.
Import ListNotations.
Local Open Scope nat_scope.
Local Open Scope list_scope.

Lemma bump_ok : forall i l, i < length l -> exists l', bump i l = Some l' /\ length l' = length l /\
  forall k, nth_error l' k = if k =? i then option_map incr (nth_error l k) else nth_error l k.
Proof.
  induction i; intros [|c l] H; cbn in H; try lia; cbn [bump].
  - exists (incr c :: l). repeat split. intros [|k]; reflexivity.
  - destruct (IHi l) as (l' & -> & H1 & H2); [lia|]. exists (c :: l'). cbn. rewrite H1. repeat split.
    intros [|k]; [reflexivity|]. cbn. apply H2.
Qed.

Lemma bump_heap_ok : forall p i h r, nth_error h p = Some r -> i < length r -> exists h' r',
  bump_heap p i h = Some h' /\ length h' = length h /\ length r' = length r /\
  (forall k, nth_error r' k = if k =? i then option_map incr (nth_error r k) else nth_error r k) /\
  forall q, nth_error h' q = if q =? p then Some r' else nth_error h q.
Proof.
  induction p; intros i [|r0 h] r Hr Hi; cbn in Hr; try discriminate; cbn [bump_heap].
  - injection Hr as ->. destruct (bump_ok i r Hi) as (r' & -> & H1 & H2).
    exists (r' :: h), r'. cbn. repeat split; auto. intros [|q]; reflexivity.
  - destruct (IHp i h r Hr Hi) as (h' & r' & -> & H1 & H2 & H3 & H4).
    exists (r0 :: h'), r'. cbn. rewrite H1. repeat split; auto. intros [|q]; [reflexivity|]. cbn. apply H4.
Qed.

Lemma run_app : forall base a b w, run base (a ++ b) w = match run base a w with Some w' => run base b w' | None => None end.
Proof.
  induction a as [|o a IH]; intros b w; cbn [app run]; [reflexivity|]. destruct (step base o w); [apply IH|reflexivity].
Qed.

Lemma calls_snoc_read : forall f i l g, calls_of f i (l ++ [Read g]) = calls_of f i l.
Proof. intros. unfold calls_of. rewrite filter_app, app_length. cbn. lia. Qed.
Lemma calls_snoc_call : forall f i l g j,
  calls_of f i (l ++ [Call g j]) = calls_of f i l + (if (g =? f) && (j =? i) then 1 else 0).
Proof. intros. unfold calls_of. rewrite filter_app, app_length. cbn. destruct ((g =? f) && (j =? i)); cbn; lia. Qed.

Record Inv (base : nat -> option node) (l : list op) (w : world) : Prop := {
  inv_given : forall f, get f (given w) = None <-> ~ In (Read f) l;
  inv_text : forall f r, get f (given w) = Some r -> r = option_map (fun root => fst (instrument root)) (base f);
  inv_none : forall f, (~ In (Read f) l \/ base f = None) -> get f (regions (counts w)) = None;
  inv_some : forall f root, In (Read f) l -> base f = Some root ->
    exists p h, get f (regions (counts w)) = Some p /\ nth_error (heap (counts w)) p = Some h /\
      length h = length (snd (instrument root)) /\
      get f (metas (counts w)) = Some (snd (instrument root)) /\
      forall i, i < length h -> nth_error h i = Some (Nat.min 255 (calls_of f i l));
  inv_inj : forall f g p, get f (regions (counts w)) = Some p -> get g (regions (counts w)) = Some p -> f = g;
  inv_last : forall f p, last_hit (counts w) = Some (f, p) -> get f (regions (counts w)) = Some p;
  inv_calls : forall f i, ~ In (Read f) l -> calls_of f i l = 0
}.

Lemma Inv_0 : forall base, Inv base [] world0.
Proof.
  intro base. constructor; cbn; try tauto; try congruence; try reflexivity.
Qed.

Lemma get_cons : forall A k x (v : A) l, get k ((x, v) :: l) = if k =? x then Some v else get k l.
Proof. reflexivity. Qed.

Lemma Inv_read : forall base l w f, Inv base l w -> Inv base (l ++ [Read f]) (fst (source base f w)).
Proof.
  intros base l w f H. unfold source.
  destruct (get f (given w)) as [r|] eqn:Eg.
  - assert (Hin : In (Read f) l).
    { destruct (in_dec (fun a b : op => ltac:(decide equality; apply Nat.eq_dec)) (Read f) l) as [Hd|Hd]; [exact Hd|].
      apply (inv_given _ _ _ H) in Hd. congruence. }
    assert (Hiff : forall g, In (Read g) (l ++ [Read f]) <-> In (Read g) l).
    { intro g. rewrite in_app_iff. cbn. split; [|tauto]. intros [Hg|[Hg|[]]]; [exact Hg|]. injection Hg as ->. exact Hin. }
    cbn [fst]. destruct H as [H1 H2 H3 H4 H5 H6 H7]. constructor; auto.
    + intro g. rewrite Hiff. apply H1.
    + intros g Hg. apply H3. rewrite Hiff in Hg. exact Hg.
    + intros g root Hg Hb. rewrite Hiff in Hg. destruct (H4 g root Hg Hb) as (p & h & A & B & C & D & E).
      exists p, h. repeat split; auto. intros i Hi. rewrite calls_snoc_read. auto.
    + intros g i Hg. rewrite Hiff in Hg. rewrite calls_snoc_read. auto.
  - assert (Hnin : ~ In (Read f) l) by (apply (inv_given _ _ _ H); exact Eg).
    assert (Hiff : forall g, In (Read g) (l ++ [Read f]) <-> In (Read g) l \/ g = f).
    { intro g. rewrite in_app_iff. cbn. split; [|intros [?| ->]; tauto]. intros [Hg|[Hg|[]]]; [tauto|]. injection Hg as ->. tauto. }
    destruct H as [H1 H2 H3 H4 H5 H6 H7].
    destruct (base f) as [root|] eqn:Eb.
    + destruct (instrument root) as [t m] eqn:Ei. cbn [fst].
      assert (Hfresh : forall g p, get g (regions (counts w)) = Some p -> p < length (heap (counts w))).
      { intros g p Hg. destruct (in_dec (fun a b : op => ltac:(decide equality; apply Nat.eq_dec)) (Read g) l) as [Hd|Hd].
        - destruct (base g) as [rg|] eqn:Ebg.
          + destruct (H4 g rg Hd Ebg) as (p' & h & A & B & _). rewrite Hg in A. injection A as <-. apply nth_error_Some. congruence.
          + rewrite H3 in Hg by auto. discriminate.
        - rewrite H3 in Hg by auto. discriminate. }
      constructor; cbn [given counts add_file regions heap last_hit metas].
      * intro g. rewrite get_cons, Hiff. destruct (g =? f) eqn:E; [apply Nat.eqb_eq in E; split; [discriminate|tauto]|].
        apply Nat.eqb_neq in E. rewrite H1. tauto.
      * intros g r. rewrite get_cons. destruct (g =? f) eqn:E.
        -- apply Nat.eqb_eq in E. subst g. intro Hr. injection Hr as <-. rewrite Eb. cbn. rewrite Ei. reflexivity.
        -- apply H2.
      * intros g Hg. rewrite get_cons. destruct (g =? f) eqn:E.
        -- apply Nat.eqb_eq in E. subst g. rewrite Hiff in Hg. destruct Hg as [Hg|Hg]; [tauto|congruence].
        -- apply H3. rewrite Hiff in Hg. tauto.
      * intros g rg Hg Hb. rewrite !get_cons. destruct (g =? f) eqn:E.
        -- apply Nat.eqb_eq in E. subst g. rewrite Eb in Hb. injection Hb as <-. rewrite Ei. cbn [snd].
           exists (length (heap (counts w))), (repeat 0 (length m)). rewrite nth_error_app2, Nat.sub_diag by lia.
           rewrite repeat_length. repeat split; auto. intros i Hi. rewrite calls_snoc_read, H7 by exact Hnin. cbn.
           rewrite nth_error_repeat by exact Hi. reflexivity.
        -- apply Nat.eqb_neq in E. rewrite Hiff in Hg. destruct Hg as [Hg|Hg]; [|congruence].
           destruct (H4 g rg Hg Hb) as (p & h & A & B & C & D & F). exists p, h.
           rewrite nth_error_app1 by (apply nth_error_Some; congruence). repeat split; auto.
           intros i Hi. rewrite calls_snoc_read. auto.
      * intros g g' p. rewrite !get_cons. destruct (g =? f) eqn:E, (g' =? f) eqn:E'.
        -- apply Nat.eqb_eq in E, E'. congruence.
        -- intros Hp Hp'. injection Hp as <-. apply Hfresh in Hp'. lia.
        -- intros Hp Hp'. injection Hp' as <-. apply Hfresh in Hp. lia.
        -- apply H5.
      * intros g p Hl. rewrite get_cons. apply H6 in Hl. destruct (g =? f) eqn:E; [|exact Hl].
        apply Nat.eqb_eq in E. subst g. rewrite H3 in Hl by auto. discriminate.
      * intros g i Hg. rewrite Hiff in Hg. rewrite calls_snoc_read. apply H7. tauto.
    + cbn [fst]. constructor; cbn [given counts].
      * intro g. rewrite get_cons, Hiff. destruct (g =? f) eqn:E; [apply Nat.eqb_eq in E; split; [discriminate|tauto]|].
        apply Nat.eqb_neq in E. rewrite H1. tauto.
      * intros g r. rewrite get_cons. destruct (g =? f) eqn:E.
        -- apply Nat.eqb_eq in E. subst g. intro Hr. injection Hr as <-. rewrite Eb. reflexivity.
        -- apply H2.
      * intros g Hg. rewrite Hiff in Hg. apply H3. destruct Hg as [Hg|Hg]; [tauto|]. right. exact Hg.
      * intros g rg Hg Hb. rewrite Hiff in Hg. destruct Hg as [Hg|Hg]; [|congruence].
        destruct (H4 g rg Hg Hb) as (p & h & A & B & C & D & F). exists p, h. repeat split; auto.
        intros i Hi. rewrite calls_snoc_read. auto.
      * exact H5.
      * exact H6.
      * intros g i Hg. rewrite Hiff in Hg. rewrite calls_snoc_read. apply H7. tauto.
Qed.

Lemma incr_min : forall c, incr (Nat.min 255 c) = Nat.min 255 (c + 1).
Proof. intro c. unfold incr. lia. Qed.

Lemma Inv_call : forall base l w f i root, Inv base l w -> In (Read f) l -> base f = Some root ->
  i < length (snd (instrument root)) ->
  exists s, cov_pc f i (counts w) = Some s /\ Inv base (l ++ [Call f i]) {| given := given w; counts := s |}.
Proof.
  intros base l w f i root H Hin Hb Hi. destruct (inv_some _ _ _ H f root Hin Hb) as (p & h & A & B & C & D & E).
  assert (Hi' : i < length h) by lia.
  destruct (bump_heap_ok p i (heap (counts w)) h B Hi') as (h' & r' & F1 & F2 & F3 & F4 & F5).
  assert (Hiff : forall g, In (Read g) (l ++ [Call f i]) <-> In (Read g) l).
  { intro g. rewrite in_app_iff. cbn. split; [|tauto]. intros [Hg|[Hg|[]]]; [exact Hg|]. discriminate. }
  assert (HI : forall lh, (forall g q, lh = Some (g, q) -> get g (regions (counts w)) = Some q) ->
    Inv base (l ++ [Call f i]) {| given := given w; counts := {| heap := h'; regions := regions (counts w); last_hit := lh; metas := metas (counts w) |} |}).
  { intros lh Hlh. destruct H as [H1 H2 H3 H4 H5 H6 H7]. constructor; cbn [given counts heap regions last_hit metas]; auto.
    - intro g. rewrite Hiff. apply H1.
    - intros g Hg. apply H3. rewrite Hiff in Hg. exact Hg.
    - intros g rg Hg Hbg. rewrite Hiff in Hg. destruct (H4 g rg Hg Hbg) as (p2 & h2 & A2 & B2 & C2 & D2 & E2).
      destruct (Nat.eq_dec g f) as [->|Hne].
      + rewrite Hb in Hbg. injection Hbg as <-. rewrite A in A2. injection A2 as <-. rewrite B in B2. injection B2 as <-.
        exists p, r'. rewrite F5, Nat.eqb_refl. repeat split; auto; [lia|].
        intros k Hk. rewrite F4, calls_snoc_call, Nat.eqb_refl. cbn [andb].
        rewrite Nat.eqb_sym. destruct (i =? k) eqn:Ek.
        * rewrite E by lia. cbn [option_map]. rewrite incr_min. reflexivity.
        * rewrite E by lia. rewrite Nat.add_0_r. reflexivity.
      + exists p2, h2. rewrite F5. replace (p2 =? p) with false.
        * split; [exact A2|]. split; [exact B2|]. split; [exact C2|]. split; [exact D2|]. intros k Hk. rewrite calls_snoc_call.
          replace (f =? g) with false by (symmetry; apply Nat.eqb_neq; auto). cbn [andb]. rewrite Nat.add_0_r. auto.
        * symmetry. apply Nat.eqb_neq. intro Hp. subst p2. apply Hne. eapply H5; eassumption.
    - intros g k Hg. rewrite Hiff in Hg. rewrite calls_snoc_call. replace (f =? g) with false; [cbn [andb]; rewrite Nat.add_0_r; auto|].
      symmetry. apply Nat.eqb_neq. intro Hx. subst g. tauto. }
  unfold cov_pc.
  assert (Hslow : exists s,
    match get f (regions (counts w)) with
    | Some p => option_map (fun h => {| heap := h; regions := regions (counts w); last_hit := Some (f, p); metas := metas (counts w) |})
                  (bump_heap p i (heap (counts w)))
    | None => None
    end = Some s /\ Inv base (l ++ [Call f i]) {| given := given w; counts := s |}).
  { rewrite A, F1. cbn. eexists. split; [reflexivity|]. apply HI. intros g q Hgq. injection Hgq as <- <-. exact A. }
  destruct (last_hit (counts w)) as [[g q]|] eqn:El; [|exact Hslow].
  destruct (g =? f) eqn:Egf; [|exact Hslow].
  apply Nat.eqb_eq in Egf. subst g. pose proof (inv_last _ _ _ H f q El) as Hq. rewrite A in Hq. injection Hq as <-.
  rewrite F1. cbn. eexists. split; [reflexivity|]. apply HI. intros g2 q2 Hgq. apply (inv_last _ _ _ H). congruence.
Qed.

Lemma legal_inv : forall base l, legal base l -> exists w, run base l world0 = Some w /\ Inv base l w.
Proof.
  intros base l H. induction H as [|l f Hl IH|l f i root Hl IH Hin Hb Hi].
  - exists world0. split; [reflexivity|apply Inv_0].
  - destruct IH as (w & Hr & HI). exists (fst (source base f w)). split; [|apply Inv_read; exact HI].
    rewrite run_app, Hr. reflexivity.
  - destruct IH as (w & Hr & HI). destruct (Inv_call base l w f i root HI Hin Hb Hi) as (s & Hs & HI').
    eexists. split; [|exact HI']. rewrite run_app, Hr. cbn [run step]. rewrite Hs. reflexivity.
Qed.

(** The report *)
Lemma details_eq : forall range (cnt : nat -> nat) m h i,
  (forall k, k < length m -> nth_error h (i + k) = Some (Nat.min 255 (cnt (i + k)))) ->
  details range h i m =
  Some (flat_map (fun '(k, (sp, _)) => match range sp with Some r => [(0 <? cnt k, r)] | None => [] end) (combine (seq i (length m)) m)).
Proof.
  intros range cnt m. induction m as [|[sp mk] m IH]; intros h i H; [reflexivity|]. cbn [details length seq combine flat_map].
  assert (HS : forall k, k < length m -> nth_error h (S i + k) = Some (Nat.min 255 (cnt (S i + k)))).
  { intros k Hk. replace (S i + k) with (i + S k) by lia. apply H. cbn. lia. }
  destruct (range sp) as [r|]; [|apply IH; exact HS].
  specialize (H 0 ltac:(cbn; lia)). rewrite Nat.add_0_r in H. rewrite H, (IH h (S i) HS). cbn [option_map app].
  do 3 f_equal. destruct (cnt i); [reflexivity|]. apply Nat.ltb_lt. lia.
Qed.

Lemma covered_eq : forall (cnt : nat -> nat) h i,
  (forall k, k < length h -> nth_error h k = Some (Nat.min 255 (cnt (i + k)))) ->
  length (filter (fun c => 0 <? c) h) = length (filter (fun k => 0 <? cnt k) (seq i (length h))).
Proof.
  intros cnt h. induction h as [|c h IH]; intros i H; [reflexivity|]. cbn [filter length seq].
  assert (Hc : c = Nat.min 255 (cnt i)).
  { specialize (H 0 ltac:(cbn; lia)). rewrite Nat.add_0_r in H. cbn [nth_error] in H. injection H as H. exact H. }
  assert (Hb : (0 <? c) = (0 <? cnt i)). { rewrite Hc. destruct (cnt i); [reflexivity|]. transitivity true; [apply Nat.ltb_lt; lia|reflexivity]. }
  assert (HI : length (filter (fun c => 0 <? c) h) = length (filter (fun k => 0 <? cnt k) (seq (S i) (length h)))).
  { apply IH. intros k Hk. specialize (H (S k) ltac:(cbn; lia)). cbn [nth_error] in H. rewrite H. do 3 f_equal. lia. }
  rewrite Hb. destruct (0 <? cnt i); cbn [length]; rewrite HI; reflexivity.
Qed.
