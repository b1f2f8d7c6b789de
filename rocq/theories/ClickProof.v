(** Proofs about clicks. *)
From Coq Require Import List ZArith NArith Bool Lia.
From Verif Require Import ClickModel ClickSpec.
Import ListNotations.
Open Scope Z_scope.

(** Induction over frames. *)
Fixpoint frame_rec' (P : frame -> Prop) (H : forall l, (forall pos t f, In (pos, Group t f) l -> P f) -> P (Frame l)) (f : frame) : P f.
Proof.
  destruct f as [l]. apply H. induction l as [|[p i] l IH]; intros pos t f Hin; [destruct Hin|].
  destruct Hin as [E|Hin]; [|exact (IH pos t f Hin)].
  destruct i as [t' f'|sz gs|sz s|sz s|sz|]; try discriminate E. injection E as E1 E2 E3. rewrite <- E3. exact (frame_rec' P H f').
Qed.

Lemma on_ok pos size c : in_rect pos size c = true <-> on pos size c.
Proof. unfold in_rect, on. rewrite !andb_true_iff, !Z.leb_le. tauto. Qed.
Lemma on_no pos size c : in_rect pos size c = false <-> ~ on pos size c.
Proof. rewrite <- on_ok. destruct (in_rect pos size c); split; congruence. Qed.

Lemma file_some s : of_file s -> exists n, id s = Some n.
Proof.
  unfold of_file, id. intros H. cbv zeta. assert (N.div s (2 ^ 48) <> 0)%N by (rewrite N.div_small_iff by lia; lia).
  destruct (N.eqb_spec (s / 2 ^ 48) 0); [contradiction|]. eauto.
Qed.
Lemma file_none s : ~ of_file s -> id s = None.
Proof. unfold of_file, id. intros H. rewrite N.div_small by lia. auto. Qed.
Lemma file_dec s : of_file s \/ ~ of_file s.
Proof. unfold of_file. lia. Qed.

(** Outcomes. *)
Definition out_of (s : step) : outcome := match s with Pass => Passes | Dead => Ends | Hit s o => Gives s o end.

Definition step_of (w : nodes) (pos : point) (i : item) (click : point) : step :=
  match i with
  | Group _ f' => match from_click w f' (minus_p click pos) with Some (s, o) => Hit s o | None => Pass end
  | Text size gs => text_step w size pos click gs
  | Rect size s => if in_rect pos size click then Hit s 0 else Pass
  | Image size s => if in_rect pos size click then Hit s 0 else Pass
  | Link _ | Other => Pass
  end.
Fixpoint last_step (w : nodes) (click : point) (l : list (point * item)) : step :=
  match l with
  | [] => Pass
  | (pos, i) :: l' => match last_step w click l' with Pass => step_of w pos i click | r => r end
  end.
Lemma from_click_eq w l click : from_click w (Frame l) click =
  if linked click l then None else match last_step w click l with Hit s o => Some (s, o) | _ => None end.
Proof.
  cbn. destruct (linked click l); auto.
  match goal with |- match ?a with _ => _ end = match ?b with _ => _ end => assert (E : a = b) end; [|rewrite E; auto].
  induction l as [|[pos i] l IH]; [auto|]. cbn. rewrite IH. destruct (last_step w click l); auto.
Qed.

Lemma linked_ok click l : linked click l = true <-> exists pos size, In (pos, Link size) l /\ on pos size click.
Proof.
  induction l as [|[pos i] l IH]; cbn.
  - split; [discriminate|intros (? & ? & [] & _)].
  - assert (X : linked click l = true <-> exists p0 size, In (p0, Link size) l /\ on p0 size click) by exact IH.
    assert (Y : (forall size, i <> Link size) -> (exists p0 size, ((pos, i) = (p0, Link size) \/ In (p0, Link size) l) /\ on p0 size click) <-> (exists p0 size, In (p0, Link size) l /\ on p0 size click)).
    { intros Hi. split; intros (p0 & z & Hin & Ho); exists p0, z; split; auto. destruct Hin as [E|Hin]; auto. injection E as _ E. destruct (Hi _ E). }
    destruct i as [t f|sz gs|sz s|sz s|sz|]; try (rewrite X, Y; [tauto|discriminate]).
    rewrite orb_true_iff, on_ok, X. split.
    + intros [Ho|(p0 & z & Hin & Ho)]; eauto 6.
    + intros (p0 & z & [E|Hin] & Ho); [injection E as -> ->; auto|right; eauto].
Qed.
Lemma unlinked_ok click l : linked click l = false <-> forall pos size, In (pos, Link size) l -> ~ on pos size click.
Proof.
  destruct (linked click l) eqn:E.
  - split; [discriminate|]. apply linked_ok in E. destruct E as (p & z & Hin & Ho). intros H. destruct (H p z Hin Ho).
  - split; auto. intros _ pos size Hin Ho. assert (linked click l = true) by (apply linked_ok; eauto). congruence.
Qed.

(** Glyphs. *)
Lemma half_ok w c x g t : w (gspan g) = Some t -> half w c x g (if t && (advance g <? 2 * (fst c - x)) then (goff g + count g)%nat else goff g).
Proof. intros E. unfold half. rewrite E. destruct t; cbn [andb]; [|auto]. destruct (Z.ltb_spec (advance g) (2 * (fst c - x))); auto 6. Qed.
Lemma half_fun w c x g t o : w (gspan g) = Some t -> half w c x g o -> o = if t && (advance g <? 2 * (fst c - x)) then (goff g + count g)%nat else goff g.
Proof.
  intros E H. unfold half in H. rewrite E in H. destruct H as [(E1 & H & ->)|[(E1 & H & ->)|(E1 & ->)]]; injection E1 as ->; cbn [andb]; auto.
  - destruct (Z.ltb_spec (advance g) (2 * (fst c - x))); auto. lia.
  - destruct (Z.ltb_spec (advance g) (2 * (fst c - x))); auto. lia.
Qed.
Lemma half_some w c x g o : half w c x g o -> exists t, w (gspan g) = Some t.
Proof. intros [(E & _)|[(E & _)|(E & _)]]; eauto. Qed.

Definition text_out (w : nodes) (size y : Z) (c : point) (x : Z) (gs : list glyph) (r : step) : Prop :=
  match r with
  | Pass => exists x', reached size y c x gs x' []
  | Dead => exists x' g r, reached size y c x gs x' (g :: r) /\ on (x', y - size) (advance g, size) c /\ of_file (gspan g) /\ w (gspan g) = None
  | Hit s o => exists x' g r, reached size y c x gs x' (g :: r) /\ on (x', y - size) (advance g, size) c /\ of_file (gspan g) /\ half w c x' g o /\ s = gspan g
  end.
Lemma text_ok w size y c : forall gs x, text_out w size y c x gs (text_step w size (x, y) c gs).
Proof.
  induction gs as [|g gs IH]; intros x; cbn [text_step].
  - exists x. constructor.
  - cbn [fst snd]. destruct (in_rect (x, y - size) (advance g, size) c) eqn:E.
    + apply on_ok in E. destruct (file_dec (gspan g)) as [F|F].
      * destruct (file_some _ F) as (n & ->). destruct (w (gspan g)) as [t|] eqn:Ew.
        -- exists x, g, gs. split; [constructor|]. split; [exact E|]. split; [exact F|]. split; [apply half_ok; exact Ew|reflexivity].
        -- exists x, g, gs. split; [constructor|]. split; [exact E|]. split; [exact F|exact Ew].
      * rewrite (file_none _ F). specialize (IH x). destruct (text_step w size (x, y) c gs); cbn in *.
        -- destruct IH as (x' & H). exists x'. apply reached_stuck; auto.
        -- destruct IH as (x' & g' & r & H & H'). exists x', g', r. split; [apply reached_stuck; auto|exact H'].
        -- destruct IH as (x' & g' & r & H & H'). exists x', g', r. split; [apply reached_stuck; auto|exact H'].
    + apply on_no in E. specialize (IH (x + advance g)). destruct (text_step w size (x + advance g, y) c gs); cbn in *.
      * destruct IH as (x' & H). exists x'. apply reached_over; auto.
      * destruct IH as (x' & g' & r & H & H'). exists x', g', r. split; [apply reached_over; auto|exact H'].
      * destruct IH as (x' & g' & r & H & H'). exists x', g', r. split; [apply reached_over; auto|exact H'].
Qed.

(** The search stops at the first glyph on the click that is of a file. *)
Lemma reached_fun w size y c : forall gs x x' r, reached size y c x gs x' r ->
  match r with
  | [] => text_step w size (x, y) c gs = Pass
  | g :: _ => on (x', y - size) (advance g, size) c -> of_file (gspan g) ->
      text_step w size (x, y) c gs =
        match w (gspan g) with None => Dead | Some t => Hit (gspan g) (if t && (advance g <? 2 * (fst c - x')) then (goff g + count g)%nat else goff g) end
  end.
Proof.
  intros gs x x' r H. induction H as [x gs|x g gs x' r Hn H IH|x g gs x' r Ho Hf H IH].
  - destruct gs as [|g gs]; [auto|]. intros Ho Hf. cbn [text_step fst snd]. apply on_ok in Ho. rewrite Ho. destruct (file_some _ Hf) as (n & ->). auto.
  - cbn [text_step fst snd]. apply on_no in Hn. rewrite Hn. exact IH.
  - cbn [text_step fst snd]. apply on_ok in Ho. rewrite Ho, (file_none _ Hf). exact IH.
Qed.

Lemma step_does w pos i c : (forall t f, i = Group t f -> forall c, answers w f c (from_click w f c)) -> does w pos i c (out_of (step_of w pos i c)).
Proof.
  intros IH. destruct i as [t f|size gs|size s|size s|size|]; cbn.
  - specialize (IH t f eq_refl (minus_p c pos)). destruct (from_click w f (minus_p c pos)) as [[s o]|]; cbn; constructor; exact IH.
  - destruct pos as [x y]. pose proof (text_ok w size y c gs x) as T. destruct (text_step w size (x, y) c gs); cbn in *.
    + destruct T as (x' & T). eapply does_no_text. exact T.
    + destruct T as (x' & g & r & T1 & T2 & T3 & T4). eapply does_lost; eauto.
    + destruct T as (x' & g & r & T1 & T2 & T3 & T4 & ->). eapply does_text; eauto.
  - destruct (in_rect pos size c) eqn:E; cbn; constructor; [apply on_ok|apply on_no]; auto.
  - destruct (in_rect pos size c) eqn:E; cbn; constructor; [apply on_ok|apply on_no]; auto.
  - constructor.
  - constructor.
Qed.

Lemma does_step w pos i c r : (forall t f, i = Group t f -> forall c r, answers w f c r -> from_click w f c = r) -> does w pos i c r -> out_of (step_of w pos i c) = r.
Proof.
  intros IH H. inversion H; subst; cbn.
  - unfold minus_p. rewrite (IH t f eq_refl _ _ H0). auto.
  - unfold minus_p. rewrite (IH t f eq_refl _ _ H0). auto.
  - destruct pos as [px py]. cbn [fst snd] in *. rewrite (reached_fun w _ _ _ _ _ _ _ H0). auto.
  - destruct pos as [px py]. cbn [fst snd] in *. rewrite (reached_fun w _ _ _ _ _ _ _ H0 H1 H2), H3. auto.
  - destruct pos as [px py]. cbn [fst snd] in *. rewrite (reached_fun w _ _ _ _ _ _ _ H0 H1 H2). destruct (half_some _ _ _ _ _ H3) as (b & E). rewrite E. cbn. f_equal. symmetry. eapply half_fun; eauto.
  - apply on_ok in H0. rewrite H0. auto.
  - apply on_no in H0. rewrite H0. auto.
  - apply on_ok in H0. rewrite H0. auto.
  - apply on_no in H0. rewrite H0. auto.
  - auto.
  - auto.
Qed.

Lemma last_pass w c l : (forall pos i, In (pos, i) l -> step_of w pos i c = Pass) -> last_step w c l = Pass.
Proof. induction l as [|[p i] l IH]; intros H; cbn; auto. rewrite IH by (intros; apply H; right; auto). apply H. left. auto. Qed.
Lemma last_pass_inv w c l : last_step w c l = Pass -> forall pos i, In (pos, i) l -> step_of w pos i c = Pass.
Proof.
  induction l as [|[p i] l IH]; intros H pos j Hin; [destruct Hin|]. cbn in H. destruct (last_step w c l) eqn:E; try discriminate.
  destruct Hin as [X|Hin]; [injection X as <- <-; auto|apply IH; auto].
Qed.
Lemma last_at w c a pos i b : last_step w c b = Pass -> step_of w pos i c <> Pass -> last_step w c (a ++ (pos, i) :: b) = step_of w pos i c.
Proof.
  intros Hb Hi. induction a as [|[p j] a IH]; cbn.
  - rewrite Hb. auto.
  - rewrite IH. destruct (step_of w pos i c); congruence.
Qed.
Lemma last_split w c l : last_step w c l <> Pass -> exists a pos i b, l = a ++ (pos, i) :: b /\ last_step w c b = Pass /\ last_step w c l = step_of w pos i c.
Proof.
  induction l as [|[p i] l IH]; intros H; cbn in *; [congruence|]. destruct (last_step w c l) eqn:E.
  - exists [], p, i, l. auto.
  - destruct IH as (a & pos & j & b & E1 & E2 & E3); [discriminate|]. exists ((p, i) :: a), pos, j, b. subst. auto.
  - destruct IH as (a & pos & j & b & E1 & E2 & E3); [discriminate|]. exists ((p, i) :: a), pos, j, b. subst. auto.
Qed.
Lemma out_pass s : out_of s = Passes -> s = Pass.
Proof. destruct s; cbn; congruence. Qed.

Lemma answers_ok w f : (forall c, answers w f c (from_click w f c)) /\ (forall c r, answers w f c r -> from_click w f c = r).
Proof.
  induction f as [l IH] using frame_rec'. assert (IH1 : forall pos i, In (pos, i) l -> forall c, does w pos i c (out_of (step_of w pos i c))).
  { intros pos i Hin c. apply step_does. intros t f -> c'. apply (proj1 (IH pos t f Hin)). }
  assert (IH2 : forall pos i, In (pos, i) l -> forall c r, does w pos i c r -> out_of (step_of w pos i c) = r).
  { intros pos i Hin c r. apply does_step. intros t f -> c' r'. apply (proj2 (IH pos t f Hin)). }
  split.
  - intros c. rewrite from_click_eq. destruct (linked c l) eqn:El.
    + apply linked_ok in El. destruct El as (pos & size & Hin & Ho). eapply ans_link; eauto.
    + rewrite unlinked_ok in El. destruct (last_step w c l) eqn:E.
      * apply ans_none; auto. intros pos i Hin. assert (X := IH1 pos i Hin c). rewrite (last_pass_inv _ _ _ E pos i Hin) in X. exact X.
      * destruct (last_split w c l) as (a & pos & i & b & E1 & E2 & E3); [congruence|]. assert (Hin : In (pos, i) l) by (subst l; apply in_elt).
        eapply ans_end; eauto.
        -- intros p j Hj. assert (X : In (p, j) l) by (subst l; apply in_or_app; right; right; auto). assert (Y := IH1 p j X c). rewrite (last_pass_inv _ _ _ E2 p j Hj) in Y. exact Y.
        -- assert (Y := IH1 pos i Hin c). rewrite <- E3, E in Y. exact Y.
      * destruct (last_split w c l) as (a & pos & i & b & E1 & E2 & E3); [congruence|]. assert (Hin : In (pos, i) l) by (subst l; apply in_elt).
        eapply ans_give; eauto.
        -- intros p j Hj. assert (X : In (p, j) l) by (subst l; apply in_or_app; right; right; auto). assert (Y := IH1 p j X c). rewrite (last_pass_inv _ _ _ E2 p j Hj) in Y. exact Y.
        -- assert (Y := IH1 pos i Hin c). rewrite <- E3, E in Y. exact Y.
  - intros c r H. rewrite from_click_eq. inversion H; subst.
    + assert (X : linked c l = true) by (apply linked_ok; eauto). rewrite X. auto.
    + assert (X : linked c l = false) by (apply unlinked_ok; auto). rewrite X, last_pass; auto. intros pos i Hin. apply out_pass. apply IH2; auto.
    + assert (X : linked c (a ++ (pos, i) :: b) = false) by (apply unlinked_ok; auto). rewrite X.
      assert (Hb : last_step w c b = Pass).
      { apply last_pass. intros p j Hj. apply out_pass. apply IH2; auto. apply in_or_app; right; right; auto. }
      assert (E : out_of (step_of w pos i c) = Ends) by (apply IH2; auto; apply in_elt).
      rewrite last_at; auto; destruct (step_of w pos i c); cbn in E; congruence.
    + assert (X : linked c (a ++ (pos, i) :: b) = false) by (apply unlinked_ok; auto). rewrite X.
      assert (Hb : last_step w c b = Pass).
      { apply last_pass. intros p j Hj. apply out_pass. apply IH2; auto. apply in_or_app; right; right; auto. }
      assert (E : out_of (step_of w pos i c) = Gives s o) by (apply IH2; auto; apply in_elt).
      rewrite last_at; auto; destruct (step_of w pos i c); cbn in E; congruence.
Qed.

(** Glyphs of files are reached where they are. *)
Lemma reached_sum size y c : forall gs x x' r, reached size y c x gs x' r -> (forall g, In g gs -> of_file (gspan g)) ->
  exists a, gs = a ++ r /\ x' = x + sum_advance a.
Proof.
  intros gs x x' r H. induction H as [x gs|x g gs x' r Hn H IH|x g gs x' r Ho Hf H IH]; intros HF.
  - exists []. cbn. split; [auto|lia].
  - destruct IH as (a & -> & ->); [intros; apply HF; right; auto|]. exists (g :: a). split; [auto|]. change (sum_advance (g :: a)) with (advance g + sum_advance a). lia.
  - destruct Hf. apply HF. left. auto.
Qed.

Lemma click_inside w : forall f, straight f -> sourced f -> forall c s o, answers w f c (Some (s, o)) -> under w f c s o.
Proof.
  induction f as [l IH] using frame_rec'. intros Hs Hd c s o H. inversion Hs as [l' Hs']; subst. inversion Hd as [l' Hd1 Hd2]; subst.
  inversion H; subst. assert (Hin : In (pos, i) (a ++ (pos, i) :: b)) by apply in_elt. match goal with X : does _ _ _ _ (Gives _ _) |- _ => inversion X; subst end.
  - destruct (Hs' _ _ _ Hin) as (Ht & Hf). eapply under_group; [exact Hin| |eapply IH; eauto].
    destruct Ht as (E1 & E2 & E3 & E4 & E5 & E6). unfold inward. rewrite E1, E2, E3, E4, E5, E6. cbn [fst snd]. lia.
  - match goal with X : reached _ _ _ _ _ _ _ |- _ => apply reached_sum in X; [destruct X as (a' & -> & ->)|intros g' Hg; eapply Hd2; eauto] end.
    eapply under_glyph; eauto.
  - eapply under_rect; eauto.
  - eapply under_image; eauto.
Qed.
Lemma half_full w c x g : w (gspan g) <> None -> exists o, half w c x g o.
Proof. intros H. destruct (w (gspan g)) as [t|] eqn:E; [|congruence]. eexists. eapply half_ok; eauto. Qed.

(** Something under the click: the click finds something. *)
Lemma click_finds w : (forall s, w s <> None) -> forall f, straight f -> sourced f -> linkless f -> forall c s o, under w f c s o -> from_click w f c <> None.
Proof.
  intros Hw. induction f as [l IH] using frame_rec'. intros Hs Hd Hk c s o H. inversion Hs as [l' Hs']; subst. inversion Hd as [l' Hd1 Hd2]; subst. inversion Hk as [l' Hk1 Hk2]; subst.
  assert (Hl : linked c l = false) by (apply unlinked_ok; intros p z Hin; destruct (Hk2 p z Hin)).
  rewrite from_click_eq, Hl.
  assert (ND : last_step w c l <> Dead).
  { intros E. destruct (last_split w c l) as (a & pos & i & b & E1 & E2 & E3); [congruence|]. rewrite E in E3.
    destruct i as [t f|size gs|size sp|size sp|size|]; cbn in E3; try (destruct (in_rect pos size c)); try discriminate.
    - destruct (from_click w f (minus_p c pos)) as [[? ?]|]; discriminate.
    - destruct pos as [x y]. pose proof (text_ok w size y c gs x) as T. rewrite <- E3 in T. cbn in T. destruct T as (_ & g & _ & _ & _ & _ & E4). destruct (Hw _ E4). }
  assert (NP : last_step w c l <> Pass).
  { intros E. assert (P := last_pass_inv w c l E). inversion H as [l0 c0 pos size a g b o0 H0 H1 Hh|l0 c0 pos size s0 H0 H1|l0 c0 pos size s0 H0 H1|l0 c0 pos t f c' s0 o0 H0 H1 H2]; subst.
    - specialize (P _ _ H0). cbn in P. destruct pos as [x y]. pose proof (text_ok w size y c (a ++ g :: b) x) as T. rewrite P in T. cbn in T. destruct T as (x' & T).
      cbn [fst snd] in *. clear -T H1 Hd2 H0. assert (HF : forall g', In g' (a ++ g :: b) -> of_file (gspan g')) by (intros g' Hg; eapply Hd2; eauto). clear Hd2 H0.
      revert x T H1. induction a as [|g0 a IHa]; intros x T H1; cbn [app] in *; [change (sum_advance []) with 0 in H1|change (sum_advance (g0 :: a)) with (advance g0 + sum_advance a) in H1].
      + inversion T; subst.
        * replace (x + 0) with x in H1 by lia. contradiction.
        * match goal with Y : ~ of_file _ |- _ => apply Y end. apply HF. left. auto.
      + inversion T; subst.
        * eapply IHa; [intros; apply HF; right; auto|eassumption|]. replace (x + advance g0 + sum_advance a) with (x + (advance g0 + sum_advance a)) by lia. exact H1.
        * match goal with Y : ~ of_file _ |- _ => apply Y end. apply HF. left. auto.
    - specialize (P _ _ H0). cbn in P. apply on_ok in H1. rewrite H1 in P. discriminate.
    - specialize (P _ _ H0). cbn in P. apply on_ok in H1. rewrite H1 in P. discriminate.
    - specialize (P _ _ H0). cbn in P. destruct (Hs' _ _ _ H0) as ((E1 & E2 & E3 & E4 & E5 & E6) & Hf). unfold inward in H1. rewrite E1, E2, E3, E4, E5, E6 in H1.
      assert (Ec : c' = minus_p c pos). { destruct c' as [u v]. unfold minus_p. cbn [fst snd] in H1 |- *. f_equal; lia. }
      subst c'. eapply IH in H2; eauto. destruct (from_click w f (minus_p c pos)) as [[? ?]|]; [discriminate|congruence]. }
  destruct (last_step w c l); congruence.
Qed.
