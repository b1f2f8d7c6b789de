From Coq Require Import List Arith Bool Lia.
From Verif Require Import UnivModel UnivSpec.
Import ListNotations.

Lemma honest_same : forall rev a b, honest rev -> is_revision_changed (rev a) (rev b) = false -> a = b.
Proof.
  intros rev a b H C. unfold is_revision_changed in C. destruct (rev a) as [x|] eqn:A; [|discriminate]. destruct (rev b) as [y|] eqn:B; [|discriminate].
  apply negb_false_iff, Nat.eqb_eq in C. subst. now apply (H a b y).
Qed.
Section P.
Variables frev rrev : nat -> option nat.
Hypothesis (Hf : honest frev) (Hr : honest rrev).

Record GI (v : verse) (g : guard) : Prop := {
  gi_rev : v_revision (g_inner g) = v_revision v;
  gi_vfs0 : g_vfs g = v_vfs v;
  gi_mono : v_vfs v <= v_vfs (g_inner g);
  gi_font0 : g_font g = frev (v_fonts v);
  gi_reg0 : g_reg g = rrev (v_registry v);
  gi_entry : g_view g = false -> v_entry (g_inner g) = v_entry v /\ v_inputs (g_inner g) = v_inputs v;
  gi_font : g_fontc g = false -> v_fonts (g_inner g) = v_fonts v;
  gi_reg : g_regc g = false -> v_registry (g_inner g) = v_registry v
}.
Lemma enter_GI : forall v, GI v (enter frev rrev v).
Proof. intro v. constructor; cbn; auto. Qed.
Lemma act_GI : forall v g a, GI v g -> GI v (act_step g a).
Proof.
  intros v g a [h1 h2 h3 h4 h5 h6 h7 h8].
  destruct a as [f|r|i|[e|]|e| |[|]]; cbn; constructor; cbn; auto; try discriminate;
    try (destruct (root _ =? root e)); cbn; auto; lia.
Qed.
Lemma acts_GI : forall v acts g, GI v g -> GI v (fold_left act_step acts g).
Proof. intros v acts. induction acts as [|a acts IH]; intros g H; [exact H|]. apply IH. now apply act_GI. Qed.
Lemma drop_GI : forall v g, GI v g ->
  v_revision v < v_revision (drop frev rrev g) \/ view (drop frev rrev g) = view v /\ v_revision (drop frev rrev g) = v_revision v.
Proof.
  intros v g [h1 h2 h3 h4 h5 h6 h7 h8]. unfold drop.
  destruct (registry_changed rrev g) eqn:R.
  - rewrite orb_true_r. cbn. left. lia.
  - rewrite orb_false_r. destruct (g_view g || font_changed frev g || negb (g_vfs g =? v_vfs (g_inner g))) eqn:C.
    + cbn. left. lia.
    + right. split; [|exact h1]. apply orb_false_iff in C. destruct C as [C C3]. apply orb_false_iff in C. destruct C as [C1 C2].
      apply negb_false_iff, Nat.eqb_eq in C3. destruct (h6 C1) as [e1 e2]. unfold view. rewrite e1, e2.
      assert (F : v_fonts (g_inner g) = v_fonts v).
      { destruct (g_fontc g) eqn:Fc; [|auto]. unfold font_changed in C2. rewrite Fc in C2. cbn in C2. rewrite h4 in C2. symmetry. now apply (honest_same frev). }
      assert (G : v_registry (g_inner g) = v_registry v).
      { destruct (g_regc g) eqn:Fc; [|auto]. unfold registry_changed in R. rewrite Fc in R. cbn in R. rewrite h5 in R. symmetry. now apply (honest_same rrev). }
      rewrite F, G. replace (v_vfs (g_inner g)) with (v_vfs v) by congruence. reflexivity.
Qed.
Lemma step_rev : forall v o, regular o -> let v1 := step frev rrev v o in
  v_revision v < v_revision v1 \/ view v1 = view v /\ v_revision v1 = v_revision v.
Proof.
  intros v o R. destruct o as [acts|e|e| |]; try destruct R; cbn.
  - apply drop_GI. apply acts_GI, enter_GI.
  - auto.
Qed.
Lemma run_rev : forall os v, Forall regular os -> let v1 := run frev rrev v os in
  v_revision v < v_revision v1 \/ view v1 = view v /\ v_revision v1 = v_revision v.
Proof.
  induction os as [|o os IH]; intros v F; cbn; [auto|]. inversion F as [|? ? F1 F2]; subst.
  specialize (IH (step frev rrev v o) F2). pose proof (step_rev v o F1) as S. unfold run in *. cbn in *.
  destruct S as [S|[S1 S2]]; destruct IH as [I|[I1 I2]]; [left; lia|left; lia|left; lia|right; split; congruence].
Qed.
Lemma same_revision : forall v a b, Forall regular b ->
  v_revision (run frev rrev v (a ++ b)) = v_revision (run frev rrev v a) ->
  view (run frev rrev v (a ++ b)) = view (run frev rrev v a).
Proof.
  intros v a b F E. unfold run in *. rewrite fold_left_app in *. fold (run frev rrev v a) in *.
  destruct (run_rev b (run frev rrev v a) F) as [H|[H _]]; [unfold run in *; lia|exact H].
Qed.

Definition PI (p : proj) : Prop := match snd p with
  | None => True
  | Some w => v_revision w < v_revision (fst p) \/ v_revision w = v_revision (fst p) /\ view w = view (fst p) end.
Lemma pstep_PI : forall p e, PI p -> regular_event e -> PI (fst (pstep frev rrev p e)).
Proof.
  intros [v [w|]] e H R; destruct e as [o|]; cbn in *; auto.
  - unfold PI in *. cbn in *. pose proof (step_rev v o R) as S. cbn in S. destruct S as [S|[S1 S2]]; destruct H as [H|[H1 H2]]; try (left; lia).
    right. split; congruence.
  - unfold PI in *. cbn in *. destruct (v_revision w =? v_revision v); cbn; auto.
Qed.
Lemma prun_PI : forall es p, PI p -> Forall regular_event es -> PI (prun frev rrev p es).
Proof.
  unfold prun. induction es as [|e es IH]; intros p H F; [exact H|]. inversion F as [|? ? F1 F2]; subst. cbn. apply IH; [|exact F2]. now apply pstep_PI.
Qed.
Lemma snap_current : forall v es w, Forall regular_event es ->
  let p := prun frev rrev (v, None) es in
  snd (pstep frev rrev p Snap) = Some w -> view w = view (fst p) /\ v_revision w = v_revision (fst p).
Proof.
  intros v es w F p E. assert (H : PI p) by (apply prun_PI; [exact I|exact F]). clearbody p. destruct p as [u [x|]]; unfold PI in H; cbn in *.
  - destruct (Nat.eqb_spec (v_revision x) (v_revision u)) as [Q|Q]; cbn in E; inversion E; subst; auto. destruct H as [H|[_ H]]; [lia|auto].
  - inversion E; subst. auto.
Qed.
End P.
