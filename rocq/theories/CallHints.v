From Coq Require Import List Arith Bool Lia Permutation.
From Verif Require Import CallModel CallSpec CallProof.
Import ListNotations.

(** * Hints *)

Lemma loop_pos : forall fs off m n first i x, In (i, false, x) (hint_loop fs off n first m) <->
  exists j o, i = n + j /\ nth_error m j = Some (Some o) /\ i_kind o = Positional /\ i_block o = false /\
    i_name o = x /\ x <> 0 /\ fs = false /\ off = false.
Proof.
  induction m as [|[o|] m IH]; intros n first i x; cbn [hint_loop].
  - split; [intros []|]. intros ([|j] & o & _ & H & _); discriminate.
  - assert (HS : forall first', In (i, false, x) (hint_loop fs off (S n) first' m) ->
      exists j o', i = n + j /\ nth_error (Some o :: m) j = Some (Some o') /\ i_kind o' = Positional /\ i_block o' = false /\
      i_name o' = x /\ x <> 0 /\ fs = false /\ off = false).
    { intros first' H. apply IH in H. destruct H as (j & o' & -> & H). exists (S j), o'. split; [lia|]. exact H. }
    assert (HC : forall first' j o', i = n + S j -> nth_error (Some o :: m) (S j) = Some (Some o') -> i_kind o' = Positional /\ i_block o' = false /\
      i_name o' = x /\ x <> 0 /\ fs = false /\ off = false -> In (i, false, x) (hint_loop fs off (S n) first' m)).
    { intros first' j o' -> H1 H2. apply IH. exists j, o'. split; [lia|]. cbn in H1. tauto. }
    destruct (Nat.eqb_spec (i_name o) 0) as [E0|E0].
    + split; [apply HS|]. intros ([|j] & o' & -> & H1 & H2).
      * cbn in H1. inversion H1; subst o'. destruct H2 as (_ & _ & <- & H2 & _). congruence.
      * apply (HC first j o'); auto.
    + destruct (i_kind o) eqn:EK.
      * destruct (fs || i_block o || off) eqn:EB.
        -- split; [apply HS|]. intros ([|j] & o' & -> & H1 & H2).
           ++ cbn in H1. inversion H1; subst o'. destruct H2 as (_ & B & _ & _ & -> & ->). rewrite B in EB. discriminate.
           ++ apply (HC first j o'); auto.
        -- cbn [In]. apply orb_false_iff in EB. destruct EB as (EB & EO). apply orb_false_iff in EB. destruct EB as (EF & EB).
           split.
           ++ intros [H|H]; [|apply HS in H; auto]. inversion H; subst. exists 0, o. split; [lia|]. repeat split; auto.
           ++ intros ([|j] & o' & -> & H1 & H2).
              ** left. cbn in H1. inversion H1; subst o'. destruct H2 as (_ & _ & <- & _). f_equal. f_equal. lia.
              ** right. apply (HC first j o'); auto.
      * split; [apply HS|]. intros ([|j] & o' & -> & H1 & H2).
        -- cbn in H1. inversion H1; subst o'. destruct H2 as (E & _). congruence.
        -- apply (HC first j o'); auto.
      * destruct (off || negb first).
        -- split; [apply HS|]. intros ([|j] & o' & -> & H1 & H2).
           ++ cbn in H1. inversion H1; subst o'. destruct H2 as (E & _). congruence.
           ++ apply (HC false j o'); auto.
        -- cbn [In]. split.
           ++ intros [H|H]; [discriminate|]. apply HS in H; auto.
           ++ intros ([|j] & o' & -> & H1 & H2).
              ** cbn in H1. inversion H1; subst o'. destruct H2 as (E & _). congruence.
              ** right. apply (HC false j o'); auto.
  - rewrite IH. split.
    + intros (j & o' & -> & H). exists (S j), o'. split; [lia|]. exact H.
    + intros ([|j] & o' & -> & H1 & H2); [discriminate|]. exists j, o'. split; [lia|]. cbn in H1. tauto.
Qed.

Lemma loop_rest_no : forall fs off m n i x, ~ In (i, true, x) (hint_loop fs off n false m).
Proof.
  induction m as [|[o|] m IH]; intros n i x H; cbn [hint_loop] in H; auto.
  - destruct (i_name o =? 0); [eapply IH; eauto|].
    destruct (i_kind o).
    + destruct (fs || i_block o || off); [eapply IH; eauto|].
      destruct H as [H|H]; [discriminate|eapply IH; eauto].
    + eapply IH; eauto.
    + destruct off; cbn in H; eapply IH; eauto.
  - eapply IH; eauto.
Qed.

Lemma loop_rest : forall fs off m n i x, In (i, true, x) (hint_loop fs off n true m) <->
  exists j o, i = n + j /\ nth_error m j = Some (Some o) /\ i_kind o = Rest /\ i_name o = x /\ x <> 0 /\ off = false /\
    forall j' o', j' < j -> nth_error m j' = Some (Some o') -> i_kind o' = Rest -> i_name o' = 0.
Proof.
  induction m as [|[o|] m IH]; intros n i x; cbn [hint_loop].
  - split; [intros []|]. intros ([|j] & o & _ & H & _); discriminate.
  - assert (HS : (i_kind o = Rest -> i_name o = 0) -> In (i, true, x) (hint_loop fs off (S n) true m) ->
      exists j o', i = n + j /\ nth_error (Some o :: m) j = Some (Some o') /\ i_kind o' = Rest /\ i_name o' = x /\ x <> 0 /\ off = false /\
        forall j' o', j' < j -> nth_error (Some o :: m) j' = Some (Some o') -> i_kind o' = Rest -> i_name o' = 0).
    { intros HO H. apply IH in H. destruct H as (j & o' & -> & H1 & H2 & H3 & H4 & H5 & H6).
      exists (S j), o'. split; [lia|]. repeat split; auto.
      intros [|j'] o'' L E K; [cbn in E; inversion E; subst; auto|]. apply (H6 j' o''); auto; lia. }
    assert (HC : forall j o', i = n + S j -> nth_error (Some o :: m) (S j) = Some (Some o') -> i_kind o' = Rest /\ i_name o' = x /\ x <> 0 /\ off = false /\
        (forall j' o', j' < S j -> nth_error (Some o :: m) j' = Some (Some o') -> i_kind o' = Rest -> i_name o' = 0) ->
        In (i, true, x) (hint_loop fs off (S n) true m)).
    { intros j o' -> H1 (H2 & H3 & H4 & H5 & H6). apply IH. exists j, o'. split; [lia|]. repeat split; auto.
      intros j' o'' L E K. apply (H6 (S j') o''); auto; lia. }
    destruct (Nat.eqb_spec (i_name o) 0) as [E0|E0].
    + split; [apply HS; auto|]. intros ([|j] & o' & -> & H1 & H2).
      * cbn in H1. inversion H1; subst o'. destruct H2 as (_ & <- & H2 & _). congruence.
      * apply (HC j o'); auto.
    + destruct (i_kind o) eqn:EK.
      * assert (HN : (exists j o', i = n + j /\ nth_error (Some o :: m) j = Some (Some o') /\ i_kind o' = Rest /\ i_name o' = x /\ x <> 0 /\ off = false /\
        forall j' o', j' < j -> nth_error (Some o :: m) j' = Some (Some o') -> i_kind o' = Rest -> i_name o' = 0) ->
          In (i, true, x) (hint_loop fs off (S n) true m)).
        { intros ([|j] & o' & E & H1 & H2).
          - cbn in H1. inversion H1; subst o'. destruct H2 as (H2 & _). congruence.
          - apply (HC j o'); auto. }
        destruct (fs || i_block o || off).
        -- split; [apply HS; congruence|auto].
        -- cbn [In]. split; [intros [H|H]; [discriminate|apply HS; auto; congruence]|]. intros H. right. auto.
      * split; [apply HS; congruence|]. intros ([|j] & o' & -> & H1 & H2).
        -- cbn in H1. inversion H1; subst o'. destruct H2 as (H2 & _). congruence.
        -- apply (HC j o'); auto.
      * cbn [negb]. rewrite orb_false_r. destruct off.
        -- split; [intros H; exfalso; eapply loop_rest_no; eauto|]. intros (j & o' & _ & _ & _ & _ & _ & H & _). discriminate.
        -- cbn [In]. split.
           ++ intros [H|H]; [|exfalso; eapply loop_rest_no; eauto]. inversion H; subst. exists 0, o. split; [lia|].
              repeat split; auto. intros j' o' L. lia.
           ++ intros ([|j] & o' & -> & H1 & H2 & H3 & H4 & H5 & H6).
              ** left. cbn in H1. inversion H1; subst o'. rewrite H3. f_equal. f_equal. lia.
              ** exfalso. apply E0. apply (H6 0 o); auto. lia.
  - rewrite IH. split.
    + intros (j & o' & -> & H1 & H2 & H3 & H4 & H5 & H6). exists (S j), o'. split; [lia|]. repeat split; auto.
      intros [|j'] o'' L E K; [discriminate|]. apply (H6 j' o''); auto; lia.
    + intros ([|j] & o' & -> & H1 & H2 & H3 & H4 & H5 & H6); [discriminate|]. exists j, o'. split; [lia|]. repeat split; auto.
      intros j' o'' L E K. apply (H6 (S j') o''); auto; lia.
Qed.

Definition nbb (o : option pinfo) : bool :=
  match o with Some i => match i_kind i with Positional => negb (i_block i) | _ => false end | None => false end.
Definition restb (o : option pinfo) : bool :=
  match o with Some i => match i_kind i with Rest => true | _ => false end | None => false end.
Definition cnt (m : list (option pinfo)) : nat := length (filter nbb m).

Lemma count_fold : forall m p c r, exists c',
  fold_left count1 m (p, c, r) = (p + cnt m, c', r || existsb restb m).
Proof.
  unfold cnt. induction m as [|[o|] m IH]; intros p c r; cbn [fold_left].
  - exists c. cbn. rewrite Nat.add_0_r, orb_false_r. auto.
  - unfold count1 at 2. cbn [filter existsb nbb restb]. destruct (i_kind o) eqn:EK.
    + destruct (i_block o); cbn [negb].
      * destruct (IH p (c + 1) r) as (c' & ->). exists c'. auto.
      * destruct (IH (p + 1) c r) as (c' & ->). exists c'. cbn [length orb].
        replace (p + 1 + length (filter nbb m)) with (p + S (length (filter nbb m))) by lia. auto.
    + destruct (IH p c r) as (c' & ->). exists c'. auto.
    + destruct (IH p c true) as (c' & ->). exists c'. cbn [orb]. rewrite orb_true_r. auto.
  - unfold count1 at 2. destruct (IH p c r) as (c' & ->). exists c'. auto.
Qed.

Lemma single_false : forall m, single_pos m = false <->
  (existsb restb m = true /\ 1 <= cnt m) \/ 2 <= cnt m.
Proof.
  intros m. unfold single_pos. destruct (count_fold m 0 0 false) as (c & ->). cbn [orb Nat.add].
  rewrite Nat.leb_gt. destruct (existsb restb m); split; intros H; try lia.
Qed.

Lemma cnt_one : forall m, 1 <= cnt m <-> exists j o, nth_error m j = Some o /\ nbb o = true.
Proof.
  unfold cnt. induction m as [|o m IH]; cbn [filter].
  - cbn. split; [lia|]. intros ([|j] & o & H & _); discriminate.
  - destruct (nbb o) eqn:E.
    + cbn. split; [|lia]. intros _. exists 0, o. auto.
    + rewrite IH. split.
      * intros (j & o' & H). exists (S j), o'. auto.
      * intros ([|j] & o' & H1 & H2); [cbn in H1; congruence|]. exists j, o'. auto.
Qed.

Lemma cnt_two : forall m i o, nth_error m i = Some o -> nbb o = true ->
  (2 <= cnt m <-> exists j o', j <> i /\ nth_error m j = Some o' /\ nbb o' = true).
Proof.
  induction m as [|a m IH]; intros i o HN HB; [destruct i; discriminate|].
  destruct i as [|i]; cbn in HN.
  - inversion HN; subst a. unfold cnt. cbn [filter]. rewrite HB. cbn [length].
    assert (E : 2 <= S (cnt m) <-> 1 <= cnt m) by lia. unfold cnt in E. rewrite E. fold (cnt m). rewrite cnt_one. split.
    + intros (j & o' & H). exists (S j), o'. split; [lia|]. auto.
    + intros ([|j] & o' & H1 & H2); [lia|]. exists j, o'. auto.
  - unfold cnt. cbn [filter]. destruct (nbb a) eqn:EA.
    + cbn [length]. split.
      * intros _. exists 0, a. split; [lia|]. auto.
      * intros _. assert (H : 1 <= cnt m) by (apply cnt_one; eauto). unfold cnt in H. lia.
    + fold (cnt m). rewrite (IH i o HN HB). split.
      * intros (j & o' & H1 & H2). exists (S j), o'. split; [lia|]. auto.
      * intros ([|j] & o' & H1 & H2 & H3); [cbn in H2; congruence|]. exists j, o'. split; [lia|]. auto.
Qed.

Lemma rest_ex : forall m, existsb restb m = true <-> exists j o, nth_error m j = Some (Some o) /\ i_kind o = Rest.
Proof.
  intros m. rewrite existsb_exists. split.
  - intros (o & HI & HR). apply In_nth_error in HI. destruct HI as (j & Hj).
    destruct o as [o|]; [|discriminate]. exists j, o. split; auto. cbn in HR. destruct (i_kind o); auto; discriminate.
  - intros (j & o & H1 & H2). exists (Some o). split; [eapply nth_error_In; eauto|]. cbn. rewrite H2. auto.
Qed.

Lemma nbb_ok : forall o, nbb o = true <-> exists i, o = Some i /\ i_kind i = Positional /\ i_block i = false.
Proof.
  intros [i|]; cbn.
  - split.
    + intros H. exists i. destruct (i_kind i); try discriminate. apply negb_true_iff in H. auto.
    + intros (j & E & H1 & H2). inversion E; subst. rewrite H1, H2. auto.
  - split; [discriminate|]. intros (j & E & _). discriminate.
Qed.

Section Hints.
  Variables (ps : list cparam) (f : func).
  Hypothesis HT : tidy ps.
  Hypothesis HB : base f = map cparam_ty ps.
  Variable l : list child.
  Hypothesis HP : paren_ok l.
  Hypothesis HS : ~ In KSpread l.
  Variable sz : nat -> nat.
  Variable h : list hint.
  Hypothesis HH : hints (func_signature f) l = Some h.

  Notation G := (goes ps f sz l).
  Notation plain := (CallSpec.plain ps f sz l).

  Lemma no_spread : forall i, ~ In KSpread (firstn i l).
  Proof. intros i H. apply HS. eapply in_firstn; eauto. Qed.

  Lemma get_m : exists m, analyze_call (func_signature f) l = Some m /\
    h = hint_loop (existsb fss (namedn ps)) (single_pos m) 0 true m.
  Proof.
    unfold hints in HH. destruct (analyze_call (func_signature f) l) as [m|]; [|discriminate].
    exists m. split; auto. cbn in HH. inversion HH; subst.
    rewrite sig_primary, HB. cbn [primary g_fss].
    destruct (gathered_closure ps acc0) as (_ & _ & _ & G4). cbv zeta in G4. rewrite G4. reflexivity.
  Qed.

  Section M.
    Variable m : list (option pinfo).
    Hypothesis HM : analyze_call (func_signature f) l = Some m.

    (** An entry for a positional or a rest parameter is of a positional
        argument. *)
    Lemma entry_pos : forall i o, nth_error m i = Some (Some o) -> i_kind o <> Named ->
      exists b, nth_error l i = Some (KPos b).
    Proof.
      intros i o HO HK. destruct (analyze_total f l) as (m' & E & HL). rewrite HM in E. inversion E; subst m'.
      assert (HI : i < length l). { rewrite <- HL. apply nth_error_Some. congruence. }
      destruct (nth_error l i) as [c|] eqn:EC; [|apply nth_error_None in EC; lia].
      destruct c as [b|y| | | |]; [eauto|..].
      - exfalso. apply HK. assert (HX : mapped m i (i_kind o) (i_name o)) by (exists o; auto).
        apply (map_named _ _ HB _ _ HM _ _ EC (no_spread i)) in HX. tauto.
      - exfalso. apply HS. eapply nth_error_In; eauto.
      - rewrite (map_other _ _ HB _ _ HM _ _ EC) in HO; [discriminate|tauto|apply no_spread].
      - rewrite (map_other _ _ HB _ _ HM _ _ EC) in HO; [discriminate|tauto|apply no_spread].
      - rewrite (map_other _ _ HB _ _ HM _ _ EC) in HO; [discriminate|tauto|apply no_spread].
    Qed.

    Lemma goes_iff : forall i k x, k <> Named -> (G i k x <-> mapped m i k x).
    Proof.
      intros i k x HK. split.
      - intros H. pose proof H as ((b & Hb) & _). apply (map_pos _ _ HT HB _ _ HM sz _ _ Hb (no_spread i)). auto.
      - intros H. pose proof H as (o & HO & EK & EX). destruct (entry_pos i o HO) as (b & Hb); [congruence|].
        apply (map_pos _ _ HT HB _ _ HM sz _ _ Hb (no_spread i)). auto.
    Qed.

    Lemma plain_iff : forall i x, plain i x <-> exists o, nth_error m i = Some (Some o) /\ i_kind o = Positional /\
      i_block o = false /\ i_name o = x.
    Proof.
      intros i x. unfold CallSpec.plain. rewrite goes_iff by discriminate. split.
      - intros ((o & HO & EK & EX) & HN). exists o. repeat split; auto.
        destruct (entry_pos i o HO) as (b & Hb); [congruence|].
        destruct (i_block o) eqn:EB; auto. exfalso. apply HN.
        eapply (map_block _ _ HB _ _ HM HP); eauto. apply no_spread.
      - intros (o & HO & EK & EB & EX). split; [exists o; auto|]. intros HX.
        destruct (entry_pos i o HO) as (b & Hb); [congruence|].
        assert (i_block o = true); [|congruence].
        eapply (map_block _ _ HB _ _ HM HP); eauto. apply no_spread.
    Qed.

    Lemma single_pos_iff : forall i x, plain i x ->
      (single_pos m = false <-> exists j y, j <> i /\ (plain j y \/ G j Rest y)).
    Proof.
      intros i x HX. rewrite single_false, rest_ex.
      pose proof (proj1 (plain_iff i x) HX) as (o & HO & EK & EB & EX).
      assert (HN : nbb (Some o) = true) by (apply nbb_ok; eauto).
      rewrite (cnt_two m i (Some o) HO HN). split.
      - intros [((j & o' & H1 & H2) & _)|(j & o' & NE & H1 & H2)].
        + exists j, (i_name o'). split; [intros ->; congruence|]. right. apply goes_iff; [discriminate|]. exists o'; auto.
        + apply nbb_ok in H2. destruct H2 as (i' & -> & H2 & H3). exists j, (i_name i'). split; auto.
          left. apply plain_iff. eauto.
      - intros (j & y & NE & [H|H]).
        + apply plain_iff in H. destruct H as (o' & H1 & H2 & H3 & H4). right. exists j, (Some o'). repeat split; auto.
          apply nbb_ok; eauto.
        + apply goes_iff in H; [|discriminate]. destruct H as (o' & H1 & H2 & H3). left. split; [eauto|].
          apply cnt_one. eauto.
    Qed.

    Lemma single_rest_iff : forall i x, G i Rest x ->
      (single_pos m = false <-> exists j y, plain j y).
    Proof.
      intros i x HX. rewrite single_false, rest_ex.
      apply goes_iff in HX; [|discriminate]. destruct HX as (o & HO & EK & EX).
      split.
      - intros H. assert (HC : 1 <= cnt m) by (destruct H as [(_ & H)|H]; lia).
        apply cnt_one in HC. destruct HC as (j & o' & H1 & H2). apply nbb_ok in H2. destruct H2 as (i' & -> & H2 & H3).
        exists j, (i_name i'). apply plain_iff. eauto.
      - intros (j & y & H). apply plain_iff in H. destruct H as (o' & H1 & H2 & H3 & H4). left. split; [eauto|].
        apply cnt_one. exists j, (Some o'). split; auto. apply nbb_ok; eauto.
    Qed.
  End M.

  Lemma fss_in : existsb fss (namedn ps) = false <-> ~ exists x, In (PNamed x) ps /\ 1 <= x <= 3.
  Proof.
    rewrite <- not_true_iff_false, existsb_exists. unfold namedn, fss. split.
    - intros H (x & H1 & H2). apply H. exists x. split.
      + apply in_flat_map. exists (PNamed x). split; auto. left; auto.
      + apply andb_true_iff. rewrite !Nat.leb_le. auto.
    - intros H (x & H1 & H2). apply H. apply in_flat_map in H1. destruct H1 as (p & Hp & Hx).
      destruct p as [y|y|y]; cbn in Hx; try contradiction. destruct Hx as [->|[]].
      exists x. split; auto. apply andb_true_iff in H2. rewrite !Nat.leb_le in H2. auto.
  Qed.

  Theorem hint_pos : forall i x, In (i, false, x) h <->
    plain i x /\ x <> 0 /\ (~ exists y, In (PNamed y) ps /\ 1 <= y <= 3) /\
    exists j y, j <> i /\ (plain j y \/ G j Rest y).
  Proof.
    intros i x. destruct get_m as (m & HM & ->). rewrite loop_pos, <- fss_in. split.
    - intros (j & o & -> & H1 & H2 & H3 & H4 & H5 & H6 & H7). cbn [Nat.add].
      assert (HX : plain j x) by (apply (plain_iff m HM); eauto).
      repeat split; try apply HX; auto. eapply (single_pos_iff m HM); eauto.
    - intros (HX & H5 & H6 & H7). pose proof (proj1 (plain_iff m HM i x) HX) as (o & HO & EK & EB & EX).
      exists i, o. repeat split; auto. eapply (single_pos_iff m HM); eauto.
  Qed.

  Theorem hint_rest : forall i x, In (i, true, x) h <->
    G i Rest x /\ x <> 0 /\ (forall j y, j < i -> ~ G j Rest y) /\ exists j y, plain j y.
  Proof.
    intros i x. destruct get_m as (m & HM & ->). rewrite loop_rest. split.
    - intros (j & o & -> & H1 & H2 & H3 & H4 & H5 & H6). cbn [Nat.add].
      assert (HX : G j Rest x). { apply (goes_iff m HM); [discriminate|]. exists o; auto. }
      split; auto. split; auto. split.
      + intros j' y L HG.
        assert (E : x = y).
        { destruct HX as (_ & HX). destruct HG as (_ & HG). apply passed_tidy in HX; auto. apply passed_tidy in HG; auto.
          destruct HX as (_ & [(E & _)|(_ & _ & E1)]); [discriminate|].
          destruct HG as (_ & [(E & _)|(_ & _ & E2)]); [discriminate|]. congruence. }
        subst y. apply (goes_iff m HM) in HG; [|discriminate]. destruct HG as (o' & G1 & G2 & G3).
        rewrite (H6 j' o' L G1 G2) in G3. congruence.
      + apply (single_rest_iff m HM j x HX). auto.
    - intros (HX & H4 & H5 & H6). pose proof (proj1 (goes_iff m HM i Rest x ltac:(discriminate)) HX) as (o & HO & EK & EX).
      exists i, o. repeat split; auto.
      + apply (single_rest_iff m HM i x HX). auto.
      + intros j' o' L E K. exfalso. apply (H5 j' (i_name o') L). apply (goes_iff m HM); [discriminate|]. exists o'; auto.
  Qed.
End Hints.

(** * Signature help *)

Lemma params_names : forall ps l, sig_params (primary ps) = Some l ->
  map fst l = a_pos (gathered ps) ++ named_specs (gathered ps) ++ opt_list (a_rest (gathered ps)).
Proof.
  intros ps l. unfold sig_params. rewrite prim_pos, prim_named, prim_rest. intros H; inversion H; subst.
  rewrite !map_app, !map_map. f_equal; [|f_equal].
  - generalize (a_pos (gathered ps)) as q. intros q.
    assert (HH : forall o, map (fun x : nat * pty => fst (let '(i, p) := x in (p, ty_pos (g_ty (primary ps)) i))) (combine (seq o (length q)) q) = q).
    { induction q as [|a q IH]; intros o; cbn; auto. f_equal; auto. }
    apply HH.
  - cbn. apply map_id.
  - destruct (a_rest (gathered ps)); reflexivity.
Qed.

Lemma params_total : forall ps, exists l, sig_params (primary ps) = Some l.
Proof. intros ps. unfold sig_params. rewrite prim_pos, prim_named, prim_rest. eauto. Qed.

Lemma help_pos : forall n shift l idx act,
  help_loop false (TPos n) shift idx idx act l
  = (map p_name l, if (idx <=? n + shift) && (n + shift <? idx + length l) then Some (n + shift) else act).
Proof.
  induction l as [|p l IH]; intros idx act; cbn [help_loop andb negb map length].
  - rewrite Nat.add_0_r. destruct (Nat.leb_spec idx (n + shift)), (Nat.ltb_spec (n + shift) idx); cbn; auto; lia.
  - rewrite IH. f_equal.
    destruct (Nat.eqb_spec (n + shift) idx); destruct (Nat.leb_spec idx (n + shift)), (Nat.leb_spec (S idx) (n + shift)),
      (Nat.ltb_spec (n + shift) (S idx + length l)), (Nat.ltb_spec (n + shift) (idx + S (length l))); cbn; auto; try lia.
Qed.

Lemma help_named : forall set x shift l idx real act names r,
  help_loop set (TNamed x) shift idx real act l = (names, r) ->
  (forall a, r = Some a -> act = Some a \/ exists j, a = real + j /\ nth_error names j = Some x) /\
  (act <> None -> r <> None) /\ (r = None -> ~ In x names) /\
  names = map p_name (filter (fun p => negb set || p_set p) l).
Proof.
  induction l as [|p l IH]; intros idx real act names r H; cbn [help_loop] in H.
  - inversion H; subst. repeat split; auto.
  - destruct (set && negb (p_set p)) eqn:E.
    + destruct (IH _ _ _ _ _ H) as (H1 & H2 & H3 & H4). repeat split; auto.
      cbn [filter]. destruct set, (p_set p); cbn in *; try discriminate. auto.
    + destruct (help_loop _ _ _ _ _ _ _) as (names', r') eqn:EH. inversion H; subst; clear H.
      destruct (IH _ _ _ _ _ EH) as (H1 & H2 & H3 & H4). repeat split.
      * intros a Ha. destruct (H1 a Ha) as [HA|(j & -> & Hj)].
        -- destruct (Nat.eqb_spec x (p_name p)); auto. inversion HA; subst. right. exists 0. split; [lia|]. reflexivity.
        -- right. exists (S j). split; [lia|]. auto.
      * intros HA. apply H2. destruct (x =? p_name p); auto. discriminate.
      * intros HR [HI|HI]; [|apply H3; auto].
        assert (r <> None); [|auto]. apply H2. rewrite HI, Nat.eqb_refl. discriminate.
      * cbn [filter]. replace (negb set || p_set p) with true; [cbn; congruence|].
        destruct set, (p_set p); cbn in *; auto; discriminate.
Qed.

Lemma shift_concat : forall (w : list (list (option nat))),
  fold_right (fun ws n => length ws + n) 0 w = length (concat w).
Proof. induction w; cbn; auto. rewrite app_length. auto. Qed.

Lemma npargs_all : forall l, (forall a, In a l -> a = None) -> npargs l = length l.
Proof.
  induction l as [|[x|] l IH]; intros H; cbn; auto.
  - specialize (H (Some x) (or_introl eq_refl)). discriminate.
  - f_equal. apply IH. intros a Ha. apply H; right; auto.
Qed.

Lemma shift_bound : forall f, only_pos f -> param_shift (func_signature f) = bound f.
Proof.
  induction f as [|f IH args]; cbn [only_pos]; intros H; [reflexivity|].
  destruct H as (H1 & H2). specialize (IH H1). unfold param_shift in *. cbn [func_signature f_with fold_right bound].
  rewrite IH, npargs_all by auto. lia.
Qed.

(** * The class of an argument *)

Lemma offset_ge : forall l o i, o <= offset_of o i l.
Proof. induction l as [|(c, w) l IH]; intros o [|i]; cbn; auto. specialize (IH (o + w) i). lia. Qed.

Lemma before_none : forall l o at_, (forall b w, In (KPos b, w) l -> 0 < w) -> o = at_ -> pos_before o at_ l = 0.
Proof.
  induction l as [|(c, w) l IH]; intros o at_ H ->; cbn; auto.
  destruct (Nat.leb_spec (at_ + w) at_); auto.
  assert (w = 0) by lia. subst w. destruct c as [b| | | | |];
    try (cbn; apply IH; [intros b' w' H'; eapply H; right; eauto|lia]).
  specialize (H b 0 (or_introl eq_refl)). lia.
Qed.

Lemma before_given : forall sz l o q i, (forall b w, In (KPos b, w) l -> 0 < w) -> i < length l ->
  ~ In KSpread (firstn i (map fst l)) ->
  pos_before o (offset_of o i l) l = given sz q (firstn i (map fst l)).
Proof.
  induction l as [|(c, w) l IH]; intros o q i H HL HS; [cbn in HL; lia|].
  destruct i as [|i].
  - cbn [offset_of]. rewrite before_none; auto.
  - cbn [offset_of pos_before map fst firstn given].
    pose proof (offset_ge l (o + w) i). destruct (Nat.leb_spec (o + w) (offset_of (o + w) i l)); [|lia].
    rewrite (IH (o + w) (S q) i).
    + f_equal. destruct c; auto. exfalso. apply HS. cbn. left; auto.
    + intros b w' HI. eapply H; right; eauto.
    + cbn in HL; lia.
    + intros HI. apply HS. cbn. right; auto.
Qed.

Lemma context_pos : forall sz o l i b w, (forall b w, In (KPos b, w) l -> 0 < w) ->
  nth_error l i = Some (KPos b, w) -> ~ In KSpread (firstn i (map fst l)) ->
  arg_context o l i = Some (TPos (given sz 0 (firstn i (map fst l)))).
Proof.
  intros sz o l i b w H HN HS. unfold arg_context. rewrite HN.
  rewrite (before_given sz l o 0 i); auto. apply nth_error_Some. congruence.
Qed.

Lemma help_passed : forall ps f x n k, tidy ps -> base f = map cparam_ty ps -> only_pos f ->
  passed ps k (bound f + n) Positional x ->
  exists names, signature_help (func_signature f) false (TPos n) = Some (names, Some (bound f + n)) /\
    nth_error names (bound f + n) = Some x /\ bound f + n < npos ps.
Proof.
  intros ps f x n k HT HB HO HPs. unfold signature_help. rewrite sig_primary, HB.
  destruct (params_total (map cparam_ty ps)) as (l & HL). rewrite HL.
  rewrite (help_pos n _ (map fst l) 0 None). rewrite (params_names _ _ HL).
  rewrite shift_bound by auto. rewrite prim_size.
  destruct (gathered_closure ps acc0) as (G1 & _ & _ & _). cbn in G1.
  unfold gathered. rewrite G1.
  apply passed_tidy in HPs; auto. destruct HPs as (_ & [(_ & HN)|(E & _)]); [|discriminate].
  assert (HLt : bound f + n < length (posn ps)) by (apply nth_error_Some; congruence).
  cbn [Nat.leb andb Nat.add]. replace (n + bound f) with (bound f + n) by lia.
  rewrite app_length, map_length.
  destruct (Nat.ltb_spec (bound f + n) (length (posn ps) +
    length (named_specs (fold_left add_param (map cparam_ty ps) acc0) ++
            opt_list (a_rest (fold_left add_param (map cparam_ty ps) acc0))))); [|lia].
  cbn [option_map]. rewrite Nat.min_l by lia. eexists. split; [reflexivity|].
  rewrite map_app, map_map. cbn [cparam_ty p_name]. rewrite map_id.
  rewrite nth_error_app1 by auto. split; auto. rewrite <- posn_len. auto.
Qed.

(** What is shown for a closure. *)
Lemma ins_perm : forall f l, Permutation (ins f l) (f :: l).
Proof.
  induction l as [|g l IH]; cbn; auto. destruct (fst f <=? fst g); auto.
  rewrite IH. apply perm_swap.
Qed.

Lemma shape_perm : forall l, Permutation (shape_fields l) l.
Proof. induction l; cbn; auto. rewrite ins_perm. auto. Qed.

Lemma named_specs_names : forall a, map p_name (named_specs a)
  = map fst (shape_fields (map (fun p => (p_name p, p_ty p)) (a_named a))).
Proof.
  intros a. unfold named_specs.
  assert (HI : forall x, In x (map fst (shape_fields (map (fun p => (p_name p, p_ty p)) (a_named a)))) ->
    exists p, spec_of (a_named a) x = Some p /\ p_name p = x).
  { intros x Hx. apply named_in in Hx. destruct (spec_some _ _ Hx) as (p & Hp). exists p. split; auto.
    apply (spec_name _ _ _ Hp). }
  revert HI. generalize (map fst (shape_fields (map (fun p => (p_name p, p_ty p)) (a_named a)))) as q.
  induction q as [|x q IH]; intros HI; cbn; auto.
  destruct (HI x (or_introl eq_refl)) as (p & -> & E). cbn. rewrite E. f_equal. apply IH. intros y Hy. apply HI; right; auto.
Qed.

Lemma help_names : forall t shift q i j a, fst (help_loop false t shift i j a q) = map p_name q.
Proof.
  induction q as [|p q IH]; intros i j a; [reflexivity|]. cbn [help_loop andb map].
  match goal with |- context [help_loop _ _ _ ?a ?b ?c q] => specialize (IH a b c); destruct (help_loop false t shift a b c q) end.
  cbn [fst] in *. rewrite IH. reflexivity.
Qed.

Lemma shown_closure : forall ps f t names act, base f = map cparam_ty ps ->
  signature_help (func_signature f) false t = Some (names, act) ->
  exists ns, names = posn ps ++ ns ++ opt_list (sinkn ps) /\ Permutation ns (namedn ps).
Proof.
  intros ps f t names act HB H. unfold signature_help in H. rewrite sig_primary, HB in H.
  destruct (params_total (map cparam_ty ps)) as (l & HL). rewrite HL in H.
  assert (HN : fst (help_loop false t (param_shift (func_signature f)) 0 0 None (map fst l)) = map p_name (map fst l)).
  { apply help_names. }
  destruct (help_loop _ _ _ _ _ _ _) as (nm, r). cbn in HN. inversion H; subst.
  rewrite (params_names _ _ HL). rewrite !map_app.
  exists (map p_name (named_specs (gathered (map cparam_ty ps)))). split.
  - destruct (gathered_closure ps acc0) as (G1 & _ & G3 & _). cbn in G1, G3. unfold gathered. rewrite G1, G3.
    rewrite map_map. cbn [cparam_ty p_name]. rewrite map_id. f_equal. f_equal. destruct (sinkn ps); reflexivity.
  - rewrite named_specs_names. rewrite shape_perm, map_map. cbn [fst].
    destruct (gathered_closure ps acc0) as (_ & G2 & _ & _). cbn in G2. unfold gathered. rewrite G2.
    rewrite map_map. cbn [cparam_ty p_name]. rewrite map_id. auto.
Qed.

(** A named argument, of any function and in a set rule as well. *)
Lemma help_named_ok : forall f set x, exists names act,
  signature_help (func_signature f) set (TNamed x) = Some (names, act) /\
  (forall a, act = Some a -> nth_error names a = Some x) /\ (act = None -> ~ In x names).
Proof.
  intros f set x. unfold signature_help. rewrite sig_primary.
  destruct (params_total (base f)) as (l & ->).
  destruct (help_loop set (TNamed x) (param_shift (func_signature f)) 0 0 None (map fst l)) as (names, r) eqn:E.
  exists names, r. split; auto. apply help_named in E. destruct E as (H1 & _ & H3 & _). split; auto.
  intros a Ha. destruct (H1 a Ha) as [H|(j & -> & H)]; [discriminate|]. auto.
Qed.

Lemma help_set_pos : forall n sh l idx real, snd (help_loop true (TPos n) sh idx real None l) = None.
Proof.
  induction l as [|p l IH]; intros idx real; cbn [help_loop]; auto.
  destruct (true && negb (p_set p)); [apply IH|].
  specialize (IH (S idx) (S real)). destruct (help_loop true (TPos n) sh (S idx) (S real) None l). exact IH.
Qed.

(** What [add_param] gathers, for any parameters. *)
Lemma gathered_in : forall ps a q,
  (In q (a_pos (fold_left add_param ps a)) -> In q (a_pos a) \/ In q ps) /\
  (In q (a_named (fold_left add_param ps a)) -> In q (a_named a) \/ In q ps) /\
  (a_rest (fold_left add_param ps a) = Some q -> a_rest a = Some q \/ In q ps).
Proof.
  induction ps as [|p ps IH]; intros a q; cbn [fold_left]; [tauto|].
  destruct (IH (add_param a p) q) as (H1 & H2 & H3). repeat split; intros H.
  - destruct (H1 H) as [HI|HI]; [|right; right; auto]. cbn in HI.
    destruct (p_var p); auto. destruct (p_pos p); auto.
    apply in_app_iff in HI. destruct HI as [HI|[<-|[]]]; auto. right; left; auto.
  - destruct (H2 H) as [HI|HI]; [|right; right; auto]. cbn in HI.
    destruct (p_named p); auto.
    apply in_app_iff in HI. destruct HI as [HI|[<-|[]]]; auto. right; left; auto.
  - destruct (H3 H) as [HI|HI]; [|right; right; auto]. cbn in HI.
    destruct (p_var p); auto. destruct (a_rest a); auto. inversion HI; subst. right; left; auto.
Qed.

Lemma gathered_has : forall ps a q,
  (In q (a_pos a) \/ In q ps /\ p_pos q = true /\ p_var q = false -> In q (a_pos (fold_left add_param ps a))) /\
  (In q (a_named a) \/ In q ps /\ p_named q = true -> In q (a_named (fold_left add_param ps a))).
Proof.
  induction ps as [|p ps IH]; intros a q; cbn [fold_left].
  - split; intros [H|(H & _)]; auto; destruct H.
  - destruct (IH (add_param a p) q) as (H1 & H2). split.
    + intros H. apply H1. cbn. destruct H as [H|([->|H] & E1 & E2)].
      * left. destruct (p_var p); auto. destruct (p_pos p); auto. apply in_or_app; auto.
      * left. rewrite E1, E2. apply in_or_app. right. left. auto.
      * auto.
    + intros H. apply H2. cbn. destruct H as [H|([->|H] & E1)].
      * left. destruct (p_named p); auto. apply in_or_app; auto.
      * left. rewrite E1. apply in_or_app. right. left. auto.
      * auto.
Qed.

Lemma in_named_specs : forall a q, In q (named_specs a) <-> exists x, In x (map p_name (a_named a)) /\ spec_of (a_named a) x = Some q.
Proof.
  intros a q. unfold named_specs. rewrite in_flat_map. split.
  - intros (x & Hx & Hq). exists x. split; [apply named_in; auto|]. destruct (spec_of (a_named a) x); [|destruct Hq]. destruct Hq as [->|[]]; auto.
  - intros (x & Hx & Hq). exists x. split; [apply named_in; auto|]. rewrite Hq. left; auto.
Qed.

Lemma shown_set : forall f x names act, signature_help (func_signature f) true (TNamed x) = Some (names, act) ->
  (forall y, In y names -> exists p, In p (base f) /\ p_set p = true /\ p_name p = y) /\
  (forall p, NoDup (map p_name (base f)) -> In p (base f) -> p_set p = true ->
     p_named p = true \/ p_pos p = true /\ p_var p = false -> In (p_name p) names).
Proof.
  intros f x names act H. unfold signature_help in H. rewrite sig_primary in H.
  destruct (params_total (base f)) as (l & HL). rewrite HL in H.
  destruct (help_loop true (TNamed x) (param_shift (func_signature f)) 0 0 None (map fst l)) as (nm, r) eqn:E.
  apply help_named in E. destruct E as (_ & _ & _ & E). inversion H; subst. clear H.
  rewrite (params_names _ _ HL). cbn [negb orb]. unfold gathered. set (a := fold_left add_param (base f) acc0).
  assert (HN : forall q, In q (named_specs a) -> In q (base f)).
  { intros q Hq. apply in_named_specs in Hq. destruct Hq as (y & _ & Hq). apply spec_name in Hq. destruct Hq as (_ & Hq).
    apply gathered_in in Hq. destruct Hq as [[]|Hq]; auto. }
  split.
  - intros y Hy. apply in_map_iff in Hy. destruct Hy as (p & <- & Hp). apply filter_In in Hp. destruct Hp as (Hp & HS).
    exists p. split; auto. apply in_app_iff in Hp. destruct Hp as [Hp|Hp].
    + apply gathered_in in Hp. destruct Hp as [[]|Hp]; auto.
    + apply in_app_iff in Hp. destruct Hp as [Hp|Hp]; auto.
      destruct (a_rest a) as [q|] eqn:ER; [|destruct Hp]. destruct Hp as [->|[]].
      apply gathered_in in ER. destruct ER as [ER|ER]; [discriminate|auto].
  - intros p HD Hp HS HK. apply in_map. apply filter_In. split; auto. apply in_app_iff.
    destruct HK as [HK|(HK & HV)].
    + right. apply in_app_iff. left. apply in_named_specs. exists (p_name p).
      assert (HI : In p (a_named a)). { apply gathered_has. right. auto. }
      split; [apply in_map; auto|].
      destruct (spec_some (a_named a) (p_name p)) as (q & Hq); [apply in_map; auto|]. rewrite Hq. f_equal.
      apply spec_name in Hq. destruct Hq as (Hq & Hq').
      assert (HQ : In q (base f)). { apply gathered_in in Hq'. destruct Hq' as [[]|Hq']; auto. }
      clear - HD Hp HQ Hq. induction (base f) as [|z zs IH]; [destruct Hp|].
      inversion HD; subst. destruct Hp as [->|Hp], HQ as [->|HQ]; auto.
      * exfalso. apply H1. rewrite <- Hq. apply in_map; auto.
      * exfalso. apply H1. rewrite Hq. apply in_map; auto.
    + left. apply gathered_has. right. auto.
Qed.

(** * Matching types *)

Lemma nth_combine : forall A B (a : list A) (b : list B) i,
  nth_error (combine a b) i = match nth_error a i, nth_error b i with Some x, Some y => Some (x, y) | _, _ => None end.
Proof.
  induction a as [|x a IH]; intros [|y b] [|i]; cbn; auto. destruct (nth_error a i); auto.
Qed.

Lemma nth_firstn : forall A (l : list A) n i, nth_error (firstn n l) i = if i <? n then nth_error l i else None.
Proof.
  induction l as [|x l IH]; intros n i.
  - rewrite firstn_nil. destruct (i <? n); destruct i; reflexivity.
  - destruct n as [|n], i as [|i]; cbn [firstn nth_error]; auto. rewrite IH. reflexivity.
Qed.

Lemma nth_stream : forall l r n i, nth_error (stream l r n) i =
  if i <? n then match nth_error l i with Some x => Some x | None => r end else None.
Proof.
  intros l [r|] n i; unfold stream; rewrite nth_firstn; destruct (Nat.ltb_spec i n); auto.
  - destruct (nth_error l i) eqn:E.
    + rewrite nth_error_app1; auto. apply nth_error_Some. congruence.
    + apply nth_error_None in E. rewrite nth_error_app2 by auto. apply nth_error_repeat. lia.
  - destruct (nth_error l i); auto.
Qed.

Lemma with_len : forall (w : list sigty), fold_right (fun a n => length (positional_params a) + n) 0 w
  = length (flat_map positional_params (rev w)).
Proof.
  induction w as [|a w IH]; cbn; auto. rewrite flat_map_app, app_length. cbn. rewrite app_nil_r. lia.
Qed.

Lemma matches_nth : forall s args w i, nth_error (matches_pos s args w) i =
  let all := flat_map positional_params (rev w) ++ positional_params args in
  match (match nth_error (positional_params s) i with Some p => Some p | None => rest_param s end),
        (match nth_error all i with Some a => Some a | None => rest_param args end) with
  | Some p, Some a =>
      if i <? Nat.max (length (positional_params s)) (length all)
              + match rest_param s, rest_param args with Some _, Some _ => 1 | _, _ => 0 end
      then Some (p, a) else None
  | _, _ => None
  end.
Proof.
  intros s args w i. unfold matches_pos. rewrite nth_combine, !nth_stream, with_len.
  cbv zeta. rewrite app_length.
  destruct (i <? _); [reflexivity|].
  destruct (match nth_error (positional_params s) i with Some p => Some p | None => rest_param s end); auto.
  destruct (match nth_error _ i with Some a => Some a | None => rest_param args end); auto.
Qed.
