(** Proofs about the edits of completions. *)
From Coq Require Import List Arith NArith ZArith Bool Lia.
From Verif Require Import DigModel PageModel CompModel CompSpec CompProof.
Import ListNotations.
Local Open Scope nat_scope.

Lemma firstn_front {A} (x y : list A) n : n = length x -> firstn n (x ++ y) = x.
Proof. intros ->. rewrite firstn_app, Nat.sub_diag, firstn_all, firstn_O. apply app_nil_r. Qed.
Lemma skipn_front {A} (x y : list A) n : n = length x -> skipn n (x ++ y) = y.
Proof. intros ->. rewrite skipn_app, Nat.sub_diag, skipn_all. auto. Qed.

Lemma first_is_ok x t : first_is x t = true <-> starts x t.
Proof.
  unfold first_is, starts. destruct t as [|c t]; [split; [discriminate|intros (t' & E); discriminate]|].
  destruct (N.eqb_spec c x) as [->|H]; split; auto; [intros _; exists t; auto|discriminate|]. intros (t' & E). injection E as -> _. congruence.
Qed.
Lemma last_is_ok x t : last_is x t = true <-> ends x t.
Proof.
  unfold last_is, ends. destruct (rev t) as [|c r] eqn:E.
  - split; [discriminate|]. intros (t' & ->). rewrite rev_app_distr in E. discriminate.
  - assert (Et : t = rev r ++ [c]) by (rewrite <- (rev_involutive t), E; reflexivity). destruct (N.eqb_spec c x) as [->|H]; split; auto.
    + intros _. exists (rev r). auto.
    + discriminate.
    + intros (t' & E'). rewrite E' in Et. apply app_inj_tail in Et. destruct Et as (_ & ->). congruence.
Qed.
Lemma drop_white_ok t : exists w, t = w ++ drop_white t /\ (forall c, In c w -> is_white c = true) /\ (forall c r, drop_white t = c :: r -> is_white c = false).
Proof.
  induction t as [|c t (w & E & H1 & H2)]; cbn.
  - exists []. split; [auto|split; [intros c []|discriminate]].
  - destruct (is_white c) eqn:Ec.
    + exists (c :: w). split; [cbn; congruence|split; [|auto]]. intros d [<-|Hd]; auto.
    + exists []. split; [auto|split; [intros d []|]]. intros d r E'. injection E' as <- <-. auto.
Qed.
Lemma comma_ok s : last_is 44 (rev (drop_white (rev s))) = true <-> ends_in_comma s.
Proof.
  rewrite last_is_ok. unfold ends, ends_in_comma. destruct (drop_white_ok (rev s)) as (w & E & H1 & H2). split.
  - intros (t' & E'). exists t', (rev w). split.
    + rewrite <- (rev_involutive s), E, rev_app_distr, E', <- app_assoc. auto.
    + intros c Hc. apply H1. apply in_rev. auto.
  - intros (x & w' & Es & Hw). exists x. rewrite <- (rev_involutive (x ++ [44%N])). f_equal. rewrite rev_app_distr. cbn [rev app].
    rewrite Es, rev_app_distr, rev_app_distr in *. cbn [rev app] in *.
    assert (Hr : forall c, In c (rev w') -> is_white c = true) by (intros c Hc; apply Hw; apply in_rev; auto).
    clear -Hr. induction (rev w') as [|c r IH]; cbn; auto. rewrite (Hr c) by (left; auto). apply IH. intros d Hd. apply Hr. right. auto.
Qed.
Lemma arg_like_ok ps : arg_like ps = true <-> exists a b, ps = a ++ Arguments :: b /\ forall p, In p a -> p = OtherParent.
Proof.
  induction ps as [|p ps IH]; cbn.
  - split; [discriminate|]. intros (a & b & E & _). destruct a; discriminate.
  - destruct p.
    + split; [discriminate|]. intros (a & b & E & H). destruct a as [|q a]; cbn in E; [discriminate|]. injection E as <- E. discriminate (H Contents). left. auto.
    + split; auto. intros _. exists [], ps. split; [auto|intros p []].
    + rewrite IH. split; intros (a & b & E & H).
      * exists (OtherParent :: a), b. split; [cbn; congruence|]. intros p [<-|Hp]; auto.
      * destruct a as [|q a]; cbn in E; [discriminate|]. injection E as <- E. exists a, b. split; [auto|]. intros p Hp. apply H. right. auto.
Qed.

Lemma sel_ident c : on_ident c -> selected_node c = Some Ident.
Proof. intros ([H|H] & Hi & E); unfold selected_node; rewrite H, Hi, E, Nat.eqb_refl; auto. Qed.
Lemma sel_label c : on_label c -> selected_node c = Some LabelNode.
Proof. intros (H & E). unfold selected_node. rewrite H, E, Nat.eqb_refl. auto. Qed.
Lemma sel_ref c : on_ref c -> selected_node c = Some RefNode.
Proof. intros (H & E). unfold selected_node. rewrite H, E, Nat.eqb_refl. auto. Qed.
Lemma sel_none c : ~ on_ident c -> ~ on_label c -> ~ on_ref c -> selected_node c = None.
Proof.
  unfold on_ident, on_label, on_ref, selected_node. intros H1 H2 H3. destruct (class_ c) as [[]|]; cbn; auto.
  - destruct (ident_like c); cbn; auto. destruct (Nat.eqb_spec (leaf_offset c) (from c)); auto. destruct H1; auto.
  - destruct (ident_like c); cbn; auto. destruct (Nat.eqb_spec (leaf_offset c) (from c)); auto. destruct H1; auto.
  - destruct (Nat.eqb_spec (leaf_offset c + 1) (from c)); auto. destruct H2; auto.
  - destruct (Nat.eqb_spec (leaf_offset c + 1) (from c)); auto. destruct H3; auto.
Qed.

Lemma replaced_leaf pre leaf post t : replaced (pre ++ leaf ++ post) (length pre, length pre + length leaf, t) = pre ++ t ++ post.
Proof.
  unfold replaced. cbn [fst snd]. rewrite firstn_front by auto. rewrite (app_assoc pre leaf post), skipn_front; [auto|]. rewrite app_length. auto.
Qed.

Lemma has_node_ok a : has_node a = true <-> names_node a.
Proof.
  unfold names_node. induction a as [|c a IH].
  - cbn. split; [discriminate|]. intros (x & y & E). destruct x; discriminate.
  - cbn [has_node]. rewrite orb_true_iff, IH. split.
    + intros [H|(x & y & ->)]; [|exists (c :: x), y; auto]. destruct a as [|x2 [|x3 [|x4 t]]]; try discriminate.
      rewrite !andb_true_iff, !N.eqb_eq in H. destruct H as (((-> & ->) & ->) & ->). exists [], t. auto.
    + intros (x & y & E). destruct x as [|d x]; cbn in E; [left|right].
      * injection E as -> ->. reflexivity.
      * injection E as <- ->. exists x, y. auto.
Qed.

Lemma to_lsp_ok t : exists ps e, marked t ps e /\ renders 1 ps e (to_lsp_snippet t).
Proof.
  unfold to_lsp_snippet. pose proof (pieces_ok (length t) t (le_n _)) as M. destruct (pieces (length t) t) as [ps e]. exists ps, e. split; [exact M|apply numbered_ok].
Qed.
Lemma pieces_marked t ps e : marked t ps e -> pieces (length t) t = (ps, e).
Proof.
  intros M. pose proof (pieces_ok (length t) t (le_n _)) as M'. destruct (pieces (length t) t) as [ps' e']. destruct (marked_fun _ _ _ M' _ _ M) as (E1 & E2). cbn in E1, E2. congruence.
Qed.
Lemma marked_head t b a ps e : marked t ((b, a) :: ps) e -> exists r, t = b ++ held a ++ r /\ marked r ps e.
Proof. intros M. inversion M; subst. eexists. split; [reflexivity|eassumption]. Qed.
Lemma marked_nil t e : marked t [] e -> t = e.
Proof. intros M. inversion M. auto. Qed.

Lemma edited_cons k src x y z a b t es : src = x ++ y ++ z -> a - k = length x -> b - k = length x + length y -> edited k src ((a, b, t) :: es) = x ++ t ++ edited b z es.
Proof.
  intros -> Ha Hb. cbn [edited]. rewrite firstn_front by auto. rewrite (app_assoc x y z), skipn_front; [auto|]. rewrite app_length. auto.
Qed.

Lemma word_ok c word t : on_word c word -> item_of c t = (from c, from c + length word, t).
Proof.
  intros (Ha & [H|(H1 & H2 & H3 & H4)]).
  - unfold item_of. rewrite sel_none.
    + rewrite Ha. auto.
    + intros ([K|K] & _); destruct H as [H|H]; congruence.
    + intros (K & _). destruct H; congruence.
    + intros (K & _). destruct H; congruence.
  - unfold item_of. rewrite sel_ident by (split; [auto|auto]). rewrite H1, H3, H4, Ha, Nat.eqb_refl. cbn. auto.
Qed.

Section Postfix.
  Variables (c : cursor) (src pre node mid word post : text).
  Hypothesis Hs : src = pre ++ node ++ mid ++ word ++ post.
  Hypothesis Hf : from c = length pre + length node + length mid.
  Hypothesis Hw : on_word c word.

  Lemma item_around s p : before_before p = None -> result src (postfix_item c (length pre) node s p) = pre ++ node_before p ++ node ++ node_after p ++ post.
  Proof.
    intros Hb. unfold postfix_item, result. rewrite Hb, (word_ok c word) by auto. cbn [range new_text extra app].
    rewrite (edited_cons 0 src pre [] (node ++ mid ++ word ++ post)) by (try exact Hs; cbn; lia).
    rewrite (edited_cons (length pre) _ node mid (word ++ post)) by (try reflexivity; lia).
    rewrite (edited_cons (from c) _ [] word post) by (try reflexivity; cbn; lia). auto.
  Qed.
  Lemma item_inside s p bb : before_before p = Some bb -> result src (postfix_item c (length pre) node s p) = pre ++ bb ++ node_before p ++ node ++ node_after p ++ post.
  Proof.
    intros Hb. unfold postfix_item, result. rewrite Hb, (word_ok c word) by auto. cbn [range new_text extra app].
    rewrite (edited_cons 0 src pre (node ++ mid) (word ++ post)) by (try (rewrite Hs, <- !app_assoc; reflexivity); rewrite ?app_length; lia).
    rewrite (edited_cons (from c) _ [] word post) by (try reflexivity; cbn; lia). cbn [app edited]. rewrite <- !app_assoc. auto.
  Qed.

  Lemma parse_ok s ps e : marked (snippet s) ps e -> ps <> [] ->
    (parse (snippet s) = Some None /\ forall out, ~ wraps (snippet s) node out) \/
    (exists p out, parse (snippet s) = Some (Some p) /\ wraps (snippet s) node out /\ result src (postfix_item c (length pre) node s p) = pre ++ out ++ post).
  Proof.
    intros M Hp. unfold parse. rewrite (pieces_marked _ _ _ M). destruct ps as [|[b a] ps]; [congruence|]. destruct (marked_head _ _ _ _ _ M) as (r & E & Mr).
    assert (E0 : forall x, x = length b + 2 + length a + 1 -> skipn x (snippet s) = r).
    { intros x ->. rewrite E, app_assoc. apply skipn_front. rewrite app_length, held_len. lia. }
    assert (Ef : firstn (length b) (snippet s) = b) by (rewrite E; apply firstn_front; auto).
    assert (Long : 2 <= length ps -> forall out, ~ wraps (snippet s) node out).
    { intros Hl out W. inversion W as [b0 a0 r0 ps0 e0 M0 L0 N0 E1|b0 a0 b1 a1 e0 M0 N0]; subst; destruct (marked_fun _ _ _ M _ _ M0) as (E2 & _); injection E2 as E3 E4 E5; rewrite E5 in Hl; cbn in *; lia. }
    destruct ps as [|[b1 a1] ps].
    - destruct (has_node a) eqn:En.
      + right. apply has_node_ok in En. eexists. exists (b ++ node ++ r). split; [reflexivity|]. split; [eapply wraps_node; eauto; cbn; lia|].
        rewrite item_around by reflexivity. cbn [node_before node_after]. rewrite Ef, (E0 _ eq_refl), <- !app_assoc. auto.
      + left. split; [auto|]. intros out W. inversion W as [b0 a0 r0 ps0 e0 M0 L0 N0 E1|b0 a0 b1 a1 e0 M0 N0]; subst; destruct (marked_fun _ _ _ M _ _ M0) as (E2 & _); [|discriminate].
        injection E2 as E3 E4 E5. subst a0. apply has_node_ok in N0. congruence.
    - destruct ps as [|q ps]; [|left; split; [auto|apply Long; cbn; lia]]. right. destruct (marked_head _ _ _ _ _ Mr) as (r1 & E1 & Mr1). apply marked_nil in Mr1. subst r1.
      destruct (has_node a) eqn:En.
      + apply has_node_ok in En. eexists. exists (b ++ node ++ r). split; [reflexivity|]. split; [eapply wraps_node; eauto|].
        rewrite item_around by reflexivity. cbn [node_before node_after]. rewrite Ef, (E0 _ eq_refl), <- !app_assoc. auto.
      + assert (Nn : ~ names_node a) by (rewrite <- has_node_ok; congruence). eexists. exists (b ++ held a ++ b1 ++ node ++ e). split; [reflexivity|]. split; [eapply wraps_second; eauto|].
        erewrite item_inside by reflexivity. cbn [node_before node_after]. rewrite Ef.
        replace (firstn (length b + 2 + length a + 1 + length b1 - length b) (skipn (length b) (snippet s))) with (held a ++ b1).
        * replace (skipn (length b + 2 + length a + 1 + length b1 + 2 + length a1 + 1) (snippet s)) with e; [rewrite <- !app_assoc; auto|].
          rewrite E, E1. replace (b ++ held a ++ b1 ++ held a1 ++ e) with ((b ++ held a ++ b1 ++ held a1) ++ e) by (rewrite <- !app_assoc; auto). rewrite skipn_front; auto. rewrite !app_length, !held_len. lia.
        * rewrite E, skipn_front by auto. rewrite E1. replace (held a ++ b1 ++ held a1 ++ e) with ((held a ++ b1) ++ held a1 ++ e) by (rewrite <- !app_assoc; auto). rewrite firstn_front; auto. rewrite app_length, held_len. lia.
  Qed.

  Lemma mode_eqb_ok m m' : mode_eqb m m' = true <-> m = m'.
  Proof. destruct m, m'; cbn; split; congruence. Qed.
  Lemma usable_ok m k s : existsb (mode_eqb m) (modes s) && (negb (content_only s) || k) = true <-> usable m k s.
  Proof.
    unfold usable. rewrite andb_true_iff, existsb_exists, orb_true_iff, negb_true_iff. split.
    - intros ((x & Hx & E) & H). apply mode_eqb_ok in E. subst x. split; [auto|]. intros K. destruct H; congruence.
    - intros (H & K). split; [exists m; split; [auto|apply mode_eqb_ok; auto]|]. destruct (content_only s); auto.
  Qed.

  Lemma postfix_ok m k ss : (forall s, In s ss -> usable m k s -> forall e, ~ marked (snippet s) [] e) ->
    exists l, postfix_items c m k (length pre) node ss = Some l /\
      chosen (fun s i => usable m k s /\ label i = p_label s /\ exists out, wraps (snippet s) node out /\ result src i = pre ++ out ++ post)
             (fun s => usable m k s -> forall out, ~ wraps (snippet s) node out) ss l.
  Proof.
    induction ss as [|s ss IH]; intros H; cbn [postfix_items]; [exists []; split; [auto|constructor]|].
    destruct IH as (l & El & Hl); [intros s' Hs'; apply H; right; auto|].
    destruct (existsb (mode_eqb m) (modes s) && (negb (content_only s) || k)) eqn:E.
    - apply usable_ok in E. pose proof (pieces_ok (length (snippet s)) (snippet s) (le_n _)) as M. destruct (pieces (length (snippet s)) (snippet s)) as [ps e]. cbn in M.
      assert (Hp : ps <> []) by (intros ->; eapply H; eauto; left; auto).
      destruct (parse_ok s ps e M Hp) as [(P & W)|(p & out & P & W & R)]; rewrite P, El.
      + exists l. split; [auto|]. apply chosen_no; auto.
      + exists (postfix_item c (length pre) node s p :: l). split; [auto|]. apply chosen_yes; [|auto]. split; [auto|split; [|eauto]].
        unfold postfix_item. destruct (before_before p); rewrite (word_ok c word) by auto; auto.
    - exists l. split; [auto|]. apply chosen_no; [|auto]. intros K. apply usable_ok in K. congruence.
  Qed.

  Lemma ufcs_ok u l r block f : Forall2 (fun i out => result src i = pre ++ out ++ post) (ufcs_items u l r c (length pre) node block f) (calls u l r node block f).
  Proof.
    unfold ufcs_items, calls. destruct (name f) as [|n0 nm] eqn:En; cbn [orb andb]; [constructor|]. rewrite <- En. clear En.
    destruct (is_function f); cbn [negb orb andb]; [|constructor]. rewrite Nat.leb_antisym. destruct (min_pos f <? 1); cbn [negb orb andb]; [constructor|].
    destruct (next_content f); cbn [negb orb andb]; [|constructor].
    assert (R1 : forall lab t x y, result src (let '(a, b, t0) := item_of c t in {| label := lab; sort_text := None; range := (a, b); new_text := t0; extra := [(length pre, length pre, x); (length pre + length node, from c, y)] |}) = pre ++ x ++ node ++ y ++ t ++ post).
    { intros lab t x y. rewrite (word_ok c word) by auto. unfold result. cbn [range new_text extra app].
      rewrite (edited_cons 0 src pre [] (node ++ mid ++ word ++ post)) by (try exact Hs; cbn; lia).
      rewrite (edited_cons (length pre) _ node mid (word ++ post)) by (try reflexivity; lia).
      rewrite (edited_cons (from c) _ [] word post) by (try reflexivity; cbn; lia). auto. }
    assert (R2 : forall lab t x, result src (let '(a, b, t0) := item_of c t in {| label := lab; sort_text := None; range := (a, b); new_text := t0; extra := [(length pre, from c, x)] |}) = pre ++ x ++ t ++ post).
    { intros lab t x. rewrite (word_ok c word) by auto. unfold result. cbn [range new_text extra app].
      rewrite (edited_cons 0 src pre (node ++ mid) (word ++ post)) by (try (rewrite Hs, <- !app_assoc; reflexivity); rewrite ?app_length; lia).
      rewrite (edited_cons (from c) _ [] word post) by (try reflexivity; cbn; lia). auto. }
    apply Forall2_app.
    - destruct (u && (min_pos f =? 1)); [|constructor]. constructor; [|constructor]. rewrite R1. destruct block; cbn [app]; rewrite <- ?app_assoc; cbn [app]; rewrite <- ?app_assoc; auto.
    - destruct ((1 <? min_pos f) || (0 <? min_named f)).
      + rewrite !andb_true_r. apply Forall2_app.
        * destruct l; [|constructor]. constructor; [|constructor]. rewrite R2. destruct block; cbn [app]; rewrite <- ?app_assoc; cbn [app]; rewrite <- ?app_assoc; auto.
        * destruct r; [|constructor]. constructor; [|constructor]. rewrite R1. cbn [app]. rewrite <- ?app_assoc. cbn [app]. rewrite <- ?app_assoc. auto.
      + rewrite !andb_false_r. constructor.
  Qed.
End Postfix.

(** Parentheses. *)
Lemma unclosed_ok args : unclosed args = true <-> left_open args.
Proof.
  unfold left_open. destruct args as [cs|]; cbn; [|split; [discriminate|intros (cs & E & _); discriminate]].
  assert (X : forall a, fold_left count1 cs a = (a + Z.of_nat (length (filter opening cs)) - Z.of_nat (length (filter closing cs)))%Z).
  { induction cs as [|x cs IH]; intros a; cbn [fold_left filter length]; [lia|]. rewrite IH. clear IH.
    assert (Y : count1 a x = (a + (if opening x then 1 else 0) - (if closing x then 1 else 0))%Z).
    { destruct x as [| |t|]; cbn; try lia. destruct t as [|y [|z t]]; try lia; repeat (match goal with |- context [match ?p with _ => _ end] => is_var p; destruct p end; try lia). }
    rewrite Y. destruct (opening x), (closing x); cbn [length]; lia. }
  rewrite X, Z.ltb_lt. split; [intros H; exists cs; split; [auto|lia]|]. intros (cs' & E & H). injection E as <-. lia.
Qed.

(** Prefix snippets. *)
Lemma surrounding_eqb_ok a b : surrounding_eqb a b = true <-> a = b.
Proof. destruct a, b; cbn; split; congruence. Qed.
Lemma stands_ok {A} (eqb : A -> A -> bool) (all : list A) (H : forall a b, eqb a b = true <-> a = b) (Hall : forall a, In a all) s x :
  (In x (stands_for eqb all s) \/ In None (stands_for eqb all s)) <-> allows s x.
Proof.
  destruct s as [[y|]|l]; cbn; try (intuition congruence).
  rewrite !in_map_iff. split.
  - intros [(y & E & Hy)|(y & E & _)]; [|discriminate]. exists y. split; [auto|]. apply filter_In in Hy. destruct Hy as (_ & Hy). intros Hin. apply negb_true_iff in Hy.
    assert (X : existsb (fun z => eqb z y) l = true) by (apply existsb_exists; exists y; split; [auto|apply H; auto]). congruence.
  - intros (y & -> & Hy). left. exists y. split; [auto|]. apply filter_In. split; [auto|]. apply negb_true_iff. destruct (existsb (fun z => eqb z y) l) eqn:E; auto.
    apply existsb_exists in E. destruct E as (z & Hz & E). apply H in E. subst z. contradiction.
Qed.
Lemma opt_eqb_ok {A} (eqb : A -> A -> bool) (H : forall a b, eqb a b = true <-> a = b) a b : opt_eqb eqb a b = true <-> a = b.
Proof. destruct a, b; cbn; try rewrite H; split; congruence. Qed.
Lemma keys_ok m s k : In k (keys m s) <-> (fst k = m \/ fst k = None) /\ (snd k = s \/ snd k = None).
Proof.
  destruct k as [a b]. unfold keys. destruct m as [m|], s as [s|]; cbn [app In fst snd]; split.
  1,3,5,7: intros H; repeat (destruct H as [H|H]; [injection H as <- <-; auto|]); destruct H.
  all: intros ([-> | ->] & [-> | ->]); tauto.
Qed.
Lemma offered_ok m s cs : offered m s cs = true <-> exists x, In x cs /\ allows (fst x) m /\ allows (snd x) s.
Proof.
  unfold offered. rewrite existsb_exists.
  assert (Hm : forall a, In a all_modes) by (intros []; cbn; tauto). assert (Hs : forall a, In a all_syntax) by (intros []; cbn; tauto). split.
  - intros (k & Hk & Ha). apply keys_ok in Hk. unfold applies_to in Ha. apply existsb_exists in Ha. destruct Ha as (y & Hy & E). apply andb_true_iff in E. destruct E as (E1 & E2).
    apply (opt_eqb_ok _ mode_eqb_ok) in E1. apply (opt_eqb_ok _ surrounding_eqb_ok) in E2. apply in_flat_map in Hy. destruct Hy as (x & Hx & Hy). destruct y as [y1 y2]. apply in_prod_iff in Hy. destruct Hy as (H1 & H2). cbn in E1, E2.
    exists x. split; [auto|]. rewrite <- (stands_ok _ _ mode_eqb_ok Hm), <- (stands_ok _ _ surrounding_eqb_ok Hs). destruct Hk as (K1 & K2). subst y1 y2.
    split; [destruct K1 as [K|K]|destruct K2 as [K|K]]; rewrite K in *; auto.
  - intros (x & Hx & H1 & H2). rewrite <- (stands_ok _ _ mode_eqb_ok Hm) in H1. rewrite <- (stands_ok _ _ surrounding_eqb_ok Hs) in H2.
    assert (X : exists a b, (a = m \/ a = None) /\ (b = s \/ b = None) /\ In a (stands_for mode_eqb all_modes (fst x)) /\ In b (stands_for surrounding_eqb all_syntax (snd x))).
    { destruct H1 as [H1|H1], H2 as [H2|H2]; eexists _, _; (split; [|split; [|split; [exact H1|exact H2]]]); auto. }
    destruct X as (a & b & Ka & Kb & Ia & Ib). exists (a, b). split; [apply keys_ok; auto|]. unfold applies_to. apply existsb_exists. exists (a, b). split.
    + apply in_flat_map. exists x. split; [auto|]. apply in_prod; auto.
    + apply andb_true_iff. split; [apply opt_eqb_ok; auto; apply mode_eqb_ok|apply opt_eqb_ok; auto; apply surrounding_eqb_ok].
Qed.
