(** Proofs about the choice of the main file. *)
From Coq Require Import List Bool.
From Verif Require Import PathModel PathProof EntryModel EntryProof FocusModel FocusSpec.
Import ListNotations.

Lemma run_snoc O r es e : run O r (es ++ [e]) = fst (step O (run O r es) e).
Proof. unfold run. rewrite fold_left_app. reflexivity. Qed.
Definition goes O (s : st) (es : list event) : st := fold_left (fun s e => fst (step O s e)) es s.
Lemma run_app O r a b : run O r (a ++ b) = goes O (run O r a) b.
Proof. unfold run, goes. apply fold_left_app. Qed.
Lemma same_path_spec a b : same_path a b = true <-> a = b.
Proof.
  destruct a as [a|], b as [b|]; cbn; split; intros H; try discriminate; try reflexivity.
  - apply path_eqb_spec in H. congruence.
  - injection H as ->. apply path_eqb_refl.
Qed.
Lemma change_spec p s : let '(s', ok) := change_main_file p s in
  s' = set_main (s_main s') s /\ (s_main s' = s_main s \/ s_main s' = p) /\ (ok = true -> s_main s' = p) /\ (ok = false -> s' = s).
Proof.
  unfold change_main_file. destruct p as [q|]; [destruct (is_abs q)|]; cbn; repeat split; auto; try discriminate. destruct s; reflexivity.
Qed.
(** Which steps change the main file. *)
Definition pinned (s : st) : bool := s_puser s || (s_pprev s && negb (s_pbrow s)) || s_hasdef s.
Lemma focus_foc p s : s_foc (fst (focus_main_file p s)) = p.
Proof.
  unfold focus_main_file. cbv zeta. destruct (_ || _); [reflexivity|]. pose proof (change_spec p (set_foc p (if same_path p (s_foc s) then s_pos s else None) s)) as C.
  destruct (change_main_file _ _) as [s' ok]. destruct C as (-> & _). reflexivity.
Qed.
Lemma focus_pos p s : s_pos (fst (focus_main_file p s)) = if same_path p (s_foc s) then s_pos s else None.
Proof.
  unfold focus_main_file. cbv zeta. destruct (_ || _); [reflexivity|]. pose proof (change_spec p (set_foc p (if same_path p (s_foc s) then s_pos s else None) s)) as C.
  destruct (change_main_file _ _) as [s' ok]. destruct C as (-> & _). reflexivity.
Qed.
(** The rest of the state after a change of focus. *)
Definition frame (s s' : st) : Prop :=
  s_conf s' = s_conf s /\ s_hasdef s' = s_hasdef s /\ s_puser s' = s_puser s /\ s_pprev s' = s_pprev s /\ s_pbrow s' = s_pbrow s.
Lemma focus_frame p s : frame s (fst (focus_main_file p s)) /\ s_act (fst (focus_main_file p s)) = s_act s /\ s_man (fst (focus_main_file p s)) = s_man s.
Proof.
  unfold focus_main_file. cbv zeta. destruct (_ || _); [repeat split|]. pose proof (change_spec p (set_foc p (if same_path p (s_foc s) then s_pos s else None) s)) as C.
  destruct (change_main_file _ _) as [s' ok]. destruct C as (-> & _). repeat split.
Qed.
Lemma focus_main p s : s_main (fst (focus_main_file p s)) = if pinned s then s_main s else match p with Some q => if is_abs q then p else s_main s | None => None end.
Proof.
  unfold focus_main_file, pinned. cbv zeta. cbn [s_puser s_pprev s_pbrow s_hasdef set_foc]. destruct (_ || _); [reflexivity|].
  unfold change_main_file. destruct p as [q|]; [destruct (is_abs q)|]; reflexivity.
Qed.
Lemma implicit_cases a p s : implicit_focus_entry a p s = s \/ (s_man s = false /\ (a = false -> s_act s = false) /\ implicit_focus_entry a p s = fst (focus_main_file p (if a then set_act true s else s))).
Proof. unfold implicit_focus_entry. destruct (s_man s); [auto|]. destruct a; [right; repeat split; discriminate|]. destruct (s_act s); [auto|right; auto]. Qed.
Lemma implicit_frame a p s : frame s (implicit_focus_entry a p s) /\ s_man (implicit_focus_entry a p s) = s_man s.
Proof.
  destruct (implicit_cases a p s) as [-> |(M & A & ->)]; [repeat split|]. destruct (focus_frame p (if a then set_act true s else s)) as ((F1 & F2 & F3 & F4 & F5) & _ & F).
  unfold frame. rewrite F1, F2, F3, F4, F5, F. destruct a; repeat split.
Qed.

(** * Focus *)
Lemma man_step O s e : s_man (fst (step O s e)) = match e with Focus _ => true | _ => s_man s end.
Proof.
  destruct e; cbn [step fst]; try reflexivity; try (apply implicit_frame).
  - unfold pin_main_file. cbv zeta. match goal with |- context [change_main_file ?a ?b] => pose proof (change_spec a b) as C; destruct (change_main_file a b) as [s' ok] end.
    destruct C as (-> & _). reflexivity.
  - apply (focus_frame p (set_man true s)).
  - unfold start_preview. destruct entry as [q|].
    + destruct (is_abs q) eqn:A; [|reflexivity]. destruct taken; [|reflexivity]. unfold change_main_file. rewrite A. reflexivity.
    + destruct browsing, taken; reflexivity.
  - unfold configure. cbv zeta. destruct (fonts || _); reflexivity.
Qed.
Lemma foc_step O s e : s_foc (fst (step O s e)) =
  match e with
  | Focus p => p
  | Hover p _ | Folding p | Tokens p => if s_man s then s_foc s else Some p
  | Open p => if s_man s || s_act s then s_foc s else Some p
  | _ => s_foc s
  end.
Proof.
  destruct e; cbn [step fst]; try reflexivity.
  - unfold implicit_focus_entry. destruct (s_man s), (s_act s); try reflexivity. apply focus_foc.
  - unfold implicit_focus_entry, set_pos. destruct (s_man s); [reflexivity|]. cbn [s_foc set_foc]. apply focus_foc.
  - unfold implicit_focus_entry. destruct (s_man s); [reflexivity|]. apply focus_foc.
  - unfold implicit_focus_entry. destruct (s_man s); [reflexivity|]. apply focus_foc.
  - unfold pin_main_file. cbv zeta. match goal with |- context [change_main_file ?a ?b] => pose proof (change_spec a b) as C; destruct (change_main_file a b) as [s' ok] end.
    destruct C as (-> & _). reflexivity.
  - apply focus_foc.
  - unfold start_preview. destruct entry as [q|].
    + destruct (is_abs q) eqn:A; [|reflexivity]. destruct taken; [|reflexivity]. unfold change_main_file. rewrite A. reflexivity.
    + destruct browsing, taken; reflexivity.
  - unfold configure. cbv zeta. destruct (fonts || _); reflexivity.
Qed.
Lemma act_step O s e : s_act (fst (step O s e)) = match activity e with Some _ => s_act s || negb (s_man s) | None => s_act s end.
Proof.
  assert (H : forall p, s_act (implicit_focus_entry true (Some p) s) = s_act s || negb (s_man s)).
  { intros p. unfold implicit_focus_entry. destruct (s_man s); cbn; [rewrite orb_false_r; reflexivity|].
    rewrite (proj1 (proj2 (focus_frame (Some p) (set_act true s)))). cbn. rewrite orb_true_r. reflexivity. }
  destruct e; cbn [step fst activity]; try reflexivity; try apply H.
  - unfold implicit_focus_entry. destruct (s_man s); [reflexivity|]. destruct (s_act s) eqn:A; [exact A|].
    rewrite (proj1 (proj2 (focus_frame (Some p) s))). exact A.
  - unfold pin_main_file. cbv zeta. match goal with |- context [change_main_file ?a ?b] => pose proof (change_spec a b) as C; destruct (change_main_file a b) as [s' ok] end.
    destruct C as (-> & _). reflexivity.
  - apply (focus_frame p (set_man true s)).
  - unfold start_preview. destruct entry as [q|].
    + destruct (is_abs q) eqn:A; [|reflexivity]. destruct taken; [|reflexivity]. unfold change_main_file. rewrite A. reflexivity.
    + destruct browsing, taken; reflexivity.
  - unfold configure. cbv zeta. destruct (fonts || _); reflexivity.
Qed.
Lemma man_goes O es : forall s, s_man s = true -> s_man (goes O s es) = true.
Proof. induction es as [|e es IH]; intros s M; [exact M|]. cbn. apply IH. rewrite man_step. destruct e; auto. Qed.
Lemma man_none O es : forall s, s_man s = false -> (forall e, In e es -> ~ is_focus e) -> s_man (goes O s es) = false.
Proof.
  induction es as [|e es IH]; intros s M N; [exact M|]. cbn. apply IH; [|intros x I; apply N; right; exact I].
  rewrite man_step. destruct e; auto. destruct (N (Focus p) (or_introl eq_refl) Logic.I).
Qed.
Lemma manual O r es1 p es2 : (forall e, In e es2 -> ~ is_focus e) -> s_foc (run O r (es1 ++ Focus p :: es2)) = p.
Proof.
  intros N. rewrite run_app. cbn [goes fold_left]. change (s_foc (goes O (fst (step O (run O r es1) (Focus p))) es2) = p).
  assert (M : s_man (fst (step O (run O r es1) (Focus p))) = true) by apply man_step.
  assert (F : s_foc (fst (step O (run O r es1) (Focus p))) = p) by apply foc_step.
  revert M F. generalize (fst (step O (run O r es1) (Focus p))). induction es2 as [|e es2 IH]; intros s M F; [exact F|].
  cbn. apply IH.
  - intros x I. apply N. right. exact I.
  - rewrite man_step. destruct e; auto.
  - rewrite foc_step, M. cbn. destruct e; auto. destruct (N (Focus p0) (or_introl eq_refl) Logic.I).
Qed.
Lemma by_activity O r es1 e p es2 : activity e = Some p -> (forall x, In x (es1 ++ e :: es2) -> ~ is_focus x) -> (forall x, In x es2 -> activity x = None) ->
  s_foc (run O r (es1 ++ e :: es2)) = Some p.
Proof.
  intros A N Q. rewrite run_app. cbn [goes fold_left]. change (s_foc (goes O (fst (step O (run O r es1) e)) es2) = Some p).
  assert (M0 : s_man (run O r es1) = false) by (apply (man_none O es1 (init r)); [reflexivity|intros x I; apply N, in_or_app; left; exact I]).
  assert (M : s_man (fst (step O (run O r es1) e)) = false) by (rewrite man_step, M0; destruct e; auto; discriminate A).
  assert (F : s_foc (fst (step O (run O r es1) e)) = Some p) by (rewrite foc_step, M0; destruct e; cbn in A; try discriminate A; exact A).
  assert (C : s_act (fst (step O (run O r es1) e)) = true) by (rewrite act_step, A, M0; apply orb_true_r).
  assert (N' : forall x, In x es2 -> ~ is_focus x) by (intros x I; apply N, in_or_app; right; right; exact I).
  clear N. revert M F C Q N'. generalize (fst (step O (run O r es1) e)). induction es2 as [|x es2 IH]; intros s M F C Q N; [exact F|].
  cbn. apply IH.
  - rewrite man_step. destruct x; auto. destruct (N (Focus p0) (or_introl eq_refl) Logic.I).
  - rewrite foc_step, C, orb_true_r. specialize (Q x (or_introl eq_refl)). destruct x; cbn in Q; try discriminate Q; auto. destruct (N (Focus p0) (or_introl eq_refl) Logic.I).
  - rewrite act_step, C. destruct (activity x); auto.
  - intros y I. apply Q. right. exact I.
  - intros y I. apply N. right. exact I.
Qed.
Lemma by_open O r es1 p es2 : (forall x, In x (es1 ++ Open p :: es2) -> ~ is_focus x /\ activity x = None) -> (forall x, In x es2 -> opened x = None) ->
  s_foc (run O r (es1 ++ Open p :: es2)) = Some p.
Proof.
  intros N Q. rewrite run_app. cbn [goes fold_left]. change (s_foc (goes O (fst (step O (run O r es1) (Open p))) es2) = Some p).
  assert (A0 : s_act (run O r es1) = false).
  { clear Q. induction es1 as [|x es1 IH] using rev_ind; [reflexivity|]. rewrite run_snoc, act_step.
    destruct (N x) as (_ & ->); [apply in_or_app; left; apply in_or_app; right; left; reflexivity|]. apply IH.
    intros y I. apply N. apply in_app_or in I as [I|I]; apply in_or_app; [left; apply in_or_app; left; exact I|right; exact I]. }
  assert (M0 : s_man (run O r es1) = false) by (apply (man_none O es1 (init r)); [reflexivity|intros x I; apply N, in_or_app; left; exact I]).
  assert (F : s_foc (fst (step O (run O r es1) (Open p))) = Some p) by (rewrite foc_step, M0, A0; reflexivity).
  assert (N' : forall x, In x es2 -> ~ is_focus x /\ activity x = None) by (intros x I; apply N, in_or_app; right; right; exact I).
  clear N. revert F Q N'. generalize (fst (step O (run O r es1) (Open p))). induction es2 as [|x es2 IH]; intros s F Q N; [exact F|].
  cbn. apply IH.
  - rewrite foc_step. specialize (Q x (or_introl eq_refl)). destruct (N x (or_introl eq_refl)) as (N1 & N2). destruct x; cbn in Q, N2; try discriminate; auto. destruct (N1 Logic.I).
  - intros y I. apply Q. right. exact I.
  - intros y I. apply N. right. exact I.
Qed.

(** * The main file *)
Lemma main_step O s e : s_main (fst (step O s e)) <> s_main s ->
  is_pin e \/ takes e \/ is_configure e \/
  (pinned s = false /\ exists p, (e = Focus p \/ (s_man s = false /\ (exists q, p = Some q /\ (activity e = Some q \/ (opened e = Some q /\ s_act s = false))))) /\ s_main (fst (step O s e)) = p).
Proof.
  intros H.
  assert (K : forall a p, s_main (implicit_focus_entry a p s) <> s_main s -> pinned s = false /\ s_man s = false /\ (a = false -> s_act s = false) /\ s_main (implicit_focus_entry a p s) = p).
  { intros a p D. destruct (implicit_cases a p s) as [E|(M & A & E)]; rewrite E in *; [contradiction|]. rewrite focus_main in *.
    assert (pinned (if a then set_act true s else s) = pinned s) as G by (destruct a; reflexivity). rewrite G in *.
    assert (s_main (if a then set_act true s else s) = s_main s) as G' by (destruct a; reflexivity). rewrite G' in *.
    destruct (pinned s); [contradiction|]. split; [reflexivity|]. split; [exact M|]. split; [exact A|].
    destruct p as [q|]; [|reflexivity]. destruct (is_abs q); [reflexivity|contradiction]. }
  destruct e; cbn [step fst] in *; try (left; exact Logic.I); try contradiction.
  - apply K in H as (H1 & H2 & H3 & H4). right. right. right. split; [exact H1|]. exists (Some p). split; [right; split; [exact H2|]|exact H4].
    exists p. split; [reflexivity|]. right. split; [reflexivity|apply H3; reflexivity].
  - change (s_main (implicit_focus_entry true (Some p) s) <> s_main s) in H. apply K in H as (H1 & H2 & H3 & H4). right. right. right. split; [exact H1|].
    exists (Some p). split; [right; split; [exact H2|]|exact H4]. exists p. split; [reflexivity|]. left. reflexivity.
  - apply K in H as (H1 & H2 & H3 & H4). right. right. right. split; [exact H1|].
    exists (Some p). split; [right; split; [exact H2|]|exact H4]. exists p. split; [reflexivity|]. left. reflexivity.
  - apply K in H as (H1 & H2 & H3 & H4). right. right. right. split; [exact H1|].
    exists (Some p). split; [right; split; [exact H2|]|exact H4]. exists p. split; [reflexivity|]. left. reflexivity.
  - right. right. right. rewrite focus_main in *. change (pinned (set_man true s)) with (pinned s) in *. change (s_main (set_man true s)) with (s_main s) in *.
    destruct (pinned s); [contradiction|]. split; [reflexivity|]. exists p. split; [left; reflexivity|].
    destruct p as [q|]; [|reflexivity]. destruct (is_abs q); [reflexivity|contradiction].
  - right. left. unfold start_preview in H. destruct entry as [q|].
    + destruct taken; [exact Logic.I|]. destruct (is_abs q); contradiction.
    + destruct browsing, taken; contradiction.
  - right. right. left. exact Logic.I.
Qed.
Lemma puser_step O s e : ~ is_pin e -> s_puser (fst (step O s e)) = s_puser s.
Proof.
  intros N. destruct e; cbn [step fst]; try reflexivity; try (apply implicit_frame).
  - destruct (N Logic.I).
  - apply (focus_frame p (set_man true s)).
  - unfold start_preview. destruct entry as [q|].
    + destruct (is_abs q) eqn:A; [|reflexivity]. destruct taken; [|reflexivity]. unfold change_main_file. rewrite A. reflexivity.
    + destruct browsing, taken; reflexivity.
  - unfold configure. cbv zeta. destruct (fonts || _); reflexivity.
Qed.
Lemma pinned_stays O es : forall s, s_puser s = true -> (forall e, In e es -> ~ is_pin e /\ ~ takes e /\ ~ is_configure e) ->
  s_main (goes O s es) = s_main s /\ s_puser (goes O s es) = true.
Proof.
  induction es as [|e es IH]; intros s P N; [split; [reflexivity|exact P]|].
  destruct (N e (or_introl eq_refl)) as (N1 & N2 & N3). cbn. destruct (IH (fst (step O s e))) as (H1 & H2).
  - rewrite puser_step by exact N1. exact P.
  - intros x I. apply N. right. exact I.
  - split; [|exact H2]. unfold goes in H1. rewrite H1.
    assert (s_main (fst (step O s e)) = s_main s \/ s_main (fst (step O s e)) <> s_main s) as [E|E].
    { destruct (same_path (s_main (fst (step O s e))) (s_main s)) eqn:Q; [left; apply same_path_spec; exact Q|right; intros D; apply same_path_spec in D; congruence]. }
    + exact E.
    + exfalso. destruct (main_step O s e E) as [M|[M|[M|(M & _)]]]; try contradiction. unfold pinned in M. rewrite P in M. discriminate M.
Qed.
(** While nothing pins, the main file is the focused one. *)
Definition free (e : event) : Prop :=
  absolute e /\ match e with Pin (Some _) => False | Preview (Some _) _ true => False | Configure _ _ _ => False | _ => True end.
Lemma follows O r es : resolve_default r = None -> (forall e, In e es -> free e) ->
  let s := run O r es in s_main s = s_foc s /\ pinned s = false /\ s_conf s = r.
Proof.
  intros D. induction es as [|e es IH] using rev_ind; intros F; cbv zeta.
  - cbn. rewrite D. repeat split.
  - rewrite run_snoc. destruct IH as (H & P & C); [intros x I; apply F, in_or_app; left; exact I|].
    destruct (F e) as (A & X); [apply in_or_app; right; left; reflexivity|].
    set (s := run O r es) in *. clearbody s.
    assert (PF : forall t, frame s t -> pinned t = false /\ s_conf t = r).
    { intros t (F1 & F2 & F3 & F4 & F5). unfold pinned. rewrite F2, F3, F4, F5. split; [exact P|congruence]. }
    assert (K : forall a p, is_abs p = true -> s_main (implicit_focus_entry a (Some p) s) = s_foc (implicit_focus_entry a (Some p) s)).
    { intros a p B. destruct (implicit_cases a (Some p) s) as [-> |(M & _ & ->)]; [exact H|]. rewrite focus_main, focus_foc.
      assert (pinned (if a then set_act true s else s) = pinned s) as G by (destruct a; reflexivity). rewrite G, P, B. reflexivity. }
    destruct e; cbn [step fst absolute] in *.
    + split; [apply K, A|]. apply PF. apply implicit_frame.
    + auto.
    + split; [apply (K true p A)|]. apply PF. apply implicit_frame.
    + split; [apply (K true p A)|]. apply PF. apply implicit_frame.
    + split; [apply (K true p A)|]. apply PF. apply implicit_frame.
    + auto.
    + auto.
    + destruct p; [contradiction|]. unfold pin_main_file. cbv zeta. cbn [s_conf set_puser s_foc is_some]. rewrite C, D. cbn [or_else].
      unfold pinned in P. apply orb_false_iff in P as (P & PH). apply orb_false_iff in P as (PU & PP).
      unfold change_main_file. destruct (s_foc s) as [q|] eqn:Q; [destruct (is_abs q)|]; cbn; unfold pinned; cbn; rewrite ?PP, ?PH, ?Q; auto.
    + split; [|apply PF, (focus_frame p (set_man true s))]. rewrite focus_main, focus_foc. change (pinned (set_man true s)) with (pinned s). rewrite P.
      destruct p as [q|]; [rewrite A|]; reflexivity.
    + unfold start_preview. destruct entry as [q|].
      * destruct taken; [contradiction|]. destruct (is_abs q); auto.
      * destruct browsing, taken; auto. cbn. unfold pinned in *. cbn. apply orb_false_iff in P as (P & PH). apply orb_false_iff in P as (PU & PP). rewrite PU, PH. auto.
    + cbn. unfold pinned in *. cbn. apply orb_false_iff in P as (P & PH). apply orb_false_iff in P as (PU & PP). rewrite PU, PH. auto.
    + contradiction.
Qed.
(** * The position *)
Lemma pos_step O s e : s_pos (fst (step O s e)) =
  match position e with Some (_, x) => Some x | None => if same_path (s_foc (fst (step O s e))) (s_foc s) then s_pos s else None end.
Proof.
  assert (R : forall a, same_path a a = true) by (intros a; apply same_path_spec; reflexivity).
  assert (K : forall a p, s_pos (implicit_focus_entry a p s) = if same_path (s_foc (implicit_focus_entry a p s)) (s_foc s) then s_pos s else None).
  { intros a p. destruct (implicit_cases a p s) as [-> |(_ & _ & ->)]; [rewrite R; reflexivity|]. rewrite focus_pos, focus_foc. destruct a; reflexivity. }
  destruct e; cbn [step fst position].
  - apply K.
  - rewrite R. reflexivity.
  - reflexivity.
  - apply K.
  - apply K.
  - reflexivity.
  - reflexivity.
  - unfold pin_main_file. cbv zeta. match goal with |- context [change_main_file ?a ?b] => pose proof (change_spec a b) as C; destruct (change_main_file a b) as [s' ok] end.
    destruct C as (-> & _). cbn. rewrite R. reflexivity.
  - rewrite focus_pos, focus_foc. reflexivity.
  - assert (s_pos (fst (start_preview entry browsing taken s)) = s_pos s /\ s_foc (fst (start_preview entry browsing taken s)) = s_foc s) as (-> & ->).
    { unfold start_preview. destruct entry as [q|].
      + destruct (is_abs q) eqn:A; [|split; reflexivity]. destruct taken; [|split; reflexivity]. unfold change_main_file. rewrite A. split; reflexivity.
      + destruct browsing, taken; split; reflexivity. }
    rewrite R. reflexivity.
  - cbn. rewrite R. reflexivity.
  - unfold configure. cbv zeta. destruct (fonts || _); cbn; rewrite R; reflexivity.
Qed.
Lemma inferred O r es f x : infer_pos (run O r es) = Some (f, x) ->
  exists es1 e es2 q, es = es1 ++ e :: es2 /\ position e = Some (q, x) /\ (forall l l', es2 = l ++ l' -> s_foc (run O r (es1 ++ e :: l)) = Some f).
Proof.
  revert f x. induction es as [|e es IH] using rev_ind; intros f x H; [discriminate H|].
  unfold infer_pos in H. destruct (s_foc (run O r (es ++ [e]))) as [f'|] eqn:F; [|discriminate H]. destruct (s_pos (run O r (es ++ [e]))) as [x'|] eqn:X; [|discriminate H].
  injection H as -> ->. rewrite run_snoc in F, X. rewrite pos_step in X. destruct (position e) as [[q y]|] eqn:P.
  - injection X as ->. exists es, e, [], q. split; [reflexivity|]. split; [exact P|]. intros l l' E. symmetry in E. apply app_eq_nil in E as (-> & _). rewrite run_snoc. exact F.
  - destruct (same_path _ _) eqn:S; [|discriminate X]. apply same_path_spec in S. rewrite S in F.
    destruct (IH f x) as (es1 & e1 & es2 & q & E & P1 & G); [unfold infer_pos; rewrite F, X; reflexivity|].
    exists es1, e1, (es2 ++ [e]), q. split; [rewrite E, <- app_assoc; reflexivity|]. split; [exact P1|]. intros l l' EQ.
    destruct l' as [|z l'] using rev_ind.
    + rewrite app_nil_r in EQ. subst l. replace (es1 ++ e1 :: es2 ++ [e]) with (es ++ [e]) by (rewrite E, <- app_assoc; reflexivity). rewrite run_snoc, S. exact F.
    + clear IHl'. rewrite app_assoc in EQ. apply app_inj_tail in EQ as (EQ & _). exact (G _ _ EQ).
Qed.
