(** What the analysis of a whole file says: its table, its exports, and
    that scopes are opened and closed in pairs. *)
From Coq Require Import List Arith Bool Lia.
From Verif Require Import ScopeModel ScopeSpec ScopeProof ScopeImport ScopeCheck.
Import ListNotations.

Lemma run_all W n i file : run W n i file = check_all W n file (start i).
Proof.
  unfold run. generalize (start i) as w. induction file as [|e l IH]; intros w; [reflexivity|].
  cbn. rewrite IH. reflexivity.
Qed.

Lemma file_res W n file :
  2 <= n -> plain_world W -> tame_all W file [] = true -> NoDup (marks_all file) ->
  res W (marks_all file) (uses W file) (binds_all file) [] (bound W file) (start false) (run W n false file).
Proof.
  intros N PW T ND. rewrite run_all. apply ok_all; auto.
  - apply Forall_forall. intros e _. now apply check_ok.
  - split; [reflexivity|]. split; [|intros x _ _; reflexivity].
    intros m x e [H|[]] I. injection H as <-. destruct I.
Qed.

Theorem file_resolves W n file :
  2 <= n -> plain_world W -> tame_all W file [] = true -> NoDup (marks_all file) ->
  stuck (run W n false file) = false /\ crashed (run W n false file) = false
  /\ (forall s t, In (false, s, t) (uses W file) ->
        exists r, resolves W n file s = Some r /\ tgt_of_ref r = t)
  /\ (forall d s, local d = true ->
        ((exists r, resolves W n file s = Some r /\ is_ref d r = true)
         <-> In (false, s, TDef d) (uses W file))).
Proof.
  intros N PW T ND. destruct (file_res W n file N PW T ND) as [G _].
  destruct G as [a1 a2 a3 a4 a5 a6 [new [a7 [a8 [a9 a10]]]]].
  assert (B : buf (run W n false file) = new) by (rewrite a7; apply app_nil_r).
  unfold resolves. rewrite B. split; [exact a2|]. split; [exact a3|]. split.
  - intros s t H. destruct (a9 s t H) as [r [R1 [R2 _]]]. eauto.
  - intros d s L. split.
    + intros [r [R1 R2]]. destruct (a10 s r R1) as [[t [T1 [T2 T3]]]|S].
      * apply (T3 d L) in R2. now subst t.
      * rewrite (S d L) in R2. discriminate.
    + intros H. destruct (a9 s _ H) as [r [R1 [R2 R3]]]. exists r. split; [exact R1|]. now apply (R3 d L).
Qed.

(** * Scopes are opened and closed in pairs, whatever the file *)

Definition nested (w w' : st) : Prop :=
  (exists pre, up w' = pre ++ up w) /\ crashed w' = crashed w /\ init w' = init w.

Lemma nested_refl w : nested w w.
Proof. split; [now exists []|auto]. Qed.

Lemma nested_trans a b c : nested a b -> nested b c -> nested a c.
Proof.
  intros [[p P] [C I]] [[q Q] [D J]]. split; [|split; congruence].
  exists (q ++ p). rewrite Q, P. apply app_assoc.
Qed.

Lemma nested_insert x e w : nested w (insert x e w).
Proof. unfold insert. destruct (last w); (split; [|auto]); [now exists []|now exists [SVal v]]. Qed.

Lemma nested_resolve s r w : nested w (resolve_at s r w).
Proof. split; [now exists []|auto]. Qed.

Lemma nested_ident W d m w : nested w (resolve_ident W d m w).
Proof.
  unfold resolve_ident. destruct (eval_ident W w (dname d) m). destruct (extract_ref o). apply nested_resolve.
Qed.

Lemma with_scope_restores f w :
  (forall w1, nested w1 (f w1)) ->
  last (with_scope f w) = last w /\ up (with_scope f w) = up w
  /\ crashed (with_scope f w) = crashed w /\ init (with_scope f w) = init w.
Proof.
  intros H. unfold with_scope. set (w1 := set_scopes (SLex []) (last w :: up w) w).
  destruct (H w1) as [[pre P] [C I]].
  assert (X : skipn (length (up (f w1)) - length (up w1)) (up (f w1)) = last w :: up w).
  { rewrite P, app_length. replace (length pre + length (up w1) - length (up w1)) with (length pre) by lia.
    rewrite skipn_app, skipn_all, Nat.sub_diag. reflexivity. }
  rewrite X. cbn. rewrite C, I. auto.
Qed.

Lemma nested_scope f w : (forall w1, nested w1 (f w1)) -> nested w (with_scope f w).
Proof.
  intros H. destruct (with_scope_restores f w H) as [_ [U [C I]]]. split; [exists []; exact U|auto].
Qed.

Lemma nested_defer f w : (forall w1, nested w1 (f w1)) -> nested w (defer f w).
Proof. intros H. unfold defer. destruct (init w); [apply nested_refl|apply H]. Qed.

(** Following references changes no scope. *)
Definition keeps (w w' : st) : Prop := last w' = last w /\ up w' = up w /\ crashed w' = crashed w /\ init w' = init w.

Lemma keeps_nested w w' : keeps w w' -> nested w w'.
Proof. intros [_ [U [C I]]]. split; [exists []; exact U|auto]. Qed.

Lemma fold_keeps W n : forall e w, keeps w (fst (fold_expr W n e w)).
Proof.
  induction n as [|n IH]; intros e w; [repeat split|]. cbn [fold_expr].
  assert (CC : forall src w, keeps w (fst (match src with (None, Some v) => (w, Some (EVal v)) | (e, _) => fold_expr W n e w end))).
  { intros [[e'|] [v|]] w'; try apply IH. repeat split. }
  destruct e as [[d|d s root term|k l|v|v x]|]; try (repeat split; fail).
  - destruct (is_def d); [repeat split|]. exact (CC (eval_ident W w (dname d) false) w).
  - exact (CC (root, term) w).
  - pose proof (IH (Some l) w) as K. destruct (fold_expr W n (Some l) w) as [w1 [e1|]]; [|exact K].
    unfold select. destruct e1 as [d|? ? ? ?|? ?|?|? ?]; try exact K. destruct d; try exact K.
    destruct (find (dname k) (w_exports W f)); exact K.
Qed.

Lemma check_import_keeps W n c w : keeps w (fst (check_import W n c w)).
Proof.
  assert (R : keeps w w) by (repeat split).
  unfold check_import. destruct c as [s [f|] stem|s x|t s x|]; try exact R.
  - assert (K : keeps w (fst (fold_cc W n (eval_src W w (SName s x)) w))).
    { unfold fold_cc. destruct (eval_src W w (SName s x)) as [[e|] [v|]]; try apply fold_keeps. exact R. }
    destruct (fold_cc W n (eval_src W w (SName s x)) w) as [w1 e].
    destruct e as [[d|d st' root term|k l|v|v y]|]; exact K.
  - assert (K : keeps w (fst (fold_cc W n (eval_src W w (SField t s x)) w))).
    { unfold fold_cc. destruct (eval_src W w (SField t s x)) as [[e|] [v|]]; try apply fold_keeps. exact R. }
    destruct (fold_cc W n (eval_src W w (SField t s x)) w) as [w1 e].
    destruct e as [[d|d st' root term|k l|v|v y]|]; exact K.
  - cbn [eval_src fold_cc]. pose proof (fold_keeps W n None w) as K.
    destruct (fold_expr W n None w) as [w1 e]. destruct e as [[d|d st' root term|k l|v|v y]|]; exact K.
Qed.

Lemma nested_declare d w : nested w (declare d w).
Proof. unfold declare. eapply nested_trans; [apply nested_resolve|apply nested_insert]. Qed.

Lemma nested_pattern p w : nested w (check_pattern p w).
Proof.
  rewrite check_pattern_declares. generalize (rev (pvars p)) as l. intros l. revert w.
  induction l as [|[s x] l IH]; intros w; [apply nested_refl|]. cbn.
  eapply nested_trans; [apply nested_declare|apply IH].
Qed.

Lemma nested_item W sc m it w : nested w (import_item W sc m it w).
Proof.
  destruct it as [path new]. unfold import_item. destruct (List.last path (0, 0)) as [so xo].
  destruct (match path with [] => (None, None) | _ :: _ => scope_get W sc xo end) as [r0 v0].
  destruct (extract_ref _) as [r1 s1].
  destruct new as [[sn xn]|].
  - eapply nested_trans; [apply nested_resolve|]. eapply nested_trans; [apply nested_resolve|apply nested_insert].
  - eapply nested_trans; [apply nested_resolve|apply nested_insert].
Qed.

Lemma nested_items W sc m l : forall w, nested w (import_decls W sc m l w).
Proof.
  induction l as [|it l IH]; intros w; [apply nested_refl|]. cbn [import_decls fold_left].
  eapply nested_trans; [apply nested_item|apply IH].
Qed.

Lemma depend_keeps m w : keeps w (depend m w).
Proof. unfold depend. destruct m as [[[]| | | |]|]; repeat split. Qed.

Lemma nested_import W n s c new im w : nested w (check_module_import W n s c new im w).
Proof.
  unfold check_module_import. pose proof (keeps_nested _ _ (check_import_keeps W n c w)) as K.
  destruct (check_import W n c w) as [w1 m]. cbn [fst] in K.
  set (var := match new with Some (sn, xn) => Some (DModAlias sn xn) | None => _ end).
  assert (K2 : nested w (match var with Some _ => insert (dname (match var with Some d => d | None => DModImport s end))
     (eref (mkref (match var with Some d => d | None => DModImport s end) m m None)) w1 | None => w1 end)).
  { destruct var; [eapply nested_trans; [exact K|apply nested_insert]|exact K]. }
  match type of K2 with nested _ ?w2 =>
    assert (K3 : nested w (depend m (resolve_as (mkref (match var with Some d => d | None => DModImport s end) m m None) w2)))
      by (eapply nested_trans; [exact K2|]; eapply nested_trans; [apply nested_resolve|apply keeps_nested, depend_keeps])
  end.
  destruct im as [| |l].
  - exact K3.
  - eapply nested_trans; [exact K3|]. unfold push_scope. split; [|auto]. cbn.
    match goal with |- context [scope_empty W ?x] => destruct (scope_empty W x) end; [now exists []|eexists [_]; reflexivity].
  - eapply nested_trans; [exact K3|apply nested_items].
Qed.

Lemma nested_src W c w : nested w (check_src W c w).
Proof. induction c; cbn [check_src]; try apply nested_refl; [apply nested_ident|exact IHc]. Qed.

Lemma nested_all W n l : Forall (fun e => forall w, nested w (check W n e w)) l -> forall w, nested w (check_all W n l w).
Proof.
  induction 1 as [|e l He Hl IH]; intros w; [apply nested_refl|]. cbn.
  eapply nested_trans; [apply He|apply IH].
Qed.

Lemma nested_params W n l : Forall (fun qd => forall w, nested w (check W n (snd qd) w)) l -> forall w, nested w (check_params W n l w).
Proof.
  induction 1 as [|[q d] l He Hl IH]; intros w; [apply nested_refl|]. cbn [check_params].
  eapply nested_trans; [|apply IH]. destruct q.
  - apply nested_pattern.
  - eapply nested_trans; [apply He|apply nested_declare].
  - eapply nested_trans; [apply nested_ident|apply nested_declare].
  - apply nested_declare.
Qed.

Theorem check_nested W n e : forall w, nested w (check W n e w).
Proof.
  induction e using ast_ind'; intros w.
  - apply nested_refl.
  - apply nested_ident.
  - apply nested_ident.
  - apply (nested_all W n es H).
  - cbn [check]. destruct c; [apply IHe2|]. eapply nested_trans; [apply IHe2|apply IHe1].
  - apply nested_scope. apply (nested_all W n es H).
  - apply nested_scope. apply (nested_all W n es H).
  - cbn [check]. eapply nested_trans; [|apply nested_pattern]. destruct i; [|apply nested_refl].
    apply nested_defer. exact H.
  - rewrite check_fun. cbn zeta. eapply nested_trans; [|apply nested_insert].
    eapply nested_trans; [apply nested_resolve|]. apply nested_scope. intros w1.
    eapply nested_trans; [|apply nested_defer; exact IHe].
    eapply nested_trans; [apply nested_insert|]. now apply nested_params.
  - apply nested_import.
  - cbn [check]. eapply nested_trans; [apply keeps_nested, check_import_keeps|apply nested_src].
  - cbn [check]. apply nested_scope. intros w1. eapply nested_trans; [|apply nested_defer; exact IHe2].
    eapply nested_trans; [apply nested_pattern|apply IHe1].
  - cbn [check]. eapply nested_trans; [apply IHe1|apply nested_defer; exact IHe2].
  - cbn [check]. assert (K : nested w (defer (check W n e2) (check W n e1 w)))
      by (eapply nested_trans; [apply IHe1|apply nested_defer; exact IHe2]).
    destruct e3; [|exact K]. eapply nested_trans; [exact K|]. apply nested_defer. exact H.
  - cbn [check]. eapply nested_trans; [apply nested_pattern|apply IHe].
  - cbn [check]. fold (check_all W n). assert (K : nested w (check_all W n args (check W n e w)))
      by (eapply nested_trans; [apply IHe|apply (nested_all W n args H)]).
    destruct c; [|exact K]. eapply nested_trans; [exact K|]. apply H0.
  - cbn [check]. eapply nested_trans; [|apply nested_defer; exact IHe]. destruct s; [apply H|apply nested_refl].
  - cbn [check]. apply nested_defer. exact IHe.
  - apply IHe.
Qed.

(** A block leaves the scopes as they were. *)
Theorem block_restores W n es w :
  last (check W n (Blk es) w) = last w /\ up (check W n (Blk es) w) = up w
  /\ crashed (check W n (Blk es) w) = crashed w.
Proof.
  destruct (with_scope_restores (check_all W n es) w) as [A [B [C _]]].
  - apply nested_all. apply Forall_forall. intros e _. apply check_nested.
  - auto.
Qed.

Theorem run_no_crash W n i file : crashed (run W n i file) = false.
Proof.
  rewrite run_all. destruct (nested_all W n file) with (w := start i) as [_ [C _]]; [|exact C].
  apply Forall_forall. intros e _. apply check_nested.
Qed.

(** * Exports *)

Definition flat (w w' : st) : Prop :=
  up w' = up w /\ forall m, last w = SLex m -> exists m', last w' = SLex m'.

Lemma flat_refl w : flat w w.
Proof. split; eauto. Qed.

Lemma flat_trans a b c : (exists m, last a = SLex m) -> flat a b -> flat b c -> flat a c.
Proof.
  intros _ [U L] [V M]. split; [congruence|]. intros m H. destruct (L m H) as [m' H']. eauto.
Qed.

Definition lex (w : st) : Prop := exists m, last w = SLex m.

Lemma flat_lex w w' : lex w -> flat w w' -> lex w'.
Proof. intros [m H] [_ L]. destruct (L m H) as [m' H']. now exists m'. Qed.

Lemma flat_insert x e w : lex w -> flat w (insert x e w).
Proof. intros [m H]. unfold insert. rewrite H. split; [reflexivity|]. intros. eexists. reflexivity. Qed.

Lemma flat_resolve s r w : flat w (resolve_at s r w).
Proof. split; [reflexivity|]. intros m H. exists m. exact H. Qed.

Lemma flat_ident W d m w : flat w (resolve_ident W d m w).
Proof.
  unfold resolve_ident. destruct (eval_ident W w (dname d) m). destruct (extract_ref o). apply flat_resolve.
Qed.

Lemma flat_keeps w w' : keeps w w' -> flat w w'.
Proof. intros [L [U _]]. split; [exact U|]. intros m H. exists m. congruence. Qed.

Lemma flat_seq a b c : lex a -> flat a b -> (lex b -> flat b c) -> flat a c.
Proof. intros L F G. eapply flat_trans; [exact L|exact F|]. apply G. eapply flat_lex; eauto. Qed.

Lemma flat_declare d w : lex w -> flat w (declare d w).
Proof. intros L. unfold declare. eapply flat_seq; [exact L|apply flat_resolve|apply flat_insert]. Qed.

Lemma flat_pattern p w : lex w -> flat w (check_pattern p w).
Proof.
  rewrite check_pattern_declares. generalize (rev (pvars p)) as l. intros l. revert w.
  induction l as [|[s x] l IH]; intros w L; [apply flat_refl|]. cbn.
  eapply flat_seq; [exact L|apply flat_declare; exact L|apply IH].
Qed.

Lemma flat_scope f w : (forall w1, nested w1 (f w1)) -> flat w (with_scope f w).
Proof.
  intros H. destruct (with_scope_restores f w H) as [L [U _]]. split; [exact U|].
  intros m M. exists m. congruence.
Qed.

Lemma flat_defer f w : flat w (f w) -> flat w (defer f w).
Proof. intros H. unfold defer. destruct (init w); [apply flat_refl|exact H]. Qed.

Lemma flat_items W sc m l : forall w, lex w -> flat w (import_decls W sc m l w).
Proof.
  induction l as [|it l IH]; intros w L; [apply flat_refl|]. cbn [import_decls fold_left].
  eapply flat_seq; [exact L| |apply IH].
  destruct it as [path new]. unfold import_item. destruct (List.last path (0, 0)) as [so xo].
  destruct (match path with [] => (None, None) | _ :: _ => scope_get W sc xo end) as [r0 v0].
  destruct (extract_ref _) as [r1 s1].
  destruct new as [[sn xn]|].
  - eapply flat_seq; [exact L|apply flat_resolve|]. intros L1. eapply flat_seq; [exact L1|apply flat_resolve|apply flat_insert].
  - eapply flat_seq; [exact L|apply flat_resolve|apply flat_insert].
Qed.

Lemma flat_src W c w : flat w (check_src W c w).
Proof. induction c; cbn [check_src]; try apply flat_refl; [apply flat_ident|exact IHc]. Qed.

Lemma check_nested' W n e w : nested w (check W n e w). Proof. apply check_nested. Qed.

Lemma all_nested W n l w : nested w (check_all W n l w).
Proof. apply nested_all. apply Forall_forall. intros e _. apply check_nested. Qed.

Lemma params_nested W n l w : nested w (check_params W n l w).
Proof. apply nested_params. apply Forall_forall. intros e _. apply check_nested. Qed.

Definition okf W n (e : ast) : Prop := stars e = false -> forall w, lex w -> flat w (check W n e w).

Lemma flat_all W n l : Forall (okf W n) l -> stars_all l = false -> forall w, lex w -> flat w (check_all W n l w).
Proof.
  induction 1 as [|e l He Hl IH]; intros S w L; [apply flat_refl|]. cbn in S. apply orb_false_iff in S. destruct S as [S1 S2].
  cbn. eapply flat_seq; [exact L|apply He; assumption|]. now apply IH.
Qed.

Lemma stars_fix l : (fix all (l : list ast) : bool := match l with [] => false | e :: l' => stars e || all l' end) l = stars_all l.
Proof. induction l as [|e l IH]; [reflexivity|]. cbn. now rewrite IH. Qed.

Theorem check_flat W n e : okf W n e.
Proof.
  induction e using ast_ind'; intros S w L; cbn [stars] in S; rewrite ?stars_fix in S; try discriminate.
  - apply flat_refl.
  - apply flat_ident.
  - apply flat_ident.
  - apply (flat_all W n es H S w L).
  - apply orb_false_iff in S. destruct S as [S1 S2]. cbn [check]. destruct c; [now apply IHe2|].
    eapply flat_seq; [exact L|now apply IHe2|now apply IHe1].
  - apply flat_scope. apply all_nested.
  - apply flat_scope. apply all_nested.
  - cbn [check]. eapply flat_seq; [exact L| |apply flat_pattern]. destruct i; [|apply flat_refl].
    apply flat_defer. now apply H.
  - rewrite check_fun. cbn zeta. eapply flat_seq; [exact L|apply flat_resolve|]. intros L1.
    eapply flat_seq; [exact L1|apply flat_scope|apply flat_insert].
    intros w1. eapply nested_trans; [|apply nested_defer; apply check_nested'].
    eapply nested_trans; [apply nested_insert|apply params_nested].
  - cbn [check]. unfold check_module_import. pose proof (flat_keeps _ _ (check_import_keeps W n c w)) as K.
    destruct (check_import W n c w) as [w1 m]. cbn [fst] in K.
    set (var := match new with Some (sn, xn) => Some (DModAlias sn xn) | None => _ end).
    eapply flat_seq; [exact L|exact K|]. intros L1.
    assert (K2 : flat w1 (match var with Some _ => insert (dname (match var with Some d => d | None => DModImport s end))
       (eref (mkref (match var with Some d => d | None => DModImport s end) m m None)) w1 | None => w1 end)).
    { destruct var; [now apply flat_insert|apply flat_refl]. }
    eapply flat_seq; [exact L1|exact K2|]. intros L2.
    match goal with |- context [depend m (resolve_as ?r ?w2)] =>
      assert (K3 : flat w2 (depend m (resolve_as r w2)))
        by (eapply flat_seq; [exact L2|apply flat_resolve|intros _; apply flat_keeps, depend_keeps])
    end.
    destruct im as [| |l]; [exact K3|discriminate|].
    eapply flat_seq; [exact L2|exact K3|apply flat_items].
  - cbn [check]. eapply flat_seq; [exact L|apply flat_keeps, check_import_keeps|intros _; apply flat_src].
  - cbn [check]. apply flat_scope. intros w1. eapply nested_trans; [|apply nested_defer; apply check_nested'].
    eapply nested_trans; [apply nested_pattern|apply check_nested'].
  - apply orb_false_iff in S. destruct S as [S1 S2]. cbn [check].
    eapply flat_seq; [exact L|now apply IHe1|]. intros L1. apply flat_defer. now apply IHe2.
  - apply orb_false_iff in S. destruct S as [S1 S3]. apply orb_false_iff in S1. destruct S1 as [S1 S2]. cbn [check].
    eapply flat_seq; [exact L|now apply IHe1|]. intros L1.
    assert (K : flat (check W n e1 w) (defer (check W n e2) (check W n e1 w))) by (apply flat_defer; now apply IHe2).
    destruct e3; [|exact K]. eapply flat_seq; [exact L1|exact K|]. intros L2. apply flat_defer. now apply H.
  - cbn [check]. eapply flat_seq; [exact L|now apply flat_pattern|now apply IHe].
  - apply orb_false_iff in S. destruct S as [S1 S3]. apply orb_false_iff in S1. destruct S1 as [S1 S2]. cbn [check]. fold (check_all W n).
    eapply flat_seq; [exact L|now apply IHe|]. intros L1.
    assert (K : flat (check W n e w) (check_all W n args (check W n e w))) by (now apply flat_all).
    destruct c; [|exact K]. eapply flat_seq; [exact L1|exact K|]. now apply H0.
  - apply orb_false_iff in S. destruct S as [S1 S2]. cbn [check].
    assert (K : flat w (match s with Some e => check W n e w | None => w end)) by (destruct s; [now apply H|apply flat_refl]).
    eapply flat_seq; [exact L|exact K|]. intros L1. apply flat_defer. now apply IHe.
  - cbn [check]. apply flat_defer. now apply IHe.
  - now apply IHe.
Qed.

Theorem file_exports W n file :
  2 <= n -> plain_world W -> tame_all W file [] = true -> NoDup (marks_all file) -> stars_all file = false ->
  forall x, x <> 0 -> find x (bound W file) = option_map texp (find x (exports W n file)).
Proof.
  intros N PW T ND S x Z. destruct (file_res W n file N PW T ND) as [_ [A _]].
  assert (F : flat (start false) (run W n false file)).
  { rewrite run_all. apply flat_all; [|exact S|now exists []]. apply Forall_forall. intros e _. apply check_flat. }
  destruct F as [U L]. destruct (L [] eq_refl) as [m M].
  specialize (A x Z eq_refl). unfold agree, srch in A. cbn [up start] in U. rewrite U, M in A. cbn in A.
  unfold exports, summarize. rewrite U, M. cbn. rewrite app_nil_r.
  destruct (find x m); cbn in A; exact A.
Qed.

(** With imports of everything, the names exported are still the names
    bound. *)
Lemma find_merge W sc ex x :
  find x (merge_into W sc ex) = None <-> found (scope_get W sc x) = false /\ find x ex = None.
Proof.
  destruct sc as [m|v]; cbn [merge_into scope_get].
  - rewrite find_app. destruct (find x m); cbn; split; intros H; try tauto; try discriminate. destruct H; discriminate.
  - rewrite find_app.
    assert (E : find x (map (fun '(y, _) => (y, EField v y)) (members W v)) = None <-> find x (members W v) = None).
    { rewrite !find_none. rewrite map_map. replace (map (fun x0 : nat * nat => fst (let '(y, _) := x0 in (y, EField v y))) (members W v)) with (map fst (members W v)); [tauto|].
      apply map_ext. intros [? ?]. reflexivity. }
    destruct (find x (map (fun '(y, _) => (y, EField v y)) (members W v))) eqn:Q.
    + split; [discriminate|]. intros [H _]. destruct (find x (members W v)) eqn:R; [discriminate|]. exfalso.
      destruct E as [_ E]. specialize (E eq_refl). discriminate.
    + destruct E as [E _]. specialize (E eq_refl). rewrite E. cbn. tauto.
Qed.

Lemma find_summary W l ex x :
  find x (fold_left (fun ex sc => merge_into W sc ex) l ex) = None
  <-> (forall sc, In sc l -> found (scope_get W sc x) = false) /\ find x ex = None.
Proof.
  revert ex. induction l as [|sc l IH]; intros ex; cbn [fold_left].
  - split; [intros H; split; [intros ? []|exact H]|tauto].
  - rewrite IH, find_merge. split.
    + intros [H [H1 H2]]. split; [|exact H2]. intros sc' [<-|I]; auto.
    + intros [H H2]. split; [intros sc' I; apply H; now right|]. split; [apply H; now left|exact H2].
Qed.

Lemma search_none W l x : search W l x = (None, None) <-> forall sc, In sc l -> found (scope_get W sc x) = false.
Proof.
  induction l as [|sc l IH]; cbn; [split; [intros _ ? []|reflexivity]|].
  destruct (found (scope_get W sc x)) eqn:F.
  - split.
    + intros H. rewrite H in F. discriminate.
    + intros H. rewrite (H sc (or_introl eq_refl)) in F. discriminate.
  - rewrite IH. split; [intros H sc' [<-|I]; auto|]. intros H sc' I. apply H. now right.
Qed.

Theorem file_names W n file :
  2 <= n -> plain_world W -> tame_all W file [] = true -> NoDup (marks_all file) ->
  forall x, x <> 0 -> (find x (exports W n file) = None <-> find x (bound W file) = None).
Proof.
  intros N PW T ND x Z. destruct (file_res W n file N PW T ND) as [_ [A _]].
  specialize (A x Z eq_refl). unfold agree in A.
  unfold exports, summarize. rewrite find_summary.
  set (w := run W n false file) in *.
  assert (X : (forall sc, In sc (last w :: rev (up w)) -> found (scope_get W sc x) = false) <-> srch W w x = (None, None)).
  { unfold srch. rewrite search_none. split; intros H sc [<-|I]; try (apply H; now left).
    - apply H. right. now apply -> in_rev.
    - apply H. right. now apply in_rev. }
  rewrite X. destruct (srch W w x) as [[e|] [v|]]; cbn in A; rewrite A; split; intros H; try discriminate; auto.
  - destruct H; discriminate.
  - destruct H; discriminate.
  - destruct H; discriminate.
Qed.

(** * Projects *)

Lemma merge_in W sc ex x e :
  In (x, e) (merge_into W sc ex) -> In (x, e) ex \/ plain e = true \/ exists m, sc = SLex m /\ In (x, e) m.
Proof.
  destruct sc as [m|v]; cbn [merge_into]; intros H; apply in_app_or in H; destruct H as [H|H]; auto.
  - right. right. eauto.
  - right. left. apply in_map_iff in H. destruct H as [[y u] [E _]]. now injection E as _ <-.
Qed.

Lemma summary_in W l : forall ex x e,
  In (x, e) (fold_left (fun ex sc => merge_into W sc ex) l ex) ->
  In (x, e) ex \/ plain e = true \/ exists m, In (SLex m) l /\ In (x, e) m.
Proof.
  induction l as [|sc l IH]; intros ex x e H; [auto|]. cbn in H.
  destruct (IH _ _ _ H) as [I|[I|[m [I J]]]]; auto.
  - destruct (merge_in _ _ _ _ _ I) as [K|[K|[m [-> K]]]]; auto. right. right. exists m. cbn. auto.
  - right. right. exists m. cbn. auto.
Qed.

Lemma file_plain W n file :
  2 <= n -> plain_world W -> tame_all W file [] = true -> NoDup (marks_all file) ->
  forall x e, In (x, e) (exports W n file) -> plain e = true.
Proof.
  intros N PW T ND x e H. destruct (file_res W n file N PW T ND) as [G _].
  assert (P : plainw (run W n false file)).
  { apply (g_plain _ _ _ _ G). intros m y e' [Q|[]] I. injection Q as <-. destruct I. }
  destruct (summary_in _ _ _ _ _ H) as [[]|[I|[m [I J]]]]; [exact I|].
  apply (P m x e); [|exact J]. destruct I as [I|I]; [now left|right]. now apply in_rev.
Qed.

Theorem project_plain n files : forall W k,
  2 <= n -> plain_world W -> tame_project W n k files -> plain_world (project W n k files).
Proof.
  induction files as [|file files IH]; intros W k N PW T; [exact PW|].
  destruct T as [T1 [T2 T3]]. apply IH; auto.
  intros f x e. cbn [provide w_exports]. destruct (Nat.eqb f k); [|apply PW].
  now apply file_plain.
Qed.
