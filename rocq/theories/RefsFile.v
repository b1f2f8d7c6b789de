(** A file that refers to a definition mentions its name, and has it or
    imports a file that hands it on. *)
From Coq Require Import List Arith Bool Lia.
From Verif Require Import ScopeModel ScopeSpec ScopeProof ScopeImport ScopeCheck ScopeFile RefsModel RefsSpec RefsProof.
Import ListNotations.

Section File.
Variables (W : world) (d : decl) (I K : list nat).
Hypothesis L : local d = true.
Hypothesis HW : forall f y e, find y (w_exports W f) = Some e -> keys e = [] /\ (holds d e -> y = dname d).

Definition kok (l : list decl) : Prop := forall k, In k l -> local k = false /\ In (dname k) I.

Definition M : Prop := In (dname d) I.

Definition from (D : list nat) : Prop :=
  In (dspan d) K \/ exists f y e, In f D /\ find y (w_exports W f) = Some e /\ holds d e.

Definition ok_e (D : list nat) (x : nat) (e : expr) : Prop :=
  (holds d e -> (x = dname d \/ M) /\ from D) /\ kok (keys e).

Definition okr (D : list nat) (r : refx) : Prop := is_ref d r = true -> M /\ from D.

Definition inv (w : st) : Prop :=
  (forall sc x e, In sc (last w :: up w) -> fst (scope_get W sc x) = Some e -> ok_e (deps w) x e)
  /\ (forall s r, In (s, r) (buf w) -> okr (deps w) r).

Lemma from_mono D D' : incl D D' -> from D -> from D'.
Proof. intros H [X|[f [y [e [F R]]]]]; [now left|right]. exists f, y, e. split; [now apply H|exact R]. Qed.

Lemma ok_mono D D' x e : incl D D' -> ok_e D x e -> ok_e D' x e.
Proof. intros H [A B]. split; [|exact B]. intros X. destruct (A X) as [C F]. split; [exact C|eapply from_mono; eauto]. Qed.

Lemma inv_dep f w : inv w -> inv (add_dep f w).
Proof.
  intros [A B]. assert (T : incl (deps w) (f :: deps w)) by (intros ? ?; now right). split.
  - intros sc x e H1 H2. eapply ok_mono; [exact T|]. eapply A; eauto.
  - intros s r H1 H2. destruct (B s r H1 H2) as [C F]. split; [exact C|]. eapply from_mono; eauto.
Qed.

Lemma inv_insert x e w : ok_e (deps w) x e -> inv w -> inv (insert x e w).
Proof.
  intros O [A B]. unfold insert. destruct (last w) as [m|v] eqn:E; split; try exact B.
  - intros sc y e' [<-|H1] H2.
    + cbn [scope_get fst find last set_scopes] in H2. destruct (Nat.eqb y x) eqn:Q.
      * apply Nat.eqb_eq in Q. injection H2 as <-. subst y. exact O.
      * apply (A (SLex m) y e'); [now left|exact H2].
    + apply (A sc y e'); [now right|exact H2].
  - intros sc y e' [<-|H1] H2.
    + cbn [scope_get fst find last set_scopes] in H2. destruct (Nat.eqb y x) eqn:Q; [|discriminate].
      apply Nat.eqb_eq in Q. injection H2 as <-. subst y. exact O.
    + apply (A sc y e'); [exact H1|exact H2].
Qed.

Lemma inv_resolve s r w : okr (deps w) r -> inv w -> inv (resolve_at s r w).
Proof.
  intros O [A B]. split; [exact A|]. intros s' r' [H|H]; [injection H as <- <-; exact O|eapply B; eauto].
Qed.

Lemma inv_scope f w : (forall w1, inv w1 -> inv (f w1)) -> inv w -> inv (with_scope f w).
Proof.
  intros F V. unfold with_scope. set (w1 := set_scopes (SLex []) (last w :: up w) w).
  assert (V1 : inv w1).
  { destruct V as [A B]. split; [|exact B]. intros sc x e [<-|H1] H2; [discriminate|]. eapply A; [exact H1|exact H2]. }
  specialize (F w1 V1). destruct F as [A B].
  assert (T : incl (skipn (length (up (f w1)) - length (up w1)) (up (f w1))) (up (f w1))).
  { intros a Ha. rewrite <- (firstn_skipn (length (up (f w1)) - length (up w1)) (up (f w1))). apply in_or_app. now right. }
  destruct (skipn _ _) as [|l u].
  - split; [|exact B]. intros sc x e [<-|[]] H2. apply (A (last (f w1))); [now left|exact H2].
  - split; [|exact B]. intros sc x e H1 H2. apply (A sc); [right; apply T; exact H1|exact H2].
Qed.

Lemma inv_defer f w : (inv w -> inv (f w)) -> inv w -> inv (defer f w).
Proof. intros F V. unfold defer. destruct (init w); auto. Qed.

(** What is found for a name. *)
Lemma ident_ok w x math e v : inv w -> eval_ident W w x math = (Some e, v) -> ok_e (deps w) x e.
Proof.
  intros [A _]. unfold eval_ident.
  assert (S : forall l, incl l (last w :: up w) -> forall v, ScopeModel.search W l x = (Some e, v) -> ok_e (deps w) x e).
  { induction l as [|sc l IH]; intros T v' H; [discriminate|]. cbn [ScopeModel.search] in H.
    destruct (found (scope_get W sc x)) eqn:F.
    - apply (A sc); [apply T; now left|now rewrite H].
    - apply (IH (fun a Ha => T a (or_intror Ha)) v' H). }
  destruct (found (ScopeModel.search W (last w :: up w) x)).
  - apply S. apply incl_refl.
  - discriminate.
Qed.

Lemma extract_ok D x e root step d' val :
  ok_e D x e -> local d' = false -> extract_ref (Some e) = (root, step) ->
  (is_ref d (mkref d' step root val) = true -> (x = dname d \/ M) /\ from D)
  /\ kok (keys (eref (mkref d' step root val)))
  /\ (holds d (eref (mkref d' step root val)) -> holds d e).
Proof.
  intros [A B] L' E. unfold is_ref, eref. cbn [r_decl r_step r_root r_term].
  assert (N : (if decl_eq_dec d' d then true else false) = false).
  { destruct (decl_eq_dec d' d) as [->|]; [congruence|reflexivity]. }
  rewrite N. cbn [orb].
  assert (X : forall d1, (if decl_eq_dec d1 d then true else false) = true -> d1 = d).
  { intros d1. destruct (decl_eq_dec d1 d); [auto|discriminate]. }
  destruct e as [d1|d1 s1 r1 t1|k l|v|v y]; cbn [extract_ref] in E; injection E as <- <-.
  - split; [intros H; apply A; cbn; auto|]. split; [exact B|]. intros H. exact H.
  - split.
    + intros H. apply A. destruct r1 as [[d2| | | |]|]; try discriminate. cbn. auto.
    + split; [exact B|]. intros H. exact H.
  - split; [discriminate|]. split; [exact B|]. intros [].
  - split; [discriminate|]. split; [exact B|]. intros [].
  - split; [discriminate|]. split; [exact B|]. intros [].
Qed.

Lemma inv_ident d' math w : local d' = false -> In (dname d') I -> inv w -> inv (resolve_ident W d' math w).
Proof.
  intros L' X V. unfold resolve_ident.
  destruct (eval_ident W w (dname d') math) as [o val] eqn:E.
  destruct (extract_ref o) as [root step] eqn:Q.
  apply inv_resolve; [|exact V]. destruct o as [e|].
  - pose proof (ident_ok w _ _ _ _ V E) as O. destruct (extract_ok _ _ _ _ _ d' val O L' Q) as [R _].
    intros H. destruct (R H) as [[N|N] F]; split; auto. unfold M. now rewrite <- N.
  - cbn in Q. injection Q as <- <-. intros H. unfold is_ref in H. cbn in H. rewrite orb_false_r in H.
    destruct (decl_eq_dec d' d) as [->|]; [congruence|discriminate].
Qed.

Lemma okr_def d' D : (local d' = true -> In (dname d') I /\ In (dspan d') K) -> okr D (as_def d').
Proof.
  intros H R. unfold is_ref, as_def in R. cbn in R. rewrite orb_diag in R.
  destruct (decl_eq_dec d' d) as [->|]; [|discriminate]. destruct (H L). split; [assumption|]. now left.
Qed.

Lemma ok_def d' D : (local d' = true -> In (dname d') I /\ In (dspan d') K) -> ok_e D (dname d') (EDecl d').
Proof.
  intros H. split; [|intros ? []]. cbn. intros ->. destruct (H L). split; [now left|now left].
Qed.

Lemma inv_declare d' w : (local d' = true -> In (dname d') I /\ In (dspan d') K) -> inv w -> inv (declare d' w).
Proof.
  intros H V. unfold declare. apply inv_insert; [now apply ok_def|]. apply inv_resolve; [now apply okr_def|exact V].
Qed.

Lemma inv_pattern p w : incl (map snd (pvars p)) I -> incl (map fst (pvars p)) K -> inv w -> inv (check_pattern p w).
Proof.
  rewrite check_pattern_declares. intros A B.
  assert (A' : forall s x, In (s, x) (rev (pvars p)) -> In x I /\ In s K).
  { intros s x H. apply in_rev in H. split; [apply A|apply B]; apply in_map_iff; exists (s, x); auto. }
  clear A B. revert A'. generalize (rev (pvars p)) as l. intros l. revert w.
  induction l as [|[s x] l IH]; intros w A V; [exact V|]. cbn. apply IH.
  - intros s' x' H. apply A. now right.
  - apply inv_declare; [|exact V]. intros _. cbn. destruct (A s x (or_introl eq_refl)). auto.
Qed.

(** Following references. *)
Definition okf (D : list nat) (e : expr) : Prop :=
  kok (keys e) /\ match e with ERef _ _ _ _ => holds d e -> M /\ from D | _ => True end.

Lemma keys_root d' s root t e : kok (keys (ERef d' s root t)) -> root = Some e -> kok (keys e).
Proof. intros H ->. exact H. Qed.

Lemma fold_inv n : forall e w, inv w -> (forall e', e = Some e' -> kok (keys e')) ->
  let '(w', o) := fold_expr W n e w in inv w' /\ forall e', o = Some e' -> okf (deps w') e'.
Proof.
  induction n as [|n IH]; intros e w V KE; [cbn; split; [exact V|discriminate]|]. cbn [fold_expr].
  assert (CC : forall src w, inv w -> (forall e', fst src = Some e' -> kok (keys e')) ->
    let '(w', o) := match src with (None, Some v) => (w, Some (EVal v)) | (e, _) => fold_expr W n e w end in
    inv w' /\ forall e', o = Some e' -> okf (deps w') e').
  { intros [[e1|] [v|]] w1 V1 H; try (apply IH; assumption).
    split; [exact V1|]. intros e' [= <-]. split; [intros ? []|exact Logic.I]. }
  destruct e as [[d1|d1 s root term|k l|v|v x]|].
  - destruct (is_def d1).
    + split; [exact V|]. intros e' [= <-]. split; [intros ? []|exact Logic.I].
    + apply CC; [exact V|]. intros e' H. destruct (eval_ident W w (dname d1) false) as [o v] eqn:E. cbn in H. subst o.
      apply (ident_ok _ _ _ _ _ V E).
  - apply (CC (root, term) w); [exact V|]. cbn. intros e' ->. apply (KE _ eq_refl).
  - assert (KL : kok (keys l)) by (intros a Ha; apply (KE _ eq_refl); cbn; auto).
    assert (KK : local k = false /\ In (dname k) I) by (apply (KE _ eq_refl); cbn; auto).
    specialize (IH (Some l) w V). destruct (fold_expr W n (Some l) w) as [w1 o1].
    destruct IH as [V1 _]; [intros e' [= <-]; exact KL|].
    destruct o1 as [e1|]; [|split; [exact V1|discriminate]].
    unfold select. destruct e1 as [d1|? ? ? ?|? ?|?|? ?]; try (split; [exact V1|discriminate]).
    destruct d1; try (split; [exact V1|discriminate]).
    destruct (find (dname k) (w_exports W f)) as [e|] eqn:F.
    + destruct (HW _ _ _ F) as [H1 H2].
      assert (V2 : inv (add_dep f w1)) by (now apply inv_dep).
      assert (FR : holds d e -> M /\ from (deps (add_dep f w1))).
      { intros H. split; [unfold M; rewrite <- (H2 H); apply KK|]. right. exists f, (dname k), e. cbn. auto. }
      assert (OR : okr (deps (add_dep f w1)) (mkref k (Some e) (Some (EDecl (DMod f x))) None)).
      { intros R. unfold is_ref in R. cbn [r_decl r_root] in R.
        destruct (decl_eq_dec (DMod f x) d) as [X|X]; [rewrite <- X in L; discriminate L|]. rewrite orb_false_r in R.
        destruct (decl_eq_dec k d) as [Y|Y]; [|discriminate].
        destruct KK as [KK _]. rewrite Y in KK. congruence. }
      split.
      * apply inv_resolve; [exact OR|]. apply inv_resolve; [exact OR|exact V2].
      * intros e' [= <-]. split; [rewrite H1; intros ? []|]. destruct e; try exact Logic.I. exact FR.
    + split; [now apply inv_dep|discriminate].
  - split; [exact V|]. intros e' [= <-]. split; [intros ? []|exact Logic.I].
  - split; [exact V|]. intros e' [= <-]. split; [intros ? []|exact Logic.I].
  - split; [exact V|discriminate].
Qed.

Lemma src_ok c : forall w, inv w -> incl (src_idents c) I ->
  forall e, fst (eval_src W w c) = Some e -> kok (keys e).
Proof.
  induction c as [s f stem|s x|t IH s x|]; intros w V X e H; try discriminate.
  - cbn [eval_src] in H. destruct (eval_ident W w x false) as [o v] eqn:E. cbn in H. subst o.
    apply (ident_ok _ _ _ _ _ V E).
  - cbn [eval_src] in H. specialize (IH w V). destruct (eval_src W w t) as [[e1|] v]; [|discriminate].
    cbn in H. injection H as <-. cbn [keys]. intros k [<-|Hk].
    + split; [reflexivity|]. apply X. now left.
    + apply (IH (fun a Ha => X a (or_intror Ha)) e1 eq_refl k Hk).
Qed.

Lemma cc_inv n src w : inv w -> (forall e', fst src = Some e' -> kok (keys e')) ->
  let '(w', o) := fold_cc W n src w in inv w' /\ forall e', o = Some e' -> okf (deps w') e'.
Proof.
  intros V H. unfold fold_cc. destruct src as [[e|] [v|]]; try (apply fold_inv; assumption).
  split; [exact V|]. intros e' [= <-]. split; [intros ? []|exact Logic.I].
Qed.

(** The module of an import. *)
Definition okm (D : list nat) (m : option expr) : Prop :=
  forall e, m = Some e -> kok (keys e) /\ (e = EDecl d -> M /\ from D).

Lemma import_src_inv n c w : inv w -> incl (src_idents c) I ->
  let '(w', m) := check_import W n c w in inv w' /\ okm (deps w') m.
Proof.
  intros V X. unfold check_import.
  assert (G : let '(w', m) := (let '(w, e) := fold_cc W n (eval_src W w c) w in
      match e with
      | None => (w, None)
      | Some (EVal v) => (w, match w_members W v with Some _ => Some (EVal v) | None => None end)
      | Some (EDecl d) => (w, if mod_kind d then Some (EDecl d) else None)
      | Some (ERef _ _ root _) => (w, root)
      | Some _ => (w, None)
      end) in inv w' /\ okm (deps w') m).
  { pose proof (cc_inv n (eval_src W w c) w V (src_ok c w V X)) as H.
    destruct (fold_cc W n (eval_src W w c) w) as [w1 o]. destruct H as [V1 H].
    destruct o as [[d1|d1 s1 r1 t1|k l|v|v y]|]; (split; [exact V1|]); try (intros e E; discriminate E).
    - destruct (mod_kind d1) eqn:MK; intros e E; [|discriminate]. injection E as <-. split; [intros ? []|].
      intros [= ->]. destruct d; discriminate.
    - intros e ->. destruct (H _ eq_refl) as [H1 H2]. split; [exact H1|]. intros ->. apply H2. reflexivity.
    - destruct (w_members W v); intros e E; [|discriminate]. injection E as <-. split; [intros ? []|discriminate]. }
  destruct c as [s [f|] stem|s x|t s x|]; try exact G.
  - assert (N : EDecl (DMod f stem) <> EDecl d) by (intros Q; injection Q as Q; rewrite <- Q in L; discriminate).
    split.
    + apply inv_resolve; [|exact V]. intros H. unfold is_ref in H. cbn [r_decl r_root] in H.
      destruct (decl_eq_dec (DPath s stem) d) as [Q|_]; [rewrite <- Q in L; discriminate L|].
      destruct (decl_eq_dec (DMod f stem) d) as [Q|_]; [rewrite <- Q in L; discriminate L|]. discriminate.
    + intros e [= <-]. split; [intros ? []|]. intros Q. contradiction.
  - split; [exact V|]. intros e E. discriminate.
Qed.

Lemma is_ref_iff d' s root t : local d' = false -> (is_ref d (mkref d' s root t) = true <-> root = Some (EDecl d)).
Proof.
  intros L'. unfold is_ref. cbn [r_decl r_root].
  destruct (decl_eq_dec d' d) as [->|_]; [congruence|]. cbn [orb].
  destruct root as [[d1| | | |]|]; try (split; discriminate).
  destruct (decl_eq_dec d1 d) as [->|N]; split; auto; try discriminate. intros [= ->]. contradiction.
Qed.

Lemma chain_keys path : forall e, (forall k, In k (keys e) -> local k = false /\ In (dname k) I) ->
  incl (map snd path) I ->
  kok (keys (fold_left (fun sel '(s, x) => ESel (DRef s x) sel) path e)).
Proof.
  induction path as [|[s x] path IH]; intros e H X; [exact H|]. cbn [fold_left]. apply IH.
  - intros k [<-|Hk]; [|auto]. split; [reflexivity|]. apply X. now left.
  - intros a Ha. apply X. now right.
Qed.

Lemma chain_sel path : forall e, (exists k l, e = ESel k l) ->
  exists k l, fold_left (fun sel '(s, x) => ESel (DRef s x) sel) path e = ESel k l.
Proof.
  induction path as [|[s x] path IH]; intros e H; [exact H|]. cbn [fold_left]. apply IH. eauto.
Qed.

Lemma item_inv m dv it w :
  inv w -> local dv = false ->
  (forall f s, m = Some (EDecl (DMod f s)) -> In f (deps w)) ->
  incl (map snd (fst it) ++ match snd it with Some (_, x) => [x] | None => [] end) I ->
  inv (import_item W (mod_scope W m) (EDecl dv) it w) /\
  deps (import_item W (mod_scope W m) (EDecl dv) it w) = deps w.
Proof.
  intros V LD DM X. destruct it as [path new]. cbn [fst snd] in X.
  assert (XP : incl (map snd path) I) by (intros a Ha; apply X; apply in_or_app; now left).
  unfold import_item. destruct (List.last path (0, 0)) as [so xo] eqn:EL.
  destruct (match path with [] => (None, None) | _ :: _ => scope_get W (mod_scope W m) xo end) as [r0 v0] eqn:EG.
  assert (XO : path <> [] -> In xo I).
  { intros N. apply XP. apply in_map_iff. exists (so, xo). split; [reflexivity|]. rewrite <- EL.
    destruct path as [|p path]; [congruence|]. rewrite (app_removelast_last (0, 0) N) at 2. apply in_or_app. right. now left. }
  (* what the item refers to *)
  set (rt := if found (r0, v0) then r0 else Some (fold_left (fun sel '(s, x) => ESel (DRef s x) sel) path (EDecl dv))).
  assert (RT : forall e, rt = Some e -> kok (keys e) /\ (holds d e -> M /\ from (deps w))).
  { intros e. unfold rt. destruct (found (r0, v0)) eqn:F.
    - intros ->. destruct path as [|p path]; [injection EG as Q _; discriminate|].
      assert (Q : fst (scope_get W (mod_scope W m) xo) = Some e) by (now rewrite EG). clear EG.
      unfold mod_scope in Q. destruct m as [[dm|? ? ? ?|? ?|v|? ?]|]; try discriminate Q.
      + destruct dm; try discriminate Q. cbn [scope_get fst] in Q. destruct (HW _ _ _ Q) as [H1 H2]. split.
        * rewrite H1. intros ? [].
        * intros H. split; [unfold M; rewrite <- (H2 H); apply XO; discriminate|]. right. exists f, xo, e.
          split; [apply (DM _ _ eq_refl)|auto].
      + destruct (w_members W v); discriminate Q.
    - intros [= <-]. split; [apply chain_keys; [intros ? []|exact XP]|].
      destruct path as [|[s x] path].
      + cbn. intros ->. congruence.
      + cbn [fold_left]. destruct (chain_sel path (ESel (DRef s x) (EDecl dv))) as [k [l ->]]; [eauto|]. intros []. }
  destruct (extract_ref rt) as [root step] eqn:EX.
  assert (RR : forall d' st te, local d' = false ->
     okr (deps w) (mkref d' st root te) /\ forall x, ok_e (deps w) x (eref (mkref d' st root te))).
  { intros d' st0 te L'.
    assert (H : root = Some (EDecl d) -> M /\ from (deps w)).
    { intros ->. destruct rt as [e|]; [|discriminate]. destruct (RT _ eq_refl) as [_ H]. apply H.
      destruct e; cbn in EX; injection EX as EX _; try discriminate EX; cbn; [exact EX|now rewrite EX]. }
    split; [intros R; apply is_ref_iff in R; auto|]. intros x. split.
    - unfold eref. cbn [r_decl r_step r_root r_term holds]. destruct root as [[d1| | | |]|]; try (intros []; fail).
      intros ->. destruct (H eq_refl). auto.
    - unfold eref. cbn [r_decl r_step r_root r_term keys]. destruct root as [e1|]; [|intros ? []].
      destruct rt as [e|]; [|discriminate]. destruct (RT _ eq_refl) as [H1 _].
      destruct e; cbn in EX; injection EX as EX _; try (subst e1; exact H1). subst root. exact H1. }
  assert (Dp : forall x e w, deps (insert x e w) = deps w) by (intros x e w0; unfold insert; destruct (last w0); reflexivity).
  destruct new as [[sn xn]|].
  - split; [|now rewrite Dp]. apply inv_insert; [apply RR; reflexivity|].
    apply inv_resolve; [apply RR; reflexivity|]. apply inv_resolve; [apply RR; reflexivity|exact V].
  - split; [|now rewrite Dp]. apply inv_insert; [apply RR; reflexivity|].
    apply inv_resolve; [apply RR; reflexivity|exact V].
Qed.

Lemma items_inv m dv l : forall w,
  inv w -> local dv = false ->
  (forall f s, m = Some (EDecl (DMod f s)) -> In f (deps w)) ->
  incl (im_idents (Items l)) I ->
  inv (import_decls W (mod_scope W m) (EDecl dv) l w).
Proof.
  induction l as [|[path new] l IH]; intros w V LD DM X; [exact V|]. cbn [import_decls fold_left].
  assert (X1 : incl (map snd path ++ match new with Some (_, x) => [x] | None => [] end) I)
    by (intros a Ha; apply X; cbn; apply in_or_app; now left).
  destruct (item_inv m dv (path, new) w V LD DM X1) as [V1 D1].
  apply IH; auto.
  - rewrite D1. exact DM.
  - intros a Ha. apply X. cbn. apply in_or_app. now right.
Qed.

Lemma import_inv n s c new im w :
  inv w -> incl (src_idents c ++ oname new ++ im_idents im) I -> inv (check_module_import W n s c new im w).
Proof.
  intros V X. unfold check_module_import.
  assert (X1 : incl (src_idents c) I) by (intros a Ha; apply X; apply in_or_app; now left).
  assert (X2 : incl (im_idents im) I) by (intros a Ha; apply X; apply in_or_app; right; apply in_or_app; now right).
  pose proof (import_src_inv n c w V X1) as H. destruct (check_import W n c w) as [w1 m]. destruct H as [V1 OM].
  set (var := match new with Some (sn, xn) => Some (DModAlias sn xn) | None => _ end).
  set (dv := match var with Some d => d | None => DModImport s end).
  assert (LD : local dv = false).
  { unfold dv, var. destruct new as [[? ?]|]; [reflexivity|]. destruct im; try reflexivity.
    destruct m as [[[]| | | |]|]; reflexivity. }
  assert (OR : okr (deps w1) (mkref dv m m None)).
  { intros R. apply is_ref_iff in R; [|exact LD]. apply (OM _ R). reflexivity. }
  assert (OE : forall x, ok_e (deps w1) x (eref (mkref dv m m None))).
  { intros x. unfold eref. cbn [r_decl r_step r_root r_term]. split.
    - cbn [holds]. destruct m as [[d1| | | |]|]; try (intros []; fail). intros ->.
      destruct (OM _ eq_refl) as [_ H]. destruct (H eq_refl). auto.
    - cbn [keys]. destruct m as [e|]; [|intros ? []]. apply (OM _ eq_refl). }
  assert (Dp : forall x e w, deps (insert x e w) = deps w) by (intros x e w0; unfold insert; destruct (last w0); reflexivity).
  assert (V2 : inv (match var with Some _ => insert (dname dv) (eref (mkref dv m m None)) w1 | None => w1 end)
     /\ deps (match var with Some _ => insert (dname dv) (eref (mkref dv m m None)) w1 | None => w1 end) = deps w1).
  { destruct var; [split; [apply inv_insert; auto|apply Dp]|auto]. }
  destruct V2 as [V2 D2].
  set (w2 := match var with Some _ => insert (dname dv) (eref (mkref dv m m None)) w1 | None => w1 end) in *.
  assert (V3 : inv (resolve_as (mkref dv m m None) w2)) by (apply inv_resolve; [rewrite D2; exact OR|exact V2]).
  set (w3 := resolve_as (mkref dv m m None) w2) in *.
  assert (V4 : inv (depend m w3)).
  { unfold depend. destruct m as [[[]| | | |]|]; try exact V3. now apply inv_dep. }
  assert (DM : forall f s, m = Some (EDecl (DMod f s)) -> In f (deps (depend m w3))).
  { intros f s' ->. now left. }
  destruct im as [| |l].
  - exact V4.
  - unfold push_scope. destruct V4 as [A B]. split; [|exact B].
    intros sc x e H1 H2.
    assert (H3 : sc = mod_scope W m \/ In sc (last (depend m w3) :: up (depend m w3))).
    { cbn [last up set_scopes] in H1. destruct H1 as [<-|H1]; [auto|]. right.
      destruct (scope_empty W (last (depend m w3))); [now right|exact H1]. }
    destruct H3 as [->|H3]; [|exact (A sc x e H3 H2)].
    unfold mod_scope in H2. destruct m as [[dm|? ? ? ?|? ?|v|? ?]|]; try discriminate H2.
    + destruct dm; try discriminate H2. cbn [scope_get fst] in H2. destruct (HW _ _ _ H2) as [Q1 Q2]. split.
      * intros Q. split; [left; auto|]. right. exists f, x, e. split; [apply (DM _ _ eq_refl)|auto].
      * rewrite Q1. intros ? [].
    + destruct (w_members W v); discriminate H2.
  - now apply items_inv.
Qed.

Lemma inv_src c w : incl (src_idents c) I -> inv w -> inv (check_src W c w).
Proof.
  induction c as [s f stem|s x|t IH s x|]; intros X V; try exact V.
  - apply inv_ident; [reflexivity|apply X; now left|exact V].
  - apply IH; [intros a Ha; apply X; now right|exact V].
Qed.

Definition okc (n : nat) (e : ast) : Prop :=
  incl (idents e) I -> incl (marks e) K -> forall w, inv w -> inv (check W n e w).

Lemma inv_all n l : Forall (okc n) l -> incl (idents_all l) I -> incl (marks_all l) K ->
  forall w, inv w -> inv (check_all W n l w).
Proof.
  induction 1 as [|e l He Hl IH]; intros X Y w V; [exact V|]. cbn. apply IH.
  - intros a Ha. apply X. cbn. apply in_or_app. now right.
  - intros a Ha. apply Y. cbn. apply in_or_app. now right.
  - apply He; [intros a Ha; apply X; cbn; apply in_or_app; now left|intros a Ha; apply Y; cbn; apply in_or_app; now left|exact V].
Qed.

Fixpoint idents_params (l : list (param * ast)) : list nat :=
  match l with [] => [] | (q, d) :: l' => map snd (qvars q) ++ idents d ++ idents_params l' end.

Lemma inv_params n l : Forall (fun qd => okc n (snd qd)) l -> incl (idents_params l) I -> incl (marks_params l) K ->
  forall w, inv w -> inv (check_params W n l w).
Proof.
  induction 1 as [|[q e] l He Hl IH]; intros X Y w V; [exact V|]. cbn [check_params].
  cbn [idents_params] in X. cbn [marks_params] in Y.
  apply incl_app_inv in X. destruct X as [X1 X]. apply incl_app_inv in X. destruct X as [X2 X3].
  apply incl_app_inv in Y. destruct Y as [Y1 Y]. apply incl_app_inv in Y. destruct Y as [Y2 Y3].
  apply IH; auto. destruct q.
  - now apply inv_pattern.
  - apply inv_declare; [|now apply He]. intros _. split; [apply X1; now left|apply Y1; now left].
  - apply inv_declare; [|apply inv_ident; [reflexivity|apply X1; now left|exact V]].
    intros _. split; [apply X1; now left|apply Y1; now left].
  - apply inv_declare; [discriminate|exact V].
Qed.

Theorem check_inv n e : okc n e.
Proof.
  induction e using ast_ind'; intros X Y w V; cbn [idents] in X; cbn [marks] in Y.
  - exact V.
  - apply inv_ident; [reflexivity|apply X; now left|exact V].
  - apply inv_ident; [reflexivity|apply X; now left|exact V].
  - apply (inv_all n es H X Y w V).
  - apply incl_app_inv in X. destruct X as [X1 X2]. apply incl_app_inv in Y. destruct Y as [Y1 Y2].
    cbn [check]. destruct c; [now apply IHe2|]. apply IHe1; auto.
  - apply inv_scope; [|exact V]. apply (inv_all n es H X Y).
  - apply inv_scope; [|exact V]. apply (inv_all n es H X Y).
  - apply incl_app_inv in X. destruct X as [X1 X2]. apply incl_app_inv in Y. destruct Y as [Y1 Y2].
    cbn [check]. apply inv_pattern; auto. destruct i; [|exact V].
    apply inv_defer; [|exact V]. now apply H.
  - rewrite check_fun. cbn zeta.
    apply incl_app_inv in X. destruct X as [X1 X]. apply incl_app_inv in X. destruct X as [X2 X3].
    assert (Y' : incl (omark name ++ marks_params ps ++ marks e) K) by (intros a Ha; apply Y; now right).
    apply incl_app_inv in Y'. destruct Y' as [Y1 Y']. apply incl_app_inv in Y'. destruct Y' as [Y2 Y3].
    assert (D : local (self_decl s name) = true -> In (dname (self_decl s name)) I /\ In (dspan (self_decl s name)) K).
    { destruct name as [[sn xn]|]; [|discriminate]. intros _. cbn. split; [apply X1; now left|apply Y1; now left]. }
    apply inv_insert; [now apply ok_def|].
    apply inv_scope; [|apply inv_resolve; [now apply okr_def|exact V]].
    intros w1 V1. apply inv_defer; [intros V2; apply IHe; auto|]. apply inv_params; auto.
    apply inv_insert; [now apply ok_def|exact V1].
  - now apply import_inv.
  - cbn [check]. apply inv_src; [exact X|]. pose proof (import_src_inv n c w V X) as G.
    destruct (check_import W n c w). apply G.
  - apply incl_app_inv in X. destruct X as [X1 X]. apply incl_app_inv in X. destruct X as [X2 X3].
    apply incl_app_inv in Y. destruct Y as [Y1 Y]. apply incl_app_inv in Y. destruct Y as [Y2 Y3].
    cbn [check]. apply inv_scope; [|exact V]. intros w1 V1. apply inv_defer; [now apply IHe2|].
    apply IHe1; auto. now apply inv_pattern.
  - apply incl_app_inv in X. destruct X as [X1 X2]. apply incl_app_inv in Y. destruct Y as [Y1 Y2].
    cbn [check]. apply inv_defer; [now apply IHe2|]. now apply IHe1.
  - apply incl_app_inv in X. destruct X as [X1 X]. apply incl_app_inv in X. destruct X as [X2 X3].
    apply incl_app_inv in Y. destruct Y as [Y1 Y]. apply incl_app_inv in Y. destruct Y as [Y2 Y3].
    cbn [check]. assert (V1 : inv (defer (check W n e2) (check W n e1 w)))
      by (apply inv_defer; [now apply IHe2|]; now apply IHe1).
    destruct e3; [|exact V1]. apply inv_defer; [|exact V1]. now apply H.
  - apply incl_app_inv in X. destruct X as [X1 X2]. apply incl_app_inv in Y. destruct Y as [Y1 Y2].
    cbn [check]. apply IHe; auto. now apply inv_pattern.
  - apply incl_app_inv in X. destruct X as [X1 X]. apply incl_app_inv in X. destruct X as [X2 X3].
    apply incl_app_inv in Y. destruct Y as [Y1 Y]. apply incl_app_inv in Y. destruct Y as [Y2 Y3].
    cbn [check]. fold (check_all W n).
    assert (V1 : inv (check_all W n args (check W n e w))) by (apply (inv_all n args H X2 Y2); now apply IHe).
    destruct c; [|exact V1]. now apply H0.
  - apply incl_app_inv in X. destruct X as [X1 X2]. apply incl_app_inv in Y. destruct Y as [Y1 Y2].
    cbn [check]. apply inv_defer; [now apply IHe|]. destruct s; [now apply H|exact V].
  - cbn [check]. apply inv_defer; [now apply IHe|exact V].
  - apply incl_app_inv in X. apply incl_app_inv in Y. now apply IHe.
Qed.
End File.

Lemma find_merged W sc ex x e :
  find x (merge_into W sc ex) = Some e ->
  find x ex = Some e \/ fst (scope_get W sc x) = Some e \/ exists v y, e = EField v y.
Proof.
  destruct sc as [m|v]; cbn [merge_into scope_get fst]; rewrite find_app.
  - destruct (find x m) eqn:E; [intros [= <-]; auto|auto].
  - destruct (find x (map (fun '(y, _) => (y, EField v y)) (members W v))) as [e1|] eqn:E; [|auto].
    intros [= <-]. right. right. revert E. induction (members W v) as [|[y u] l IH]; [discriminate|]. cbn.
    destruct (Nat.eqb x y); [intros [= <-]; eauto|auto].
Qed.

Lemma find_summarized W l x e : forall ex,
  find x (fold_left (fun ex sc => merge_into W sc ex) l ex) = Some e ->
  find x ex = Some e \/ (exists sc, In sc l /\ fst (scope_get W sc x) = Some e) \/ exists v y, e = EField v y.
Proof.
  induction l as [|sc l IH]; intros ex H; [auto|]. cbn in H.
  destruct (IH _ H) as [A|[[sc' [A B]]|A]]; [|right; left; exists sc'; cbn; auto|auto].
  destruct (find_merged _ _ _ _ _ A) as [B|[B|B]]; [auto|right; left; exists sc; cbn; auto|auto].
Qed.

(** A whole file. *)
Theorem file_from W n d file :
  local d = true ->
  (forall f y e, find y (w_exports W f) = Some e -> keys e = [] /\ (holds d e -> y = dname d)) ->
  (forall s r, In (s, r) (buf (run W n false file)) -> is_ref d r = true ->
     In (dname d) (idents_all file) /\ from W d (marks_all file) (imports_of W n file))
  /\ (forall x e, find x (exports W n file) = Some e -> holds d e -> from W d (marks_all file) (imports_of W n file)).
Proof.
  intros L HW.
  assert (V : inv W d (idents_all file) (marks_all file) (run W n false file)).
  { rewrite run_all. apply inv_all; auto.
    - apply Forall_forall. intros e _. now apply check_inv.
    - apply incl_refl.
    - apply incl_refl.
    - split; [|intros s r []]. intros sc x e [<-|[]] H. discriminate. }
  destruct V as [A B]. split.
  - intros s r H R. apply (B s r H R).
  - intros x e H Hd. unfold exports, summarize in H.
    destruct (find_summarized _ _ _ _ _ H) as [X|[[sc [X Y]]|[v [y ->]]]]; [discriminate| |destruct Hd].
    apply (A sc x e); [|exact Y|exact Hd]. destruct X as [X|X]; [now left|right; now apply in_rev].
Qed.
