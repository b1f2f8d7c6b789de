(** Proofs about imports: what they bind and what they record. *)
From Coq Require Import List Arith Bool Lia.
From Verif Require Import ScopeModel ScopeSpec ScopeProof.
Import ListNotations.

Definition mod_expr (W : world) (m : modl) (e : option expr) : Prop :=
  match m with
  | MFile f => exists st, e = Some (EDecl (DMod f st))
  | MVal v => e = Some (EVal v) /\ w_members W v <> None
  | MNone => e = None
  end.

Lemma good_tr m us tr w w' :
  good m us w w' -> (forall k s t, In (k, s, t) tr -> k = true /\ In s m /\ forall f, t <> TMod f) ->
  good m (tr ++ us) w w'.
Proof.
  intros [a1 a2 a3 a4 a5 a6 [n [a7 [a8 [a9 a10]]]] [nd [a11 a12]]] H. split; auto.
  - intros k s t I. apply in_app_or in I. destruct I as [I|I]; [|eauto]. now apply (H k s t).
  - exists n. split; [exact a7|]. split; [exact a8|]. split.
    + intros s t I. apply in_app_or in I. destruct I as [I|I]; [|auto]. destruct (H _ _ _ I). discriminate.
    + intros s r F. destruct (a10 s r F) as [[t [T1 T2]]|S]; [left; exists t; rewrite in_app_iff; auto|auto].
  - exists nd. split; [exact a11|]. intros s f I. apply in_app_or in I. destruct I as [I|I]; [|eauto].
    destruct (H _ _ _ I) as [_ [_ X]]. destruct (X f eq_refl).
Qed.

Lemma good_dep m us tr w w' f :
  good m us w w' -> (forall k s t, In (k, s, t) tr -> k = true /\ In s m /\ forall g, t = TMod g -> g = f) ->
  good m (tr ++ us) w (add_dep f w').
Proof.
  intros [a1 a2 a3 a4 a5 a6 [n [a7 [a8 [a9 a10]]]] [nd [a11 a12]]] H. split; auto.
  - intros k s t I. apply in_app_or in I. destruct I as [I|I]; [|eauto]. now apply (H k s t).
  - exists n. split; [exact a7|]. split; [exact a8|]. split.
    + intros s t I. apply in_app_or in I. destruct I as [I|I]; [|auto]. destruct (H _ _ _ I). discriminate.
    + intros s r F. destruct (a10 s r F) as [[t [T1 T2]]|S]; [left; exists t; rewrite in_app_iff; auto|auto].
  - exists (f :: nd). split; [cbn; now rewrite a11|]. intros s g I. apply in_app_or in I.
    destruct I as [I|I]; [left|right; eauto]. destruct (H _ _ _ I) as [_ [_ X]]. symmetry. now apply X.
Qed.

Lemma fold_plain W n e w : 2 <= n -> plain e = true -> texp e <> TUnknown ->
  fold_expr W n (Some e) w =
  (w, match texp e with
      | TMod _ | TDef _ => match e with ERef _ _ root _ => root | e => Some e end
      | TVal v => Some (EVal v)
      | TMember v x => Some (EField v x)
      | _ => None
      end).
Proof.
  intros N P T. destruct n as [|[|n]]; try lia.
  destruct e as [d|d s root term|k l|v|v x]; try reflexivity; try discriminate.
  - cbn in *. unfold proper in P. apply andb_true_iff in P. destruct P as [P _]. rewrite P.
    destruct d; reflexivity.
  - destruct root as [[d'|? ? ? ?|? ?|v|v x]|]; try discriminate; try reflexivity.
    + cbn in *. unfold proper in P. apply andb_true_iff in P. destruct P as [P _]. rewrite P.
      destruct d'; reflexivity.
    + exfalso. apply T. reflexivity.
    + destruct term; [discriminate|]. exfalso. apply T. reflexivity.
Qed.

Lemma proper_mod d : proper d = true -> mod_kind d = true -> exists f x, d = DMod f x.
Proof. destruct d; try discriminate. eauto. Qed.

Lemma check_import_ok W n E c w :
  2 <= n -> tame_src W E c = true -> plainw w ->
  (forall x, In x (src_names c) -> x <> 0 -> agree W x w E) ->
  exists w1 e, check_import W n c w = (w1, e)
    /\ good (src_marks c) (path_uses c) w w1
    /\ last w1 = last w /\ up w1 = up w
    /\ mod_expr W (modof W E c) e
    /\ (forall s f stem, c = SFile s (Some f) stem -> e = Some (EDecl (DMod f stem))).
Proof.
  intros N T P A. destruct c as [s [f|] stem|s x|t s x|]; try discriminate.
  - cbn [check_import]. eexists. eexists. split; [reflexivity|]. cbn [src_marks path_uses].
    split; [|split; [reflexivity|split; [reflexivity|split]]].
    + apply good_resolve. apply fits_ref; reflexivity.
    + cbn. eauto.
    + intros ? ? ? [= <- <- <-]. reflexivity.
  - cbn [check_import]. eexists. eexists. split; [reflexivity|].
    split; [|split; [reflexivity|split; [reflexivity|split]]].
    + apply good_refl.
    + reflexivity.
    + discriminate.
  - cbn [tame_src] in T. apply andb_true_iff in T. destruct T as [T1 T2].
    apply negb_true_iff, Nat.eqb_neq in T1.
    specialize (A x (or_introl eq_refl) T1).
    assert (G : good (src_marks (SName s x)) (path_uses (SName s x)) w w) by apply good_refl.
    assert (K : exists e, check_import W n (SName s x) w = (w, e) /\ mod_expr W (modof W E (SName s x)) e).
    { cbn [check_import eval_src modof]. unfold eval_ident, look in *.
      change (search W (last w :: up w) x) with (srch W w x).
      unfold agree in A. pose proof (srch_plain W w x) as PL.
      destruct (srch W w x) as [[e|] v] eqn:S; cbn [found agr] in *.
      - rewrite A in *. specialize (PL e v P eq_refl).
        assert (TU : texp e <> TUnknown) by (destruct (texp e); congruence).
        unfold fold_cc. replace (match v with Some _ | _ => fold_expr W n (Some e) w end) with (fold_expr W n (Some e) w) by (destruct v; reflexivity).
        rewrite (fold_plain _ _ _ _ N PL TU). 
        destruct e as [d|d st root term|k l|u|u y]; try discriminate.
        + cbn [texp rtgt] in *. cbn [plain] in PL.
          destruct (mod_kind d) eqn:M.
          * destruct (proper_mod _ PL M) as [f [y ->]]. cbn. eexists. split; [reflexivity|]. cbn. eauto.
          * destruct d; try discriminate; cbn; eexists; split; reflexivity.
        + destruct root as [[d'|? ? ? ?|? ?|u|u y]|]; try discriminate.
          * cbn [texp rtgt plain] in *. destruct (mod_kind d') eqn:M.
            -- destruct (proper_mod _ PL M) as [f [y ->]]. cbn. eexists. split; [reflexivity|]. cbn. eauto.
            -- destruct d'; try discriminate; cbn; eexists; split; reflexivity.
          * cbn. destruct (w_members W u) eqn:Q; eexists; (split; [reflexivity|]); cbn; [split; congruence|reflexivity].
          * cbn. eexists. split; reflexivity.
          * destruct term; [discriminate|]. exfalso. apply TU. reflexivity.
        + cbn. destruct (w_members W u) eqn:Q; eexists; (split; [reflexivity|]); cbn; [split; congruence|reflexivity].
        + cbn. eexists. split; reflexivity.
      - destruct v as [v|].
        + rewrite A. cbn. destruct (w_members W v) eqn:Q; eexists; (split; [reflexivity|]); cbn; [split; congruence|reflexivity].
        + rewrite A, library_eq. destruct (lib_get W false x) as [v|].
          * cbn. destruct (w_members W v) eqn:Q; eexists; (split; [reflexivity|]); cbn; [split; congruence|reflexivity].
          * destruct n; [lia|]. cbn. eexists. split; reflexivity. }
    destruct K as [e [K1 K2]]. exists w, e. repeat (split; [assumption || reflexivity|]). discriminate.
Qed.

Lemma scope_offers W m e x : mod_expr W m e ->
  agr (scope_get W (mod_scope W e) x) (find x (offers W m)).
Proof.
  destruct m as [f|v|]; cbn.
  - intros [st ->]. cbn. rewrite (find_map texp). destruct (find x (w_exports W f)); reflexivity.
  - intros [-> M]. cbn. destruct (w_members W v) eqn:Q; [|congruence]. cbn [scope_get].
    rewrite (find_map TVal). destruct (find x (members W v)); reflexivity.
  - intros ->. reflexivity.
Qed.

Lemma agree_push W m e x w F : mod_expr W m e -> agree W x w F ->
  agree W x (push_scope W (mod_scope W e) w) (offers W m ++ F).
Proof.
  intros M A. unfold agree. rewrite srch_push, find_app.
  pose proof (scope_offers W m e x M) as O.
  destruct (scope_get W (mod_scope W e) x) as [[g|] [v|]]; cbn [found agr] in *; rewrite O; try reflexivity.
  exact A.
Qed.

Lemma good_push W m e w : plain_world W -> mod_expr W m e -> good [] [] w (push_scope W (mod_scope W e) w).
Proof.
  intros PW M. split; try reflexivity.
  - unfold push_scope. cbn. destruct (scope_empty W (last w)); [now exists []|now exists [last w]].
  - intros P m' x g H I. unfold push_scope in H. cbn [last up set_scopes] in H.
    assert (D : SLex m' = mod_scope W e \/ In (SLex m') (last w :: up w)).
    { destruct H as [H|H]; [now left|]. right. destruct (scope_empty W (last w)); [now right|exact H]. }
    destruct D as [D|D]; [|now apply (P m' x g D)].
    destruct m as [f|v|]; cbn in M.
    + destruct M as [st ->]. cbn in D. injection D as ->. eapply PW; eauto.
    + destruct M as [-> M]. cbn in D. destruct (w_members W v); [discriminate|]. injection D as ->. destruct I.
    + subst e. cbn in D. injection D as ->. destruct I.
  - intros k s t [].
  - exists []. split; [reflexivity|]. split; [intros s []|]. split; [intros s t []|discriminate].
  - exists []. split; [reflexivity|intros s f []].
Qed.

Lemma item_ok W m e d so xo new w :
  plain_world W -> mod_expr W m e -> (match m with MVal _ => false | _ => true end) = true ->
  NoDup (so :: omark new) ->
  let w' := import_item W (mod_scope W e) d ([(so, xo)], new) w in
  good (so :: omark new) (snd (sem_item W m ([(so, xo)], new) [])) w w'
  /\ (forall x F, agree W x w F -> agree W x w' (fst (sem_item W m ([(so, xo)], new) F))).
Proof.
  intros PW M V N. cbn zeta. unfold import_item, sem_item. cbn [List.last fold_left].
  set (t := item_tgt W m [(so, xo)]).
  assert (R : exists root step,
    (let '(root, val) := scope_get W (mod_scope W e) xo in
     let root := if found (root, val) then root else Some (ESel (DRef so xo) d) in
     let '(root, step) := extract_ref root in (root, step, val)) = (root, step, None)
    /\ (forall dd, tgt_of_ref (mkref dd step root None) = t)
    /\ (forall dd st, texp (ERef dd st root None) = t)
    /\ (forall dd st, plain (ERef dd st root None) = true)).
  { unfold t, item_tgt. destruct m as [f|v|]; [|discriminate|].
    - destruct M as [st ->]. cbn [mod_scope scope_get offers]. rewrite (find_map texp).
      destruct (find xo (w_exports W f)) as [g|] eqn:F.
      + cbn [found option_map]. apply find_in in F. apply PW in F.
        destruct g as [d'|d' s' root' term'|k l|v|v x]; try discriminate; cbn [extract_ref].
        * eexists; eexists. split; [reflexivity|]. repeat split; try reflexivity. intros. exact F.
        * eexists; eexists. split; [reflexivity|].
          assert (Q : forall b, rtgt root' None true = rtgt root' b true \/ exists v, b = Some v /\ root' = None).
          { intros b. destruct root'; [left; reflexivity|]. destruct b; [right; eauto|left; reflexivity]. }
          assert (Q' : rtgt root' None true = rtgt root' term' true).
          { destruct (Q term') as [Q1|[v [-> ->]]]; [exact Q1|discriminate]. }
          repeat split.
          -- intros dd. cbn. exact Q'.
          -- intros dd st'. cbn. exact Q'.
          -- intros dd st'. cbn in *. destruct root' as [[]|]; auto.
        * eexists; eexists. split; [reflexivity|]. repeat split; reflexivity.
        * eexists; eexists. split; [reflexivity|]. repeat split; reflexivity.
      + cbn. eexists; eexists. split; [reflexivity|]. repeat split; reflexivity.
    - cbn in M. subst e. cbn. eexists; eexists. split; [reflexivity|]. repeat split; reflexivity. }
  destruct R as [root [step [R1 [R2 [R3 R4]]]]].
  destruct (scope_get W (mod_scope W e) xo) as [r0 v0]. cbv beta iota zeta in R1.
  destruct (extract_ref (if found (r0, v0) then r0 else Some (ESel (DRef so xo) d))) as [ra sa].
  injection R1 as -> -> ->. cbn [r_root r_term].
  destruct new as [[sn xn]|]; cbn [omark] in *.
  - cbn [snd fst]. split.
    + eapply good_equiv; [| |eapply (good_seq [so] [sn] [here so t] [here sn t])].
      * apply incl_refl.
      * intros u. tauto.
      * apply (good_resolve so (mkref (DImport so xo) step root None) t w). apply fits_ref; [reflexivity|]. apply R2.
      * eapply good_equiv; [| |eapply (good_seq [sn] [] [here sn t] [])].
        -- apply incl_refl.
        -- intros u. tauto.
        -- apply (good_resolve sn (mkref (DAlias sn xn) (Some (EDecl (DImport so xo))) root None) t). apply fits_ref; [reflexivity|]. unfold tgt_of_ref. cbn [r_root r_term r_step].
           specialize (R3 (DAlias sn xn) None). exact R3.
        -- apply good_insert. apply R4.
        -- intros ? _ [].
      * intros y [<-|[]] [E|[]]. subst. inversion N as [|? ? N1 _]. apply N1. now left.
    + intros x F A. apply agree_insert; [symmetry; apply R3|]. exact A.
  - cbn [snd fst]. split.
    + eapply good_equiv; [| |eapply (good_seq [so] [] [here so t] [])].
      * apply incl_refl.
      * intros u. tauto.
      * apply (good_resolve so (mkref (DImport so xo) step root None) t w). apply fits_ref; [reflexivity|]. apply R2.
      * apply good_insert. apply R4.
      * intros ? _ [].
    + intros x F A. apply agree_insert; [symmetry; apply R3|]. exact A.
Qed.

Lemma sem_item_uses W m it E F : snd (sem_item W m it E) = snd (sem_item W m it F).
Proof. destruct it as [path [[sn xn]|]]; cbn; destruct (List.last path (0, 0)); reflexivity. Qed.

Lemma NoDup_app_l {A} (a b : list A) : NoDup (a ++ b) -> NoDup a.
Proof.
  induction a as [|x a IH]; intros H; [constructor|]. inversion H; subst. constructor.
  - rewrite in_app_iff in *. tauto.
  - auto.
Qed.

Lemma NoDup_app_r {A} (a b : list A) : NoDup (a ++ b) -> NoDup b.
Proof. induction a as [|x a IH]; intros H; [exact H|]. inversion H; auto. Qed.

Lemma NoDup_app_d {A} (a b : list A) : NoDup (a ++ b) -> forall x, In x a -> In x b -> False.
Proof.
  induction a as [|y a IH]; intros H x; [intros []|]. inversion H as [|? ? H1 H2]; subst.
  intros [<-|I] J; [apply H1, in_app_iff; now right|]. eapply IH; eauto.
Qed.

Lemma items_ok W m e d l : forall w,
  plain_world W -> mod_expr W m e -> (match m with MVal _ => false | _ => true end) = true ->
  forallb (fun '(path, _) => match path with [_] => true | _ => false end) l = true ->
  NoDup (im_marks (Items l)) ->
  let w' := import_decls W (mod_scope W e) d l w in
  (forall F, good (im_marks (Items l)) (snd (sem_items W m l F)) w w')
  /\ (forall x F, agree W x w F -> agree W x w' (fst (sem_items W m l F))).
Proof.
  induction l as [|[path new] l IH]; intros w PW M V T N; cbn zeta.
  - split; [intros F; apply good_refl|auto].
  - cbn [forallb] in T. apply andb_true_iff in T. destruct T as [T1 T2].
    destruct path as [|[so xo] [|]]; try discriminate.
    cbn [im_marks map concat] in N. change (map fst [(so, xo)] ++ omark new) with (so :: omark new) in N.
    pose proof (NoDup_app_l _ _ N) as N1. pose proof (NoDup_app_r _ _ N) as N2.
    destruct (item_ok W m e d so xo new w PW M V N1) as [I1 I2].
    destruct (IH (import_item W (mod_scope W e) d ([(so, xo)], new) w) PW M V T2 N2) as [J1 J2].
    cbn [import_decls fold_left] in *. split.
    + intros F. cbn [sem_items]. destruct (sem_item W m ([(so, xo)], new) F) as [E1 u1] eqn:S.
      specialize (J1 E1). destruct (sem_items W m l E1) as [E2 u2]. cbn [snd].
      change (im_marks (Items (([(so, xo)], new) :: l))) with ((so :: omark new) ++ im_marks (Items l)).
      eapply good_seq; [|exact J1|apply (NoDup_app_d _ _ N)].
      rewrite (sem_item_uses W m _ [] F) in I1. rewrite S in I1. exact I1.
    + intros x F A. cbn [sem_items]. specialize (I2 x F A).
      destruct (sem_item W m ([(so, xo)], new) F) as [E1 u1]. specialize (J2 x E1 I2).
      destruct (sem_items W m l E1) as [E2 u2]. exact J2.
Qed.

Lemma mod_plain W m e d st : mod_expr W m e -> plain (ERef d st e None) = true.
Proof.
  destruct m; cbn; [intros [? ->]|intros [-> _]|intros ->]; reflexivity.
Qed.

Lemma mod_texp W m e d st : mod_expr W m e -> texp (ERef d st e None) = mtgt m.
Proof.
  destruct m; cbn; [intros [? ->]|intros [-> _]|intros ->]; reflexivity.
Qed.

Lemma mod_fits W m e d : local d = false -> mod_expr W m e -> (e <> None) -> fits (mkref d e e None) (mtgt m).
Proof.
  intros L M Q. apply fits_ref; [exact L|]. unfold tgt_of_ref. cbn.
  destruct m; cbn in *; [destruct M as [? ->]|destruct M as [-> _]|subst]; try reflexivity. congruence.
Qed.

Lemma mod_silent W m e s : mod_expr W m e -> silent (mkref (DModImport s) e e None).
Proof.
  intros M d L. unfold is_ref. cbn [r_decl r_root].
  destruct (decl_eq_dec (DModImport s) d) as [<-|]; [discriminate|]. cbn [orb].
  destruct m; cbn in *; [destruct M as [? ->]|destruct M as [-> _]|subst]; try reflexivity.
  destruct (decl_eq_dec (DMod f x) d) as [<-|]; [discriminate|reflexivity].
Qed.

Lemma import_ok W n E s c new im w :
  2 <= n -> plain_world W -> tame_import W E c new im = true -> plainw w ->
  NoDup (marks (Import s c new im)) ->
  (forall x, In x (src_names c) -> x <> 0 -> agree W x w E) ->
  let w' := check_module_import W n s c new im w in
  good (marks (Import s c new im)) (snd (sem_import W c new im E)) w w'
  /\ (forall x, agree W x w E -> agree W x w' (fst (sem_import W c new im E))).
Proof.
  intros N PW T P ND A. unfold tame_import in T. apply andb_true_iff in T. destruct T as [T T2].
  apply andb_true_iff in T. destruct T as [T1 TN].
  destruct (check_import_ok W n E c w N T1 P A) as [w1 [e [C1 [C2 [C3 [C4 [C5 C6]]]]]]].
  cbn zeta. unfold check_module_import, sem_import. rewrite C1.
  set (m := modof W E c) in *. set (p := path_uses c) in *.
  set (tr := src_files c ++ src_uses W true E c) in *. set (u := tr ++ p) in *.
  cbn [marks] in ND. inversion ND as [|? ? ND1 ND2]; subst.
  assert (A1 : forall x, agree W x w E -> agree W x w1 E)
    by (intros x H; unfold agree, srch in *; now rewrite C3, C4).
  (* the rest, once the module is bound *)
  assert (REST : forall d w2 E1 u1 mk,
    good mk (u ++ u1) w w2 -> incl mk (s :: src_marks c ++ omark new) ->
    (forall x, agree W x w E -> agree W x w2 E1) ->
    good (s :: src_marks c ++ omark new ++ im_marks im)
      (snd match im with
           | Whole => (E1, u ++ u1)
           | Star => (offers W m ++ E1, u ++ u1)
           | Items l => let '(E2, u2) := sem_items W m l E1 in (E2, u ++ u1 ++ u2)
           end) w
      match im with
      | Whole => w2
      | Star => push_scope W (mod_scope W e) w2
      | Items l => import_decls W (mod_scope W e) d l w2
      end
    /\ (forall x, agree W x w E -> agree W x
      match im with
      | Whole => w2
      | Star => push_scope W (mod_scope W e) w2
      | Items l => import_decls W (mod_scope W e) d l w2
      end
      (fst match im with
           | Whole => (E1, u ++ u1)
           | Star => (offers W m ++ E1, u ++ u1)
           | Items l => let '(E2, u2) := sem_items W m l E1 in (E2, u ++ u1 ++ u2)
           end))).
  { intros d w2 E1 u1 mk G I AG. destruct im as [| |l].
    - cbn [snd fst im_marks]. rewrite app_nil_r. split; [|exact AG].
      eapply good_equiv; [exact I|intros y; apply iff_refl|exact G].
    - cbn [snd fst im_marks]. rewrite app_nil_r. split.
      + eapply good_equiv; [| |eapply (good_seq mk [] (u ++ u1) [])].
        * rewrite app_nil_r. exact I.
        * intros y. rewrite app_nil_r. tauto.
        * exact G.
        * eapply good_push; eauto.
        * intros ? _ [].
      + intros x H. eapply agree_push; eauto.
    - apply andb_true_iff in T2. destruct T2 as [T2 T3].
      assert (NI : NoDup (im_marks (Items l))) by (eapply NoDup_app_r, NoDup_app_r; exact ND2).
      destruct (items_ok W m e d l w2 PW C5 T2 T3 NI) as [J1 J2].
      specialize (J1 E1).
      assert (AG' : forall x, agree W x w E -> agree W x (import_decls W (mod_scope W e) d l w2) (fst (sem_items W m l E1)))
        by (intros x H; apply J2; auto).
      destruct (sem_items W m l E1) as [E2 u2]. cbn [snd fst] in *. split; [|exact AG'].
      eapply good_equiv; [| |eapply (good_seq mk _ (u ++ u1) u2); [exact G|exact J1|]].
      + intros y. rewrite in_app_iff. cbn [In]. rewrite !in_app_iff.
        intros [H|H]; [|tauto]. apply I in H. cbn [In] in H. rewrite in_app_iff in H. tauto.
      + intros y. rewrite !in_app_iff. tauto.
      + intros y H1 H2. apply I in H1. destruct H1 as [<-|H1].
        * apply ND1. rewrite !in_app_iff. tauto.
        * rewrite app_assoc in ND2. eapply (NoDup_app_d _ _ ND2); eauto. }
  assert (DEP : forall mk u1 w2, good mk (p ++ u1) w w2 -> incl (src_marks c) mk -> good mk (u ++ u1) w (depend e w2)).
  { intros mk u1 w2 G I. unfold u. rewrite <- app_assoc.
    assert (TR : forall k s0 t, In (k, s0, t) tr -> k = true /\ In s0 mk /\ forall f, t = TMod f -> m = MFile f).
    { intros k s0 t J. unfold tr, m in *. destruct c as [s1 [f|] stem|s1 x|? ? ?|]; try discriminate; cbn in J; try tauto.
      - destruct J as [J|[]]. injection J as <- <- <-. split; [reflexivity|]. split; [apply I; now left|].
        intros g [= <-]. reflexivity.
      - destruct J as [J|[]]. injection J as <- <- <-. split; [reflexivity|]. split; [apply I; now left|].
        intros g Q. cbn [modof]. rewrite Q. reflexivity. }
    destruct m as [f|v|] eqn:M; cbn [mod_expr] in C5.
    - destruct C5 as [st0 ->]. cbn [depend]. apply good_dep; [exact G|].
      intros k s0 t J. destruct (TR _ _ _ J) as [X [Y Z]]. split; [exact X|]. split; [exact Y|].
      intros g Q. specialize (Z g Q). congruence.
    - destruct C5 as [-> _]. cbn [depend]. apply good_tr; [exact G|].
      intros k s0 t J. destruct (TR _ _ _ J) as [X [Y Z]]. split; [exact X|]. split; [exact Y|].
      intros g Q. specialize (Z g Q). congruence.
    - subst e. cbn [depend]. apply good_tr; [exact G|].
      intros k s0 t J. destruct (TR _ _ _ J) as [X [Y Z]]. split; [exact X|]. split; [exact Y|].
      intros g Q. specialize (Z g Q). congruence. }
  assert (ADEP : forall x w2 F, agree W x w2 F -> agree W x (depend e w2) F)
    by (intros x w2 F H; unfold depend; destruct e as [[[]| | | |]|]; exact H).
  destruct new as [[sn xn]|].
  - (* a new name *)
    cbn [omark] in *.
    assert (NE : e <> None) by (destruct m; [destruct C5 as [? ->]|destruct C5 as [-> _]|discriminate]; congruence).
    apply (REST (EDecl (DModAlias sn xn)) _ ((xn, mtgt m) :: E) [here sn (mtgt m)] (src_marks c ++ [sn])).
    + apply DEP; [|intros y H; apply in_or_app; now left].
      eapply good_equiv; [| |eapply (good_seq (src_marks c) [sn] p [here sn (mtgt m)])].
      * apply incl_refl.
      * intros y. tauto.
      * exact C2.
      * eapply good_equiv; [| |eapply (good_seq [] [sn] [] [here sn (mtgt m)])].
        -- apply incl_refl.
        -- intros y. tauto.
        -- apply good_insert. eapply mod_plain; eauto.
        -- unfold resolve_as. cbn [r_decl dspan]. apply good_resolve. apply (mod_fits W); auto.
        -- intros ? [].
      * intros y H [<-|[]]. apply (NoDup_app_d _ _ ND2 sn H). now left.
    + intros y H. right. exact H.
    + intros x H. apply ADEP. unfold resolve_as. apply agree_resolve. apply agree_insert; [symmetry; eapply mod_texp; eauto|auto].
  - cbn [omark app] in *.
    assert (PLAIN : good [s] [] w1 (resolve_as (mkref (DModImport s) e e None) w1)
      -> good (src_marks c ++ [s]) (u ++ []) w (depend e (resolve_as (mkref (DModImport s) e e None) w1))).
    { intros G. apply DEP; [|intros y H; apply in_or_app; now left]. eapply good_seq; [exact C2|exact G|].
      intros y H [<-|[]]. apply ND1. rewrite in_app_iff. now left. }
    assert (SIL : good [s] [] w1 (resolve_as (mkref (DModImport s) e e None) w1))
      by (unfold resolve_as; cbn [r_decl dspan]; apply good_silent; eapply mod_silent; eauto).
    assert (INC : incl (src_marks c ++ [s]) (s :: src_marks c ++ [])).
    { intros y. cbn [In]. rewrite !in_app_iff. cbn [In]. tauto. }
    destruct im as [| |l].
    + destruct c as [sc [f|] stem|sc x|? ? ?|]; try discriminate.
      * specialize (C6 _ _ _ eq_refl). subst e. cbn [src_span dname].
        apply (REST (EDecl (DStem sc stem)) _ ((stem, TMod f) :: E) [] [sc]).
        -- apply DEP; [|apply incl_refl]. rewrite app_nil_r. unfold resolve_as. cbn [r_decl dspan].
           eapply (good_again sc _ (TMod f) _ _ _ p); [| | |reflexivity].
           ++ eapply good_equiv; [| |eapply (good_seq (src_marks (SFile sc (Some f) stem)) [] p [])].
              ** apply incl_refl.
              ** intros y. rewrite app_nil_r. tauto.
              ** exact C2.
              ** apply good_insert. reflexivity.
              ** intros ? _ [].
           ++ apply fits_ref; reflexivity.
           ++ intros y [<-|[]]. reflexivity.
        -- intros y [<-|[]]. right. now left.
        -- intros x H. apply ADEP. unfold resolve_as. apply agree_resolve. apply agree_insert; [reflexivity|auto].
      * assert (e = None) by exact C5. subst e.
        apply (REST (EDecl (DModImport s)) _ E [] (src_marks (SFile sc None stem) ++ [s])); auto.
    + replace (match c with SFile _ (Some _) _ => _ | _ => _ end) with (E, @nil use) by (destruct c as [? [|] ?| | |]; reflexivity).
      apply (REST (EDecl (DModImport s)) _ E [] (src_marks c ++ [s])); auto.
      intros x H. apply ADEP. unfold resolve_as. apply agree_resolve. auto.
    + apply (REST (EDecl (DModImport s)) _ E [] (src_marks c ++ [s])); auto.
      intros x H. apply ADEP. unfold resolve_as. apply agree_resolve. auto.
Qed.
