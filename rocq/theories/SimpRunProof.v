From Coq Require Import List Arith Bool Lia Sorted Permutation.
From Verif Require Import SimpModel SimpSpec SimpProof.
Import ListNotations.

(** ** Runs as derivations *)

Definition among (d : option nat) (l : list nat) : bool := match d with Some d => mem d l | None => false end.
Definition spol (k : skind) (pol : bool) : bool := match k with SFunc => pol | _ => negb pol end.

Section Run.
  Variable ord : ty -> ty -> bool.
  Variable principal : bool.
  Variable s : list nat * list nat.
  Variable V : vars.

  Inductive run : bool -> ty -> cache -> ty -> cache -> Prop :=
  | run_any pol c : run pol TAny c TAny c
  | run_leaf pol n c : run pol (TLeaf n) c (TLeaf n) c
  | run_hit pol v c r : get v c = Some r -> run pol (TVar v) c r c
  | run_miss pol v c l u l' u' c1 c2 : get v c = None -> get v V = Some (l, u) ->
      run_part (negb principal || (pol && negb (among (Some v) (snd s)))) pol l ((v, TAny) :: c) l' c1 ->
      run_part (negb principal || (negb pol && negb (among (Some v) (fst s)))) (negb pol) u c1 u' c2 ->
      run pol (TVar v) c (collapse ord (dedup l') (dedup u')) ((v, collapse ord (dedup l') (dedup u')) :: c2)
  | run_Let pol l u c l' u' c1 c2 :
      run_part (negb principal || (pol && negb (among None (snd s)))) pol l c l' c1 ->
      run_part (negb principal || (negb pol && negb (among None (fst s)))) (negb pol) u c1 u' c2 ->
      run pol (TLet l u) c (collapse ord (dedup l') (dedup u')) c2
  | run_union pol l c l' c1 : run_seq pol l c l' c1 ->
      run pol (TUnion l) c (from_types ord (filter (fun t => negb (is_any t)) l')) c1
  | run_comp pol k l c l' c1 : run_seq pol l c l' c1 -> run pol (TComp k l) c (TComp k l') c1
  | run_sig pol k sh l o c l' c1 o' c2 : run_seq (negb (spol k pol)) l c l' c1 -> run_opt (spol k pol) o c1 o' c2 ->
      run pol (TSig k sh l o) c (TSig k sh l' o') c2
  | run_with pol f sh l o c f' c1 l' c2 o' c3 : run pol f c f' c1 -> run_seq (negb (negb pol)) l c1 l' c2 ->
      run_opt (negb pol) o c2 o' c3 -> run pol (TWith f sh l o) c (TWith f' sh l' o') c3
  with run_seq : bool -> list ty -> cache -> list ty -> cache -> Prop :=
  | run_nil pol c : run_seq pol [] c [] c
  | run_cons pol t l c r c1 l' c2 : run pol t c r c1 -> run_seq pol l c1 l' c2 -> run_seq pol (t :: l) c (r :: l') c2
  with run_opt : bool -> option ty -> cache -> option ty -> cache -> Prop :=
  | run_none pol c : run_opt pol None c None c
  | run_some pol t c r c1 : run pol t c r c1 -> run_opt pol (Some t) c (Some r) c1
  with run_part : bool -> bool -> list ty -> cache -> list ty -> cache -> Prop :=
  | part_no pol l c : run_part false pol l c [] c
  | part_yes pol l c l' c1 : run_seq pol l c l' c1 -> run_part true pol l c l' c1.

  Definition good (f : bool -> ty -> cache -> option (ty * cache)) (t : ty) : Prop :=
    forall pol c r c', f pol t c = Some (r, c') -> run pol t c r c'.

  Lemma seq_run : forall f l, Forall (good f) l -> forall pol c l' c',
    tr_seq (f pol) l c = Some (l', c') -> run_seq pol l c l' c'.
  Proof.
    intros f l H. induction H as [|t l Ht Hl IH]; intros pol c l' c' E; cbn [tr_seq] in E.
    - inversion E; subst. constructor.
    - destruct (f pol t c) as [(r, c1)|] eqn:E1; [|discriminate].
      destruct (tr_seq (f pol) l c1) as [(rs, c2)|] eqn:E2; [|discriminate]. inversion E; subst.
      econstructor; eauto.
  Qed.

  Lemma opt_run : forall f o, opt_prop (good f) o -> forall pol c o' c',
    tr_opt (f pol) o c = Some (o', c') -> run_opt pol o c o' c'.
  Proof.
    intros f [t|] H pol c o' c' E; cbn in *.
    - destruct (f pol t c) as [(r, c1)|] eqn:E1; [|discriminate]. inversion E; subst. constructor. auto.
    - inversion E; subst. constructor.
  Qed.

  Lemma let_run : forall f l u, Forall (good f) l -> Forall (good f) u -> forall d pol c r c',
    transform_let ord principal s f l u d pol c = Some (r, c') ->
    exists l' c1 u', run_part (negb principal || (pol && negb (among d (snd s)))) pol l c l' c1 /\
      run_part (negb principal || (negb pol && negb (among d (fst s)))) (negb pol) u c1 u' c' /\
      r = collapse ord (dedup l') (dedup u').
  Proof.
    intros f l u Hl Hu d pol c r c' E. unfold transform_let in E. fold (among d (snd s)) in E. fold (among d (fst s)) in E.
    assert (HP : forall g b p q (c : cache) x y, Forall (good g) q -> (if b : bool then tr_seq (g p) q c else Some ([], c)) = Some (x, y) -> run_part b p q c x y).
    { intros g [] p q c0 x y Hq H; [constructor; eapply seq_run; eauto|]. inversion H; subst. constructor. }
    destruct (if negb principal || (pol && negb (among d (snd s))) then tr_seq (f pol) l c else Some ([], c)) as [(l', c1)|] eqn:E1; [|discriminate].
    destruct (if negb principal || (negb pol && negb (among d (fst s))) then tr_seq (f (negb pol)) u c1 else Some ([], c1)) as [(u', c2)|] eqn:E2; [|discriminate].
    inversion E; subst. exists l', c1, u'. split; [eapply HP; eauto|]. split; [eapply HP; eauto|]. reflexivity.
  Qed.

  Lemma sig_run : forall f l o, Forall (good f) l -> opt_prop (good f) o -> forall pol c l' o' c',
    transform_sig f l o pol c = Some (l', o', c') ->
    exists c1, run_seq (negb pol) l c l' c1 /\ run_opt pol o c1 o' c'.
  Proof.
    intros f l o Hl Ho pol c l' o' c' E. unfold transform_sig in E.
    destruct (tr_seq (f (negb pol)) l c) as [(x, c1)|] eqn:E1; [|discriminate].
    destruct (tr_opt (f pol) o c1) as [(y, c2)|] eqn:E2; [|discriminate]. inversion E; subst.
    exists c1. split; [eapply seq_run|eapply opt_run]; eauto.
  Qed.

  Lemma at_run : forall var, (forall v, good (fun pol t c => match t with TVar w => var w pol c | _ => None end) (TVar v)) ->
    forall t, good (transform_at ord principal s var) t.
  Proof.
    intros var Hv. induction t as [|m|v|l u Hl Hu|l Hl|k l Hl|k sh l o Hl Ho|f sh l o Hf Hl Ho] using ty_ind2;
      intros pol c r c' E; cbn [transform_at] in E.
    - inversion E; subst. constructor.
    - inversion E; subst. constructor.
    - apply (Hv v); auto.
    - apply let_run in E; auto. destruct E as (l' & c1 & u' & P1 & P2 & ->). econstructor; eauto.
    - destruct (tr_seq _ l c) as [(l', c1)|] eqn:E1; [|discriminate]. inversion E; subst. constructor. eapply seq_run; eauto.
    - destruct (tr_seq _ l c) as [(l', c1)|] eqn:E1; [|discriminate]. inversion E; subst. constructor. eapply seq_run; eauto.
    - destruct (transform_sig _ l o _ c) as [((l', o'), c1)|] eqn:E1; [|discriminate]. inversion E; subst.
      apply sig_run in E1; auto. destruct E1 as (c2 & P1 & P2). econstructor; eauto.
    - destruct (transform_at ord principal s var pol f c) as [(g, c1)|] eqn:E0; [|discriminate].
      destruct (transform_sig _ l o _ c1) as [((l', o'), c2)|] eqn:E1; [|discriminate]. inversion E; subst.
      apply sig_run in E1; auto. destruct E1 as (c3 & P1 & P2). econstructor; eauto.
  Qed.

  Lemma var_run : forall n v pol c r c', transform_var ord principal s n V v pol c = Some (r, c') -> run pol (TVar v) c r c'.
  Proof.
    induction n as [|n IH]; intros v pol c r c' E; cbn [transform_var] in E.
    - destruct (get v c) eqn:G; [inversion E; subst; constructor; auto|]. destruct (get v V) as [(l, u)|]; discriminate.
    - destruct (get v c) eqn:G; [inversion E; subst; constructor; auto|].
      destruct (get v V) as [(l, u)|] eqn:GV; [|discriminate].
      match type of E with match ?x with _ => _ end = _ => destruct x as [(r1, c1)|] eqn:E1; [|discriminate] end.
      inversion E; subst. apply let_run in E1; [|apply Forall_forall; intros; apply at_run; intros w pol' c0 r0 c0' X; apply IH; exact X ..].
      destruct E1 as (l' & c2 & u' & P1 & P2 & ->). econstructor; eauto.
  Qed.

  Lemma transform_run : forall n t pol c r c', transform_at ord principal s (transform_var ord principal s n V) pol t c = Some (r, c') ->
    run pol t c r c'.
  Proof. intros n t. apply at_run. intros v pol c r c' E. eapply var_run; eauto. Qed.
End Run.

Scheme run_mut := Minimality for run Sort Prop
  with seq_mut := Minimality for run_seq Sort Prop
  with opt_mut := Minimality for run_opt Sort Prop
  with part_mut := Minimality for run_part Sort Prop.
Combined Scheme run_ind4 from run_mut, seq_mut, opt_mut, part_mut.

(** ** The transformation does not fail *)

Definition grown (c c' : cache) : Prop := incl (map fst c) (map fst c').

Section Total.
  Variable ord : ty -> ty -> bool.
  Variable principal : bool.
  Variable s : list nat * list nat.
  Variable V : vars.
  Hypothesis HC : closed V.

  Definition fine (n : nat) (f : bool -> ty -> cache -> option (ty * cache)) (t : ty) : Prop :=
    forall pol c, left_of V (map fst c) <= n -> exists r c', f pol t c = Some (r, c') /\ grown c c'.

  Lemma left_grown : forall n c c', left_of V (map fst c) <= n -> grown c c' -> left_of V (map fst c') <= n.
  Proof. intros n c c' H G. pose proof (left_mono V _ _ G). lia. Qed.

  Lemma seq_fine : forall n f l, Forall (fine n f) l -> forall pol c, left_of V (map fst c) <= n ->
    exists l' c', tr_seq (f pol) l c = Some (l', c') /\ grown c c'.
  Proof.
    intros n f l H. induction H as [|t l Ht Hl IH]; intros pol c Hc; cbn [tr_seq].
    - eexists _, _. split; eauto. apply incl_refl.
    - destruct (Ht pol c Hc) as (r & c1 & -> & G1).
      destruct (IH pol c1 (left_grown _ _ _ Hc G1)) as (l' & c2 & -> & G2).
      eexists _, _. split; eauto. eapply incl_tran; eauto.
  Qed.

  Lemma opt_fine : forall n f o, opt_prop (fine n f) o -> forall pol c, left_of V (map fst c) <= n ->
    exists o' c', tr_opt (f pol) o c = Some (o', c') /\ grown c c'.
  Proof.
    intros n f [t|] H pol c Hc; cbn in *.
    - destruct (H pol c Hc) as (r & c1 & -> & G1). eexists _, _. split; eauto.
    - eexists _, _. split; eauto. apply incl_refl.
  Qed.

  Lemma let_fine : forall n f l u, Forall (fine n f) l -> Forall (fine n f) u -> forall d pol c, left_of V (map fst c) <= n ->
    exists r c', transform_let ord principal s f l u d pol c = Some (r, c') /\ grown c c'.
  Proof.
    intros n f l u Hl Hu d pol c Hc. unfold transform_let.
    assert (HP : forall (b : bool) p q c, Forall (fine n f) q -> left_of V (map fst c) <= n ->
      exists l' c', (if b then tr_seq (f p) q c else Some ([], c)) = Some (l', c') /\ grown c c').
    { intros [] p q c0 Hq H0; [apply seq_fine with (n := n); auto|]. eexists _, _. split; eauto. apply incl_refl. }
    match goal with |- context [if ?b then tr_seq (f pol) l c else _] => destruct (HP b pol l c Hl Hc) as (l' & c1 & E1 & G1) end.
    unfold cache in *. rewrite E1.
    match goal with |- context [if ?b then tr_seq (f (negb pol)) u c1 else _] =>
      destruct (HP b (negb pol) u c1 Hu (left_grown _ _ _ Hc G1)) as (u' & c2 & E2 & G2) end.
    unfold cache in *. rewrite E2.
    eexists _, _. split; eauto. eapply incl_tran; eauto.
  Qed.

  Lemma sig_fine : forall n f l o, Forall (fine n f) l -> opt_prop (fine n f) o -> forall pol c, left_of V (map fst c) <= n ->
    exists l' o' c', transform_sig f l o pol c = Some (l', o', c') /\ grown c c'.
  Proof.
    intros n f l o Hl Ho pol c Hc. unfold transform_sig.
    destruct (seq_fine n f l Hl (negb pol) c Hc) as (l' & c1 & -> & G1).
    destruct (opt_fine n f o Ho pol c1 (left_grown _ _ _ Hc G1)) as (o' & c2 & -> & G2).
    eexists _, _, _. split; eauto. eapply incl_tran; eauto.
  Qed.

  Lemma at_fine : forall n var, (forall v pol c, In v (map fst V) -> left_of V (map fst c) <= n ->
      exists r c', var v pol c = Some (r, c') /\ grown c c') ->
    forall t, known V t -> fine n (transform_at ord principal s var) t.
  Proof.
    intros n var Hv. induction t as [|m|v|l u Hl Hu|l Hl|k l Hl|k sh l o Hl Ho|f sh l o Hf Hl Ho] using ty_ind2;
      intros HK pol c Hc; cbn [transform_at].
    - eexists _, _. split; eauto. apply incl_refl.
    - eexists _, _. split; eauto. apply incl_refl.
    - apply Hv; auto. apply HK. left; auto.
    - assert (Kl : Forall (known V) l) by (apply known_in; intros; apply HK; cbn; apply in_or_app; auto).
      assert (Ku : Forall (known V) u) by (apply known_in; intros; apply HK; cbn; apply in_or_app; auto).
      apply let_fine with (n := n); auto; rewrite Forall_forall in *; intros; auto.
    - assert (Kl : Forall (known V) l) by (apply known_in; intros; apply HK; auto).
      destruct (seq_fine n (transform_at ord principal s var) l) with (pol := pol) (c := c) as (l' & c1 & -> & G); eauto.
      rewrite Forall_forall in *; intros; auto.
    - assert (Kl : Forall (known V) l) by (apply known_in; intros; apply HK; auto).
      destruct (seq_fine n (transform_at ord principal s var) l) with (pol := pol) (c := c) as (l' & c1 & -> & G); eauto.
      rewrite Forall_forall in *; intros; auto.
    - assert (Kl : Forall (known V) l) by (apply known_in; intros; apply HK; cbn; apply in_or_app; auto).
      destruct (sig_fine n (transform_at ord principal s var) l o) with (pol := spol k pol) (c := c) as (l' & o' & c1 & E & G); auto.
      { rewrite Forall_forall in *; intros; auto. }
      { destruct o as [b|]; cbn in *; auto. apply Ho. intros v Hi. apply HK. cbn. apply in_or_app; auto. }
      unfold spol in E. rewrite E. eauto.
    - assert (Kl : Forall (known V) l) by (apply known_in; intros; apply HK; cbn; apply in_or_app; right; apply in_or_app; auto).
      destruct (Hf) with (pol := pol) (c := c) as (g & c1 & -> & G1); auto.
      { intros v Hi. apply HK. cbn. apply in_or_app; auto. }
      destruct (sig_fine n (transform_at ord principal s var) l o) with (pol := negb pol) (c := c1) as (l' & o' & c2 & -> & G); auto.
      { rewrite Forall_forall in *; intros; auto. }
      { destruct o as [b|]; cbn in *; auto. apply Ho. intros v Hi. apply HK. cbn. apply in_or_app; right; apply in_or_app; auto. }
      { eapply left_grown; eauto. }
      eexists _, _. split; eauto. eapply incl_tran; eauto.
  Qed.

  Lemma var_fine : forall n v pol c, In v (map fst V) -> left_of V (map fst c) <= n ->
    exists r c', transform_var ord principal s n V v pol c = Some (r, c') /\ grown c c'.
  Proof.
    induction n as [|n IH]; intros v pol c HI Hc; cbn [transform_var].
    - destruct (get v c) as [r|] eqn:G.
      + exists r, c. split; auto. apply incl_refl.
      + exfalso. assert (HN : ~ In v (map fst c)) by (intro X; apply get_some in X; destruct X; congruence).
        pose proof (left_pos V _ v HI HN). lia.
    - destruct (get v c) as [r|] eqn:G.
      + exists r, c. split; auto. apply incl_refl.
      + assert (HN : ~ In v (map fst c)) by (intro X; apply get_some in X; destruct X; congruence).
        pose proof (left_less V _ v HI HN) as HL.
        destruct (proj1 (get_some _ V v) HI) as ((l, u) & E). rewrite E. apply get_in in E.
        assert (HK : forall b, In b (l ++ u) -> known V b) by (destruct HC as (_ & H); intros; eapply H; eauto).
        destruct (let_fine n (transform_at ord principal s (transform_var ord principal s n V)) l u)
          with (d := Some v) (pol := pol) (c := (v, TAny) :: c) as (r & c1 & -> & G1).
        { apply Forall_forall. intros b Hb. apply at_fine; auto. apply HK, in_or_app; auto. }
        { apply Forall_forall. intros b Hb. apply at_fine; auto. apply HK, in_or_app; auto. }
        { cbn [map fst]. lia. }
        eexists _, _. split; eauto. intros x Hx. right. apply G1. right. auto.
  Qed.

  Lemma transform_total : forall t, known V t -> exists r c,
    transform_at ord principal s (transform_var ord principal s (length V) V) true t [] = Some (r, c).
  Proof.
    intros t HK. destruct (at_fine (length V) _ (var_fine (length V)) t HK true []) as (r & c & H & _); eauto.
    cbn [map]. apply left_all.
  Qed.
End Total.

(** ** What is in a result *)

Section Parts.
  Context {A : Type}.
  Variable g : ty -> list A.
  Hypothesis g_any : g TAny = [].
  Hypothesis g_let : forall l u, g (TLet l u) = flat_map g l ++ flat_map g u.
  Hypothesis g_union : forall l, g (TUnion l) = flat_map g l.

  Lemma flat_same : forall l l' x, (forall t, In t l <-> In t l') -> (In x (flat_map g l) <-> In x (flat_map g l')).
  Proof. intros l l' x H. rewrite !in_flat_map. split; intros (t & Ht & Hx); exists t; split; auto; apply H; auto. Qed.

  Lemma collapse_parts : forall ord l u x, In x (g (collapse ord (dedup l) (dedup u))) <-> In x (flat_map g l ++ flat_map g u).
  Proof.
    intros ord l u x.
    assert (H : forall a b, In x (g (collapse ord a b)) <-> In x (flat_map g a ++ flat_map g b)).
    { intros a b. assert (HL : In x (g (TLet (sort ord a) (sort ord b))) <-> In x (flat_map g a ++ flat_map g b)).
      { rewrite g_let, !in_app_iff, (flat_same (sort ord a) a), (flat_same (sort ord b) b); [tauto|intro; apply sort_in ..]. }
      unfold collapse. destruct a as [|t [|t' a]], b as [|w [|w' b]]; try exact HL; cbn [flat_map]; rewrite ?app_nil_r; try tauto.
      rewrite g_any. tauto. }
    rewrite H, !in_app_iff, (flat_same (dedup l) l), (flat_same (dedup u) u); [tauto|intro; apply dedup_in ..].
  Qed.

  Lemma union_parts : forall ord l x, In x (g (from_types ord (filter (fun t => negb (is_any t)) l))) <-> In x (flat_map g l).
  Proof.
    intros ord l x.
    assert (HF : In x (flat_map g (filter (fun t => negb (is_any t)) l)) <-> In x (flat_map g l)).
    { induction l as [|t l IH]; cbn [filter flat_map]; [tauto|].
      destruct t; cbn [is_any negb flat_map]; rewrite ?in_app_iff, ?IH; try tauto. rewrite g_any. cbn. tauto. }
    rewrite <- HF. destruct (filter (fun t => negb (is_any t)) l) as [|a [|b p]]; cbn [from_types].
    - rewrite g_any. tauto.
    - cbn. rewrite app_nil_r. tauto.
    - rewrite g_union. apply flat_same. intro. apply sort_in.
  Qed.
End Parts.

Definition vparts := collapse_parts tvars eq_refl (fun _ _ => eq_refl).
Definition vunion := union_parts tvars eq_refl (fun _ => eq_refl).
Definition lparts := collapse_parts labels eq_refl (fun _ _ => eq_refl).
Definition lunion := union_parts labels eq_refl (fun _ => eq_refl).

Definition novar (t : ty) : Prop := forall v, ~ In v (tvars t).
Definition novars (c : cache) : Prop := forall v r, get v c = Some r -> novar r.

Lemma novar_list : forall l, Forall novar l -> forall v, ~ In v (flat_map tvars l).
Proof. intros l H v Hi. apply in_flat_map in Hi. destruct Hi as (t & Ht & Hv). rewrite Forall_forall in H. apply (H t Ht v); auto. Qed.

Lemma novars_cons : forall v r c, novar r -> novars c -> novars ((v, r) :: c).
Proof. intros v r c H1 H2 w r' H. cbn in H. destruct (w =? v); [inversion H; subst; auto|eapply H2; eauto]. Qed.

Lemma collapse_novar : forall ord l u, Forall novar l -> Forall novar u -> novar (collapse ord (dedup l) (dedup u)).
Proof.
  intros ord l u Hl Hu v Hv. apply vparts in Hv. apply in_app_iff in Hv. destruct Hv as [Hv|Hv]; revert Hv; apply novar_list; auto.
Qed.

Lemma run_novar : forall ord p s V,
  (forall pol t c r c', run ord p s V pol t c r c' -> novars c -> novar r /\ novars c') /\
  (forall pol l c l' c', run_seq ord p s V pol l c l' c' -> novars c -> Forall novar l' /\ novars c') /\
  (forall pol o c o' c', run_opt ord p s V pol o c o' c' -> novars c -> opt_prop novar o' /\ novars c') /\
  (forall b pol l c l' c', run_part ord p s V b pol l c l' c' -> novars c -> Forall novar l' /\ novars c').
Proof.
  intros ord p s V. apply run_ind4; intros; cbn [opt_prop].
  - split; auto. intros v [].
  - split; auto. intros v [].
  - split; auto. eapply H0; eauto.
  - destruct H2 as (A & B); [apply novars_cons; auto; intros w []|]. destruct H4 as (C & D); auto.
    assert (N : novar (collapse ord (dedup l') (dedup u'))) by (apply collapse_novar; auto).
    split; auto. apply novars_cons; auto.
  - destruct H0 as (A & B); auto. destruct H2 as (C & D); auto. split; auto. apply collapse_novar; auto.
  - destruct H0 as (A & B); auto. split; auto. intros v Hv. apply vunion in Hv. revert Hv; apply novar_list; auto.
  - destruct H0 as (A & B); auto. split; auto. intros v Hv. cbn in Hv. revert Hv; apply novar_list; auto.
  - destruct H0 as (A & B); auto. destruct H2 as (C & D); auto. split; auto. intros v Hv. cbn in Hv. apply in_app_iff in Hv.
    destruct Hv as [Hv|Hv]; [revert Hv; apply novar_list; auto|]. destruct o'; [apply (C v); auto|destruct Hv].
  - destruct H0 as (A & B); auto. destruct H2 as (C & D); auto. destruct H4 as (E & F); auto. split; auto.
    intros v Hv. cbn in Hv. rewrite !in_app_iff in Hv. destruct Hv as [Hv|[Hv|Hv]]; [apply (A v); auto|revert Hv; apply novar_list; auto|].
    destruct o'; [apply (E v); auto|destruct Hv].
  - split; auto.
  - destruct H0 as (A & B); auto. destruct H2 as (C & D); auto.
  - split; auto.
  - auto.
  - split; auto.
  - auto.
Qed.

(** ** Labels: nothing is invented *)

Section Labels.
  Variable ord : ty -> ty -> bool.
  Variable V : vars.
  Hypothesis HN : NoDup (map fst V).

  Definition soundc (c : cache) : Prop := forall v r x, get v c = Some r -> In x (labels r) -> reach V (TVar v) x.
  Definition reaches (l : list ty) (x : label) : Prop := exists t, In t l /\ reach V t x.

  Lemma soundc_cons : forall v r c, (forall x, In x (labels r) -> reach V (TVar v) x) -> soundc c -> soundc ((v, r) :: c).
  Proof.
    intros v r c H1 H2 w r' x H Hx. cbn in H. destruct (Nat.eqb_spec w v); [inversion H; subst; auto|eapply H2; eauto].
  Qed.

  Lemma reach_sub : forall t t' x, reach V t x -> (forall y, In y (labels t) -> In y (labels t')) -> (forall y, In y (tvars t) -> In y (tvars t')) ->
    reach V t' x.
  Proof. intros t t' x H H1 H2. inversion H; subst; [apply reach_here; auto|eapply reach_bound; eauto]. Qed.

  Lemma reaches_sub : forall l t' x, reaches l x -> (forall y, In y (flat_map labels l) -> In y (labels t')) ->
    (forall y, In y (flat_map tvars l) -> In y (tvars t')) -> reach V t' x.
  Proof.
    intros l t' x (t & Ht & H) H1 H2. eapply reach_sub; eauto; intros y Hy; [apply H1|apply H2]; apply in_flat_map; eauto.
  Qed.

  Lemma run_sound : forall p s,
    (forall pol t c r c', run ord p s V pol t c r c' -> soundc c -> (forall x, In x (labels r) -> reach V t x) /\ soundc c') /\
    (forall pol l c l' c', run_seq ord p s V pol l c l' c' -> soundc c -> (forall x, In x (flat_map labels l') -> reaches l x) /\ soundc c') /\
    (forall pol o c o' c', run_opt ord p s V pol o c o' c' -> soundc c ->
       (forall x r, o' = Some r -> In x (labels r) -> exists t, o = Some t /\ reach V t x) /\ soundc c') /\
    (forall b pol l c l' c', run_part ord p s V b pol l c l' c' -> soundc c -> (forall x, In x (flat_map labels l') -> reaches l x) /\ soundc c').
  Proof.
    intros p s. apply run_ind4.
    - intros pol c Hc. split; auto. intros x [].
    - intros pol n c Hc. split; auto. intros x Hx. apply reach_here; auto.
    - intros pol v c r H Hc. split; auto. intros x Hx. eapply Hc; eauto.
    - intros pol v c l u l' u' c1 c2 G GV _ IH1 _ IH2 Hc.
      destruct IH1 as (A & B); [apply soundc_cons; auto; intros x []|]. destruct IH2 as (C & D); auto.
      assert (N : forall x, In x (labels (collapse ord (dedup l') (dedup u'))) -> reach V (TVar v) x).
      { intros x Hx. apply lparts in Hx. apply in_app_iff in Hx. apply get_in in GV.
        destruct Hx as [Hx|Hx]; [destruct (A x Hx) as (t & Ht & Hr)|destruct (C x Hx) as (t & Ht & Hr)];
          eapply reach_bound with (b := t); eauto; try (left; reflexivity); apply in_or_app; auto. }
      split; auto. apply soundc_cons; auto.
    - intros pol l u c l' u' c1 c2 _ IH1 _ IH2 Hc. destruct IH1 as (A & B); auto. destruct IH2 as (C & D); auto.
      split; auto. intros x Hx. apply lparts in Hx. apply in_app_iff in Hx.
      destruct Hx as [Hx|Hx]; [apply A in Hx|apply C in Hx]; eapply reaches_sub; eauto; intros y Hy; cbn; apply in_or_app; auto.
    - intros pol l c l' c1 _ IH Hc. destruct IH as (A & B); auto. split; auto. intros x Hx. apply lunion in Hx.
      apply A in Hx. eapply reaches_sub; eauto.
    - intros pol k l c l' c1 _ IH Hc. destruct IH as (A & B); auto. split; auto. intros x [<-|Hx]; [apply reach_here; left; auto|].
      apply A in Hx. eapply reaches_sub; eauto. intros y Hy. right. auto.
    - intros pol k sh l o c l' c1 o' c2 _ IH1 _ IH2 Hc. destruct IH1 as (A & B); auto. destruct IH2 as (C & D); auto.
      split; auto. intros x [<-|Hx]; [apply reach_here; left; auto|]. apply in_app_iff in Hx. destruct Hx as [Hx|Hx].
      + apply A in Hx. eapply reaches_sub; eauto; intros y Hy; [right|]; apply in_or_app; auto.
      + destruct o' as [r|]; [|destruct Hx]. destruct (C x r eq_refl Hx) as (t & -> & Hr).
        eapply reach_sub; eauto; intros y Hy; [right|]; apply in_or_app; auto.
    - intros pol f sh l o c f' c1 l' c2 o' c3 _ IH0 _ IH1 _ IH2 Hc.
      destruct IH0 as (E & F); auto. destruct IH1 as (A & B); auto. destruct IH2 as (C & D); auto.
      split; auto. intros x [<-|Hx]; [apply reach_here; left; auto|]. rewrite !in_app_iff in Hx. destruct Hx as [Hx|[Hx|Hx]].
      + apply E in Hx. eapply reach_sub; eauto; intros y Hy; [right|]; apply in_or_app; auto.
      + apply A in Hx. eapply reaches_sub; eauto; intros y Hy; [right|]; cbn; rewrite !in_app_iff; auto.
      + destruct o' as [r|]; [|destruct Hx]. destruct (C x r eq_refl Hx) as (t & -> & Hr).
        eapply reach_sub; eauto; intros y Hy; [right|]; cbn; rewrite !in_app_iff; auto.
    - intros pol c Hc. split; auto. intros x [].
    - intros pol t l c r c1 l' c2 _ IH1 _ IH2 Hc. destruct IH1 as (A & B); auto. destruct IH2 as (C & D); auto.
      split; auto. intros x Hx. cbn in Hx. apply in_app_iff in Hx. destruct Hx as [Hx|Hx].
      + exists t. split; [left; auto|auto].
      + destruct (C x Hx) as (t' & Ht & Hr). exists t'. split; [right; auto|auto].
    - intros pol c Hc. split; auto. intros x r H. discriminate.
    - intros pol t c r c1 _ IH Hc. destruct IH as (A & B); auto. split; auto. intros x r' E Hx. inversion E; subst. eauto.
    - intros pol l c Hc. split; auto. intros x [].
    - intros pol l c l' c1 _ IH Hc. auto.
  Qed.

  (** Nothing is lost. *)
  Definition done (c c' : cache) (L : list label) : Prop :=
    incl (map fst c) (map fst c') /\
    forall v l u b, In v (map fst c') -> ~ In v (map fst c) -> In (v, (l, u)) V -> In b (l ++ u) ->
      incl (labels b) L /\ incl (tvars b) (map fst c').

  Lemma done_refl : forall c L, done c c L.
  Proof. intros c L. split; [apply incl_refl|]. intros; contradiction. Qed.

  Lemma done_trans : forall c c1 c2 L1 L2 L, done c c1 L1 -> done c1 c2 L2 -> incl L1 L -> incl L2 L -> done c c2 L.
  Proof.
    intros c c1 c2 L1 L2 L (A & B) (C & D) H1 H2. split; [eapply incl_tran; eauto|].
    intros v l u b Hv Hn Hi Hb. destruct (in_dec Nat.eq_dec v (map fst c1)) as [Hy|Hy].
    - destruct (B v l u b Hy Hn Hi Hb) as (E & F). split; [eapply incl_tran; eauto|eapply incl_tran; eauto].
    - destruct (D v l u b Hv Hy Hi Hb) as (E & F). split; [eapply incl_tran; eauto|auto].
  Qed.

  Lemma done_more : forall c c' L L', done c c' L -> incl L L' -> done c c' L'.
  Proof. intros c c' L L' H HL. eapply done_trans; [exact H|apply done_refl with (L := L')|auto|apply incl_refl]. Qed.

  Lemma run_complete : forall s,
    (forall pol t c r c', run ord false s V pol t c r c' -> incl (labels t) (labels r) /\ incl (tvars t) (map fst c') /\ done c c' (labels r)) /\
    (forall pol l c l' c', run_seq ord false s V pol l c l' c' -> incl (flat_map labels l) (flat_map labels l') /\
       incl (flat_map tvars l) (map fst c') /\ done c c' (flat_map labels l')) /\
    (forall pol o c o' c', run_opt ord false s V pol o c o' c' ->
       let lab := fun o => match o with Some b => labels b | None => [] end in
       incl (lab o) (lab o') /\ incl (match o with Some b => tvars b | None => [] end) (map fst c') /\ done c c' (lab o')) /\
    (forall b pol l c l' c', run_part ord false s V b pol l c l' c' -> b = true -> incl (flat_map labels l) (flat_map labels l') /\
       incl (flat_map tvars l) (map fst c') /\ done c c' (flat_map labels l')).
  Proof.
    intros s. apply run_ind4.
    - intros pol c. split; [intros x []|]. split; [intros x []|apply done_refl].
    - intros pol n c. split; [apply incl_refl|]. split; [intros x []|apply done_refl].
    - intros pol v c r H. split; [intros x []|]. split; [|apply done_refl].
      intros x [<-|[]]. apply get_some. eauto.
    - intros pol v c l u l' u' c1 c2 G GV _ IH1 _ IH2.
      destruct (IH1 eq_refl) as (A & B & C). destruct (IH2 eq_refl) as (D & E & F). clear IH1 IH2.
      assert (Hl : incl (flat_map labels l') (labels (collapse ord (dedup l') (dedup u')))) by (intros x Hx; apply lparts, in_or_app; auto).
      assert (Hu : incl (flat_map labels u') (labels (collapse ord (dedup l') (dedup u')))) by (intros x Hx; apply lparts, in_or_app; auto).
      pose proof (done_trans _ _ _ _ _ _ C F Hl Hu) as (I1 & I2).
      split; [intros x []|]. split; [intros x [<-|[]]; left; auto|]. split.
      + intros x Hx. right. apply I1. right. auto.
      + intros w lw uw b Hw Hn Hi Hb. cbn [map fst] in *. destruct (Nat.eq_dec w v) as [->|Hd].
        * pose proof (get_nodup _ V v (lw, uw) HN Hi) as E'. rewrite E' in GV. inversion GV; subst.
          apply in_app_iff in Hb. split.
          -- intros x Hx. destruct Hb as [Hb|Hb]; [apply Hl, A|apply Hu, D]; apply in_flat_map; eauto.
          -- intros x Hx. right. destruct Hb as [Hb|Hb]; [apply F, B|apply E]; apply in_flat_map; eauto.
        * destruct (I2 w lw uw b) as (J1 & J2); auto.
          -- destruct Hw; [congruence|auto].
          -- intros [?|?]; auto.
          -- split; auto. intros x Hx. right. auto.
    - intros pol l u c l' u' c1 c2 _ IH1 _ IH2. destruct (IH1 eq_refl) as (A & B & C). destruct (IH2 eq_refl) as (D & E & F).
      assert (Hl : incl (flat_map labels l') (labels (collapse ord (dedup l') (dedup u')))) by (intros x Hx; apply lparts, in_or_app; auto).
      assert (Hu : incl (flat_map labels u') (labels (collapse ord (dedup l') (dedup u')))) by (intros x Hx; apply lparts, in_or_app; auto).
      split; [|split].
      + intros x Hx. cbn in Hx. apply in_app_iff in Hx. destruct Hx; [apply Hl, A|apply Hu, D]; auto.
      + intros x Hx. cbn in Hx. apply in_app_iff in Hx. destruct Hx; [apply F, B|apply E]; auto.
      + eapply done_trans; eauto.
    - intros pol l c l' c1 _ (A & B & C). split; [|split].
      + intros x Hx. apply lunion. apply A. auto.
      + auto.
      + eapply done_more; eauto. intros x Hx. apply lunion. auto.
    - intros pol k l c l' c1 _ (A & B & C). split; [|split]; auto.
      + intros x [<-|Hx]; [left; auto|right; apply A; auto].
      + eapply done_more; eauto. intros x Hx. right. auto.
    - intros pol k sh l o c l' c1 o' c2 _ (A & B & C) _ (D & E & F). cbn [labels tvars]. split; [|split].
      + intros x [<-|Hx]; [left; auto|]. right. apply in_app_iff in Hx. apply in_or_app. destruct Hx; [left; apply A|right; apply D]; auto.
      + intros x Hx. apply in_app_iff in Hx. destruct Hx; [apply F, B|apply E]; auto.
      + eapply done_trans; [exact C|exact F|intros x Hx; right; apply in_or_app; auto ..].
    - intros pol f sh l o c f' c1 l' c2 o' c3 _ (X & Y & Z) _ (A & B & C) _ (D & E & F). cbn [labels tvars].
      assert (ZC : done c c2 (LWith sh :: labels f' ++ flat_map labels l' ++ match o' with Some b => labels b | None => [] end)).
      { eapply done_trans; [exact Z|exact C|intros x Hx; right; rewrite !in_app_iff; auto ..]. }
      split; [|split].
      + intros x [<-|Hx]; [left; auto|]. right. rewrite !in_app_iff in *. destruct Hx as [Hx|[Hx|Hx]]; [left; apply X|right; left; apply A|right; right; apply D]; auto.
      + intros x Hx. rewrite !in_app_iff in Hx. destruct Hx as [Hx|[Hx|Hx]]; [apply F, C, Y|apply F, B|apply E]; auto.
      + eapply done_trans; [exact ZC|exact F|apply incl_refl|intros x Hx; right; rewrite !in_app_iff; auto].
    - intros pol c. split; [intros x []|]. split; [intros x []|apply done_refl].
    - intros pol t l c r c1 l' c2 _ (A & B & C) _ (D & E & F). cbn [flat_map]. split; [|split].
      + intros x Hx. apply in_app_iff in Hx. apply in_or_app. destruct Hx; [left; apply A|right; apply D]; auto.
      + intros x Hx. apply in_app_iff in Hx. destruct Hx; [apply F, B|apply E]; auto.
      + eapply done_trans; [exact C|exact F|intros x Hx; apply in_or_app; auto ..].
    - intros pol c. cbn. split; [intros x []|]. split; [intros x []|apply done_refl].
    - intros pol t c r c1 _ H. exact H.
    - intros pol l c H. discriminate.
    - intros pol l c l' c1 _ H _. exact H.
  Qed.

  Lemma complete_reach : forall c' L t x, reach V t x -> incl (labels t) L -> incl (tvars t) (map fst c') ->
    done [] c' L -> In x L.
  Proof.
    intros c' L t x H. induction H as [t x H|t v l u b x Hv Hi Hb H IH]; intros A B C; auto.
    destruct C as (C1 & C2). destruct (C2 v l u b) as (D & E); auto. apply IH; auto. split; auto.
  Qed.

  Lemma labels_exact : forall s pol t r c', run ord false s V pol t [] r c' -> forall x, In x (labels r) <-> reach V t x.
  Proof.
    intros s pol t r c' H x. split.
    - intro Hx. eapply (proj1 (run_sound false s)); eauto. intros v r' y E. discriminate.
    - intro Hx. destruct (proj1 (run_complete s) _ _ _ _ _ H) as (A & B & C). eapply complete_reach; eauto.
  Qed.
End Labels.

(** ** Without cycles *)

Section Acyclic.
  Variable ord : ty -> ty -> bool.
  Hypothesis HT : total ord.
  Variable V : vars.
  Variable rank : nat -> nat.
  Hypothesis HR : forall v l u b w, In (v, (l, u)) V -> In b (l ++ u) -> In w (tvars b) -> rank w < rank v.

  Definition inv (b : nat) (c : cache) : Prop := forall v r, get v c = Some r -> rank v < b -> simp ord V (TVar v) r.
  Definition keeps (b : nat) (c c' : cache) : Prop := forall w, b <= rank w -> get w c' = get w c.
  Definition lower (b : nat) (l : list nat) : Prop := forall v, In v l -> rank v < b.

  Lemma keeps_trans : forall b c c1 c2, keeps b c c1 -> keeps b c1 c2 -> keeps b c c2.
  Proof. intros b c c1 c2 H1 H2 w Hw. rewrite H2, H1; auto. Qed.

  Definition opt_rel (o o' : option ty) : Prop :=
    match o, o' with Some t, Some t' => simp ord V t t' | None, None => True | _, _ => False end.

  Lemma lower_app : forall b x y, lower b (x ++ y) -> lower b x /\ lower b y.
  Proof. intros b x y H. split; intros v Hv; apply H, in_or_app; auto. Qed.

  Lemma run_simp : forall s,
    (forall pol t c r c', run ord false s V pol t c r c' -> forall b, lower b (tvars t) -> inv b c ->
       simp ord V t r /\ inv b c' /\ keeps b c c') /\
    (forall pol l c l' c', run_seq ord false s V pol l c l' c' -> forall b, lower b (flat_map tvars l) -> inv b c ->
       Forall2 (simp ord V) l l' /\ inv b c' /\ keeps b c c') /\
    (forall pol o c o' c', run_opt ord false s V pol o c o' c' -> forall b, lower b (match o with Some t => tvars t | None => [] end) -> inv b c ->
       opt_rel o o' /\ inv b c' /\ keeps b c c') /\
    (forall x pol l c l' c', run_part ord false s V x pol l c l' c' -> x = true -> forall b, lower b (flat_map tvars l) -> inv b c ->
       Forall2 (simp ord V) l l' /\ inv b c' /\ keeps b c c').
  Proof.
    intros s. apply run_ind4.
    - intros pol c b _ Hc. repeat split; auto. constructor.
    - intros pol n c b _ Hc. repeat split; auto. constructor.
    - intros pol v c r H b HL Hc. split; [|split; [auto|intros w _; auto]]. apply Hc; auto. apply HL. left; auto.
    - intros pol v c l u l' u' c1 c2 G GV _ IH1 _ IH2 b HL Hc. specialize (IH1 eq_refl). specialize (IH2 eq_refl).
      assert (Hv : rank v < b) by (apply HL; left; auto). apply get_in in GV.
      assert (Lb : forall q, (forall t, In t q -> In t (l ++ u)) -> lower (rank v) (flat_map tvars q)).
      { intros q Hq w Hw. apply in_flat_map in Hw. destruct Hw as (t & Ht & Hw). eapply HR; eauto. }
      assert (Ll := Lb l ltac:(intros; apply in_or_app; auto)). assert (Lu := Lb u ltac:(intros; apply in_or_app; auto)).
      assert (I0 : inv (rank v) ((v, TAny) :: c)).
      { intros w r E Hw. cbn in E. destruct (Nat.eqb_spec w v); [subst; lia|]. apply Hc; auto. lia. }
      destruct (IH1 _ Ll I0) as (A & B & C). destruct (IH2 _ Lu B) as (D & E & F).
      assert (S : simp ord V (TVar v) (collapse ord (dedup l') (dedup u'))).
      { eapply simp_var; eauto. apply collapse_frozen; auto. }
      assert (K : keeps (rank v) ((v, TAny) :: c) c2) by (eapply keeps_trans; eauto).
      split; [exact S|]. split.
      + intros w r Ew Hw. cbn in Ew. destruct (Nat.eqb_spec w v) as [->|Hd]; [inversion Ew; subst; auto|].
        destruct (le_lt_dec (rank v) (rank w)) as [Hle|Hlt]; [|eapply E; eauto].
        rewrite (K w Hle) in Ew. cbn in Ew. destruct (Nat.eqb_spec w v); [congruence|]. apply Hc; auto.
      + intros w Hw. cbn. destruct (Nat.eqb_spec w v) as [->|Hd]; [lia|]. rewrite (K w) by lia. cbn.
        destruct (Nat.eqb_spec w v); [congruence|auto].
    - intros pol l u c l' u' c1 c2 _ IH1 _ IH2 b HL Hc. specialize (IH1 eq_refl). specialize (IH2 eq_refl).
      apply lower_app in HL. destruct HL as (L1 & L2).
      destruct (IH1 _ L1 Hc) as (A & B & C). destruct (IH2 _ L2 B) as (D & E & F).
      split; [|split; [auto|eapply keeps_trans; eauto]]. eapply simp_let; eauto. apply collapse_frozen; auto.
    - intros pol l c l' c1 _ IH b HL Hc. destruct (IH _ HL Hc) as (A & B & C). split; auto. eapply simp_union; eauto. apply from_joined; auto.
    - intros pol k l c l' c1 _ IH b HL Hc. destruct (IH _ HL Hc) as (A & B & C). split; auto. constructor; auto.
    - intros pol k sh l o c l' c1 o' c2 _ IH1 _ IH2 b HL Hc. apply lower_app in HL. destruct HL as (L1 & L2).
      destruct (IH1 _ L1 Hc) as (A & B & C). destruct (IH2 _ L2 B) as (D & E & F).
      split; [|split; [auto|eapply keeps_trans; eauto]]. destruct o, o'; cbn in D; try tauto; constructor; auto.
    - intros pol f sh l o c f' c1 l' c2 o' c3 _ IH0 _ IH1 _ IH2 b HL Hc. apply lower_app in HL. destruct HL as (L0 & HL).
      apply lower_app in HL. destruct HL as (L1 & L2). destruct (IH0 _ L0 Hc) as (X & Y & Z).
      destruct (IH1 _ L1 Y) as (A & B & C). destruct (IH2 _ L2 B) as (D & E & F).
      split; [|split; [auto|eapply keeps_trans; [|eapply keeps_trans]; eauto]]. destruct o, o'; cbn in D; try tauto; constructor; auto.
    - intros pol c b _ Hc. repeat split; auto.
    - intros pol t l c r c1 l' c2 _ IH1 _ IH2 b HL Hc. apply lower_app in HL. destruct HL as (L1 & L2).
      destruct (IH1 _ L1 Hc) as (A & B & C). destruct (IH2 _ L2 B) as (D & E & F).
      split; [|split; [auto|eapply keeps_trans; eauto]]. constructor; auto.
    - intros pol c b _ Hc. repeat split; auto.
    - intros pol t c r c1 _ IH b HL Hc. destruct (IH _ HL Hc) as (A & B & C). auto.
    - intros pol l c H. discriminate.
    - intros pol l c l' c1 _ IH _. exact IH.
  Qed.

  Lemma rank_bound : forall l : list nat, exists b, lower b l.
  Proof.
    induction l as [|v l (b & Hb)]; [exists 0; intros v []|]. exists (S (rank v) + b). intros w [<-|Hw]; [lia|]. apply Hb in Hw. lia.
  Qed.

  Lemma simp_exact : forall s pol t r c', run ord false s V pol t [] r c' -> simp ord V t r.
  Proof.
    intros s pol t r c' H. destruct (rank_bound (tvars t)) as (b & Hb).
    eapply (proj1 (run_simp s)); eauto. intros v r' E. discriminate.
  Qed.
End Acyclic.

(** ** Results are simplified to themselves *)

Section Normal.
  Variable ord : ty -> ty -> bool.
  Hypothesis HT : total ord.

  Lemma forall_in : forall (P : ty -> Prop) l l', (forall t, In t l' -> In t l) -> Forall P l -> Forall P l'.
  Proof. intros P l l' H HF. rewrite Forall_forall in *. auto. Qed.

  Lemma collapse_normal : forall l u, Forall (normal ord) l -> Forall (normal ord) u -> normal ord (collapse ord (dedup l) (dedup u)).
  Proof.
    intros l u Hl Hu.
    assert (Dl : Forall (normal ord) (dedup l)) by (eapply forall_in; [|exact Hl]; intros; apply dedup_in; auto).
    assert (Du : Forall (normal ord) (dedup u)) by (eapply forall_in; [|exact Hu]; intros; apply dedup_in; auto).
    assert (HB : 2 <= length (dedup l) + length (dedup u) -> normal ord (TLet (sort ord (dedup l)) (sort ord (dedup u)))).
    { intro H. constructor; try (apply sort_sorted; auto); try (eapply Permutation_NoDup; [apply sort_perm|apply dedup_nodup]).
      - eapply forall_in; [|exact Dl]. intros; eapply sort_in; eauto.
      - eapply forall_in; [|exact Du]. intros; eapply sort_in; eauto.
      - rewrite !sort_length. auto. }
    unfold collapse. destruct (dedup l) as [|x [|y dl]], (dedup u) as [|x' [|y' du]]; cbn [length] in HB; try (apply HB; lia).
    - constructor.
    - inversion Du; auto.
    - inversion Dl; auto.
  Qed.

  Lemma union_normal : forall l, Forall (normal ord) l -> normal ord (from_types ord (filter (fun t => negb (is_any t)) l)).
  Proof.
    intros l Hl. assert (HF : Forall (normal ord) (filter (fun t => negb (is_any t)) l)).
    { eapply forall_in; [|exact Hl]. intros t Ht. apply filter_In in Ht. tauto. }
    assert (HA : ~ In TAny (filter (fun t => negb (is_any t)) l)) by (intro H; apply filter_In in H; destruct H; discriminate).
    destruct (filter (fun t => negb (is_any t)) l) as [|a [|b p]]; cbn [from_types].
    - constructor.
    - inversion HF; auto.
    - constructor.
      + eapply forall_in; [|exact HF]. intros; eapply sort_in; eauto.
      + intro H. apply sort_in in H. auto.
      + apply sort_sorted; auto.
      + rewrite sort_length. cbn. lia.
  Qed.

  Definition normals (c : cache) : Prop := forall v r, get v c = Some r -> normal ord r.

  Lemma normals_cons : forall v r c, normal ord r -> normals c -> normals ((v, r) :: c).
  Proof. intros v r c H1 H2 w r' H. cbn in H. destruct (w =? v); [inversion H; subst; auto|eapply H2; eauto]. Qed.

  Lemma run_normal : forall p s V,
    (forall pol t c r c', run ord p s V pol t c r c' -> normals c -> normal ord r /\ normals c') /\
    (forall pol l c l' c', run_seq ord p s V pol l c l' c' -> normals c -> Forall (normal ord) l' /\ normals c') /\
    (forall pol o c o' c', run_opt ord p s V pol o c o' c' -> normals c -> opt_prop (normal ord) o' /\ normals c') /\
    (forall b pol l c l' c', run_part ord p s V b pol l c l' c' -> normals c -> Forall (normal ord) l' /\ normals c').
  Proof.
    intros p s V. apply run_ind4; intros; cbn [opt_prop].
    - split; auto. constructor.
    - split; auto. constructor.
    - split; auto. eapply H0; eauto.
    - destruct H2 as (A & B); [apply normals_cons; auto; constructor|]. destruct H4 as (C & D); auto.
      assert (N : normal ord (collapse ord (dedup l') (dedup u'))) by (apply collapse_normal; auto).
      split; auto. apply normals_cons; auto.
    - destruct H0 as (A & B); auto. destruct H2 as (C & D); auto. split; auto. apply collapse_normal; auto.
    - destruct H0 as (A & B); auto. split; auto. apply union_normal; auto.
    - destruct H0 as (A & B); auto. split; auto. constructor; auto.
    - destruct H0 as (A & B); auto. destruct H2 as (C & D); auto. split; auto. constructor; auto. intros b ->; auto.
    - destruct H0 as (A & B); auto. destruct H2 as (C & D); auto. destruct H4 as (E & F); auto. split; auto. constructor; auto. intros b ->; auto.
    - split; auto.
    - destruct H0 as (A & B); auto. destruct H2 as (C & D); auto.
    - split; auto.
    - auto.
    - split; auto.
    - auto.
  Qed.

  Lemma seq_id : forall (f : ty -> cache -> option (ty * cache)) l, Forall (fun t => forall c, f t c = Some (t, c)) l ->
    forall c, tr_seq f l c = Some (l, c).
  Proof. intros f l H. induction H as [|t l Ht Hl IH]; intro c; cbn [tr_seq]; auto. rewrite Ht, IH. auto. Qed.

  Lemma filter_all : forall l, ~ In TAny l -> filter (fun t => negb (is_any t)) l = l.
  Proof.
    induction l as [|t l IH]; intros H; cbn [filter]; auto. rewrite IH by (intro; apply H; right; auto).
    destruct t; auto. exfalso. apply H. left; auto.
  Qed.

  Lemma normal_id : forall s var t, normal ord t -> forall pol c, transform_at ord false s var pol t c = Some (t, c).
  Proof.
    intros s var.
    assert (HS : forall l, Forall (fun t => normal ord t -> forall pol c, transform_at ord false s var pol t c = Some (t, c)) l ->
      Forall (normal ord) l -> forall pol c, tr_seq (transform_at ord false s var pol) l c = Some (l, c)).
    { intros l H HN pol c. apply seq_id. rewrite Forall_forall in *. auto. }
    induction t as [|m|v|l u Hl Hu|l Hl|k l Hl|k sh l o Hl Ho|f sh l o Hf Hl Ho] using ty_ind2; intros HN pol c; cbn [transform_at]; auto.
    - inversion HN.
    - inversion HN; subst. unfold transform_let. cbn [negb orb]. rewrite !HS by auto. f_equal. f_equal.
      rewrite !dedup_id by auto. unfold collapse. rewrite !sort_id by auto.
      destruct l as [|x [|y l]], u as [|x' [|y' u]]; cbn [length] in *; auto; lia.
    - inversion HN; subst. rewrite HS by auto. rewrite filter_all by auto. f_equal. f_equal. unfold from_types. rewrite sort_id by auto.
      destruct l as [|x [|y l]]; cbn in *; auto; lia.
    - inversion HN; subst. rewrite HS by auto. auto.
    - inversion HN; subst. unfold transform_sig. rewrite HS by auto. destruct o as [b|]; cbn [tr_opt]; auto. cbn in *. rewrite Ho by auto. auto.
    - inversion HN; subst. rewrite Hf by auto. unfold transform_sig. rewrite HS by auto. destruct o as [b|]; cbn [tr_opt]; auto.
      cbn in *. rewrite Ho by auto. auto.
  Qed.

  Lemma normal_novar : forall t, normal ord t -> novar t.
  Proof.
    assert (HS : forall l, Forall (fun t => normal ord t -> novar t) l -> Forall (normal ord) l -> forall v, ~ In v (flat_map tvars l)).
    { intros l H HN. apply novar_list. rewrite Forall_forall in *. auto. }
    induction t as [|m|v|l u Hl Hu|l Hl|k l Hl|k sh l o Hl Ho|f sh l o Hf Hl Ho] using ty_ind2; intros HN w Hw; cbn [tvars] in Hw; auto.
    - inversion HN.
    - inversion HN; subst. apply in_app_iff in Hw. destruct Hw as [Hw|Hw]; [apply (HS l) in Hw|apply (HS u) in Hw]; auto.
    - inversion HN; subst. apply (HS l) in Hw; auto.
    - inversion HN; subst. apply (HS l) in Hw; auto.
    - inversion HN; subst. apply in_app_iff in Hw. destruct Hw as [Hw|Hw]; [apply (HS l) in Hw; auto|].
      destruct o as [b|]; [|destruct Hw]. apply (Ho (H4 _ eq_refl) w); auto.
    - inversion HN; subst. rewrite !in_app_iff in Hw. destruct Hw as [Hw|[Hw|Hw]]; [apply (Hf H2 w); auto|apply (HS l) in Hw; auto|].
      destruct o as [b|]; [|destruct Hw]. apply (Ho (H5 _ eq_refl) w); auto.
  Qed.
End Normal.

(** ** The relation determines the result *)

Section SimpInd.
  Variable ord : ty -> ty -> bool.
  Variable V : vars.
  Variable P : ty -> ty -> Prop.
  Definition both (a b : ty) : Prop := simp ord V a b /\ P a b.
  Hypothesis P_any : P TAny TAny.
  Hypothesis P_leaf : forall n, P (TLeaf n) (TLeaf n).
  Hypothesis P_var : forall v l u l' u' r, In (v, (l, u)) V -> Forall2 both l l' -> Forall2 both u u' -> frozen ord l' u' r -> P (TVar v) r.
  Hypothesis P_let : forall l u l' u' r, Forall2 both l l' -> Forall2 both u u' -> frozen ord l' u' r -> P (TLet l u) r.
  Hypothesis P_union : forall l l' r, Forall2 both l l' -> joined ord l' r -> P (TUnion l) r.
  Hypothesis P_comp : forall k l l', Forall2 both l l' -> P (TComp k l) (TComp k l').
  Hypothesis P_sig : forall k sh l l', Forall2 both l l' -> P (TSig k sh l None) (TSig k sh l' None).
  Hypothesis P_sigb : forall k sh l l' b b', Forall2 both l l' -> both b b' -> P (TSig k sh l (Some b)) (TSig k sh l' (Some b')).
  Hypothesis P_with : forall f f' sh l l', both f f' -> Forall2 both l l' -> P (TWith f sh l None) (TWith f' sh l' None).
  Hypothesis P_withb : forall f f' sh l l' b b', both f f' -> Forall2 both l l' -> both b b' ->
    P (TWith f sh l (Some b)) (TWith f' sh l' (Some b')).

  Fixpoint simp_ind2 (t r : ty) (H : simp ord V t r) {struct H} : P t r :=
    let go := fix go l l' (H : Forall2 (simp ord V) l l') : Forall2 both l l' :=
      match H with
      | Forall2_nil _ => Forall2_nil _
      | Forall2_cons _ _ Hx Hl => Forall2_cons _ _ (conj Hx (simp_ind2 _ _ Hx)) (go _ _ Hl)
      end in
    match H with
    | simp_any _ _ => P_any
    | simp_leaf _ _ n => P_leaf n
    | simp_var _ _ v l u l' u' r Hi Hl Hu Hf => P_var v l u l' u' r Hi (go _ _ Hl) (go _ _ Hu) Hf
    | simp_let _ _ l u l' u' r Hl Hu Hf => P_let l u l' u' r (go _ _ Hl) (go _ _ Hu) Hf
    | simp_union _ _ l l' r Hl Hj => P_union l l' r (go _ _ Hl) Hj
    | simp_comp _ _ k l l' Hl => P_comp k l l' (go _ _ Hl)
    | simp_sig _ _ k sh l l' Hl => P_sig k sh l l' (go _ _ Hl)
    | simp_sig_body _ _ k sh l l' b b' Hl Hb => P_sigb k sh l l' b b' (go _ _ Hl) (conj Hb (simp_ind2 _ _ Hb))
    | simp_with _ _ f f' sh l l' Hf Hl => P_with f f' sh l l' (conj Hf (simp_ind2 _ _ Hf)) (go _ _ Hl)
    | simp_with_body _ _ f f' sh l l' b b' Hf Hl Hb =>
        P_withb f f' sh l l' b b' (conj Hf (simp_ind2 _ _ Hf)) (go _ _ Hl) (conj Hb (simp_ind2 _ _ Hb))
    end.
End SimpInd.

Section Det.
  Variable ord : ty -> ty -> bool.
  Hypothesis HL : linear ord.

  Lemma sorted_unique : forall a b, Permutation a b -> Sorted (fun x y => ord x y = true) a -> Sorted (fun x y => ord x y = true) b -> a = b.
  Proof.
    destruct HL as (_ & HA & HT). intros a b HP Sa Sb.
    assert (TR : Relations_1.Transitive (fun x y => ord x y = true)) by (intros x y z; apply HT).
    apply Sorted_StronglySorted in Sa; auto. apply Sorted_StronglySorted in Sb; auto.
    revert b HP Sb. induction Sa as [|x a Sa IH Fa]; intros b HP Sb.
    - apply Permutation_nil in HP. auto.
    - destruct Sb as [|y b Sb Fb]; [apply Permutation_sym, Permutation_nil in HP; discriminate|].
      assert (x = y).
      { assert (Hx : In x (y :: b)) by (eapply Permutation_in; [exact HP|left; auto]).
        assert (Hy : In y (x :: a)) by (eapply Permutation_in; [apply Permutation_sym; exact HP|left; auto]).
        destruct Hx as [|Hx]; auto. destruct Hy as [|Hy]; auto. rewrite Forall_forall in *. apply HA; auto. }
      subst. f_equal. apply IH; auto. eapply Permutation_cons_inv; eauto.
  Qed.

  Lemma set_unique : forall l r r', sorted_set ord l r -> sorted_set ord l r' -> r = r'.
  Proof.
    intros l r r' (A & B & C) (D & E & F). apply sorted_unique; auto. apply NoDup_Permutation; auto.
    intro x. rewrite <- A, D. tauto.
  Qed.

  Lemma set_small : forall l r t, sorted_set ord l r -> (forall t', In t' l -> t' = t) -> length r <= 1.
  Proof.
    intros l r t (A & B & _) H. destruct r as [|x [|y r]]; cbn; auto.
    assert (x = t) by (apply H, A; left; auto). assert (y = t) by (apply H, A; right; left; auto). subst.
    inversion B; subst. exfalso. apply H2. left; auto.
  Qed.

  Lemma set_nil : forall r, sorted_set ord [] r -> r = [].
  Proof. intros [|x r] (A & _); auto. destruct (proj2 (A x)); left; auto. Qed.

  Lemma frozen_det : forall l u r r', frozen ord l u r -> frozen ord l u r' -> r = r'.
  Proof.
    intros l u r r' H H'.
    assert (HB : forall l' u' x, sorted_set ord l l' -> sorted_set ord u u' -> 2 <= length l' + length u' -> frozen ord l u x -> x = TLet l' u').
    { intros l' u' x A B C D. inversion D; subst.
      - apply set_nil in A. apply set_nil in B. subst. cbn in C. lia.
      - apply set_nil in B. subst. eapply set_small in A; eauto. cbn in C. lia.
      - apply set_nil in A. subst. eapply set_small in B; eauto. cbn in C. lia.
      - f_equal; eapply set_unique; eauto. }
    inversion H; subst.
    - inversion H'; subst; try contradiction; auto; try (symmetry; eapply HB; eauto; fail).
    - inversion H'; subst; try contradiction; auto; try (symmetry; eapply HB; eauto; fail).
    - inversion H'; subst; try contradiction; auto; try (symmetry; eapply HB; eauto; fail).
    - symmetry. eapply HB; eauto.
  Qed.

  Lemma without_det : forall l p p', without_any l p -> without_any l p' -> p = p'.
  Proof.
    intros l p p' H. revert p'. induction H; intros p' H'; inversion H'; subst; auto; try contradiction. f_equal. auto.
  Qed.

  Lemma joined_det : forall l r r', joined ord l r -> joined ord l r' -> r = r'.
  Proof.
    intros l r r' H H'. inversion H; inversion H'; subst;
      match goal with A : without_any l ?p, B : without_any l ?q |- _ => pose proof (without_det _ _ _ A B) end; subst; auto; try discriminate; try congruence.
    all: try (match goal with P : Permutation _ _ |- _ => apply Permutation_length in P; cbn in P end; lia).
    f_equal. apply sorted_unique; auto. eapply Permutation_trans; [apply Permutation_sym|]; eauto.
  Qed.

  Lemma forall2_det : forall V l a b, Forall2 (both ord V (fun t r => forall r', simp ord V t r' -> r = r')) l a -> Forall2 (simp ord V) l b -> a = b.
  Proof.
    intros V l a b H. revert b. induction H as [|x y l a (_ & Hx) _ IH]; intros b Hb; inversion Hb; subst; auto. f_equal; auto.
  Qed.

  Lemma simp_det : forall V, NoDup (map fst V) -> forall t r, simp ord V t r -> forall r', simp ord V t r' -> r = r'.
  Proof.
    intros V HN. apply (simp_ind2 ord V (fun t r => forall r', simp ord V t r' -> r = r')).
    - intros r' H. inversion H; auto.
    - intros n r' H. inversion H; auto.
    - intros v l u l' u' r Hi Hl Hu Hf r' H. inversion H; subst.
      pose proof (get_nodup _ _ _ _ HN Hi). pose proof (get_nodup _ _ _ _ HN H1). rewrite H0 in H5. inversion H5; subst.
      apply forall2_det with (b := l'0) in Hl; auto. apply forall2_det with (b := u'0) in Hu; auto. subst. eapply frozen_det; eauto.
    - intros l u l' u' r Hl Hu Hf r' H. inversion H; subst.
      apply forall2_det with (b := l'0) in Hl; auto. apply forall2_det with (b := u'0) in Hu; auto. subst. eapply frozen_det; eauto.
    - intros l l' r Hl Hj r' H. inversion H; subst. apply forall2_det with (b := l'0) in Hl; auto. subst. eapply joined_det; eauto.
    - intros k l l' Hl r' H. inversion H; subst. f_equal. eapply forall2_det; eauto.
    - intros k sh l l' Hl r' H. inversion H; subst. f_equal. eapply forall2_det; eauto.
    - intros k sh l l' b b' Hl (_ & Hb) r' H. inversion H; subst. f_equal; [eapply forall2_det; eauto|]. f_equal. auto.
    - intros f f' sh l l' (_ & Hf) Hl r' H. inversion H; subst. f_equal; [auto|eapply forall2_det; eauto].
    - intros f f' sh l l' b b' (_ & Hf) Hl (_ & Hb) r' H. inversion H; subst. f_equal; [auto|eapply forall2_det; eauto|]. f_equal. auto.
  Qed.

  Lemma frozen_sets : forall l u l2 u2 r, (forall t, In t l <-> In t l2) -> (forall t, In t u <-> In t u2) -> frozen ord l u r -> frozen ord l2 u2 r.
  Proof.
    intros l u l2 u2 r A B H.
    assert (N : forall x y : list ty, (forall t, In t x <-> In t y) -> x = [] -> y = []).
    { intros x [|t y] E ->; auto. destruct (proj2 (E t)); left; auto. }
    inversion H; subst.
    - apply frozen_none; eapply N; eauto.
    - apply frozen_low; [eapply N; eauto|apply A; auto|]. intros t' Ht. apply H2, A; auto.
    - apply frozen_high; [eapply N; eauto|apply B; auto|]. intros t' Ht. apply H2, B; auto.
    - apply frozen_both; auto; [destruct H0 as (X & Y)|destruct H1 as (X & Y)]; (split; [|auto]); intro t; rewrite <- X; symmetry; auto.
  Qed.

  Lemma sets_list : forall V V' l l' l2, NoDup (map fst V') -> (forall t, In t l <-> In t l2) ->
    Forall2 (both ord V (fun t r => simp ord V' t r)) l l' -> exists l2', Forall2 (simp ord V') l2 l2' /\ forall t, In t l' <-> In t l2'.
  Proof.
    intros V V' l l' l2 HN HS H.
    assert (A : forall x, In x l -> exists y, In y l' /\ simp ord V' x y).
    { clear HS. induction H as [|x y l l' (_ & Hx) _ IH]; intros z Hz; [destruct Hz|].
      destruct Hz as [<-|Hz]; [exists y; split; [left|]; auto|]. destruct (IH z Hz) as (w & ? & ?). exists w. split; [right|]; auto. }
    assert (B : forall y, In y l' -> exists x, In x l /\ simp ord V' x y).
    { clear HS A. induction H as [|x y l l' (_ & Hx) _ IH]; intros z Hz; [destruct Hz|].
      destruct Hz as [<-|Hz]; [exists x; split; [left|]; auto|]. destruct (IH z Hz) as (w & ? & ?). exists w. split; [right|]; auto. }
    assert (C : forall q, (forall x, In x q -> In x l) -> exists q', Forall2 (simp ord V') q q' /\ forall t, In t q' -> In t l').
    { induction q as [|x q IH]; intros Hq; [exists []; split; [constructor|intros t []]|].
      destruct (A x) as (y & Hy & Sy); [apply Hq; left; auto|]. destruct IH as (q' & Fq & Iq); [intros; apply Hq; right; auto|].
      exists (y :: q'). split; [constructor; auto|]. intros t [<-|Ht]; auto. }
    destruct (C l2) as (l2' & F & I); [intros; apply HS; auto|]. exists l2'. split; auto.
    intro t. split; auto. intro Ht. destruct (B t Ht) as (x & Hx & Sx). apply HS in Hx.
    clear - F Hx Sx HN HL. induction F as [|a b l2 l2' Ha _ IH]; [destruct Hx|]. destruct Hx as [->|Hx]; [|right; auto].
    left. eapply simp_det; eauto.
  Qed.

  Lemma both_snd : forall V V' l l', Forall2 (both ord V (fun t r => simp ord V' t r)) l l' -> Forall2 (simp ord V') l l'.
  Proof. intros V V' l l' H. induction H as [|x y l l' (_ & Hx) _ IH]; constructor; auto. Qed.

  Lemma simp_sets : forall V V', NoDup (map fst V') -> same_bounds V V' -> forall t r, simp ord V t r -> simp ord V' t r.
  Proof.
    intros V V' HN HS. apply (simp_ind2 ord V (fun t r => simp ord V' t r)); try (constructor; fail).
    - intros v l u l' u' r Hi Hl Hu Hf. destruct (HS v l u Hi) as (l2 & u2 & Hi2 & A & B).
      destruct (sets_list V V' l l' l2 HN A Hl) as (l2' & Fl & Sl). destruct (sets_list V V' u u' u2 HN B Hu) as (u2' & Fu & Su).
      eapply simp_var; eauto. eapply frozen_sets; eauto.
    - intros l u l' u' r Hl Hu Hf. apply both_snd in Hl. apply both_snd in Hu. eapply simp_let; eauto.
    - intros l l' r Hl Hj. apply both_snd in Hl. eapply simp_union; eauto.
    - intros k l l' Hl. apply both_snd in Hl. constructor; auto.
    - intros k sh l l' Hl. apply both_snd in Hl. constructor; auto.
    - intros k sh l l' b b' Hl (_ & Hb). apply both_snd in Hl. constructor; auto.
    - intros f f' sh l l' (_ & Hf) Hl. apply both_snd in Hl. constructor; auto.
    - intros f f' sh l l' b b' (_ & Hf) Hl (_ & Hb). apply both_snd in Hl. constructor; auto.
  Qed.
End Det.
