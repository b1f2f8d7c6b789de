(** Started compilations are reported (C64). *)
From Coq Require Import List Arith Bool Lia.
From Verif Require Import AssocModel AssocProof SchedModel SchedSpec SchedProof SchedMono.
Import ListNotations.

Definition St (s : st) (id : nat) : nat := s_status s (s_gen s) id.
Definition loc (p : proj) (s : st) : Prop :=
  St s (p_id p) <= p_rev p /\ (forall sn, p_snap p = Some sn -> sn_id sn = p_id p) /\
  (forall t, In t (s_tasks s) -> sn_id (snd t) = p_id p -> sn_rev (snd t) <= p_rev p).
Definition fr (id : nat) (s s1 : st) : Prop :=
  s_gen s1 = s_gen s /\ (forall i, i <> id -> St s1 i = St s i) /\
  (forall t, In t (s_tasks s1) -> In t (s_tasks s) \/ (fst t = s_gen s /\ sn_id (snd t) = id)).
Definition f_an (f : proj -> st -> proj * st * list out) : Prop := forall p s p1 s1 o, loc p s -> f p s = (p1, s1, o) ->
  loc p1 s1 /\ p_id p1 = p_id p /\ fr (p_id p) s s1 /\ announced o.

Lemma announced_app : forall o o', announced o -> announced o' -> announced (o ++ o').
Proof.
  intros o o' H H' a b id rev E. destruct (app_split _ _ _ _ _ _ E) as [[b0 [-> ->]]|[a0 [-> ->]]].
  - exact (H _ _ _ _ eq_refl).
  - destruct (H' _ _ _ _ eq_refl) as [a1 ->]. exists (o ++ a1). now rewrite app_assoc.
Qed.
Definition quiet (x : out) : Prop := match x with OStart _ _ => False | _ => True end.
Lemma announced_quiet : forall o, Forall quiet o -> announced o.
Proof.
  intros o F a b id rev E. subst. apply Forall_app in F. destruct F as [_ F]. inversion F as [|? ? X]. destruct X.
Qed.
Lemma announced_nil : announced [].
Proof. apply announced_quiet. constructor. Qed.
Lemma fr_refl : forall id s, fr id s s.
Proof. intros. repeat split; auto. Qed.
Lemma loc_other : forall p s s1 id, loc p s -> id <> p_id p -> fr id s s1 -> loc p s1.
Proof.
  intros p s s1 id (a & b & c) Ne (d & e & f). split; [rewrite e; auto|]. split; [exact b|].
  intros t Ht Hid. destruct (f t Ht) as [X|[_ X]]; [exact (c t X Hid)|congruence].
Qed.
Lemma loc_raise : forall p p1 s, loc p s -> p_id p1 = p_id p -> p_rev p <= p_rev p1 -> p_snap p1 = p_snap p -> loc p1 s.
Proof.
  intros p p1 s (a & b & c) I R S. unfold loc. rewrite I, S. split; [lia|]. split; [exact b|]. intros t Ht Hi. pose proof (c t Ht Hi). lia.
Qed.
Lemma loc_core : forall p s s1, loc p s -> same_core s s1 -> loc p s1.
Proof. intros p s s1 (a & b & c) (e1 & e2 & e3 & e4 & e5 & e6 & e7). unfold loc, St. rewrite e1, e3, e5. auto. Qed.

Lemma status_an : forall id rev k s s1 o, status (s_gen s) id rev k s = (s1, o) -> St s id <= rev ->
  fr id s s1 /\ St s1 id = rev /\ s_tasks s1 = s_tasks s /\ (exists o', o = o' ++ [OStatus id rev k] /\ Forall quiet o).
Proof.
  intros id rev k s s1 o E Hl. unfold status in E. unfold St in Hl.
  destruct (Nat.ltb_spec rev (s_status s (s_gen s) id)) as [H|H]; [lia|]. inversion E; subst; clear E.
  split; [|split; [|split; [reflexivity|]]].
  - split; [reflexivity|]. split; [|auto]. intros i Hi. unfold St. cbn. now apply upd2_neq.
  - unfold St. cbn. apply upd2_eq.
  - eexists. split; [reflexivity|]. destruct k; repeat constructor.
Qed.
Lemma status_fr : forall id rev k s s1 o, status (s_gen s) id rev k s = (s1, o) ->
  fr id s s1 /\ St s1 id = Nat.max rev (St s id) /\ s_tasks s1 = s_tasks s /\ Forall quiet o.
Proof.
  intros id rev k s s1 o E. destruct (le_gt_dec (St s id) rev) as [H|H].
  - destruct (status_an _ _ _ _ _ _ E H) as (a & b & c & o' & d & e). repeat split; try apply a; auto. lia.
  - unfold status in E. unfold St in H. destruct (Nat.ltb_spec rev (s_status s (s_gen s) id)) as [L|L]; [|lia].
    inversion E; subst. split; [apply fr_refl|]. split; [unfold St; lia|]. split; [reflexivity|constructor].
Qed.

Lemma notify_an : forall id g a s s1 o, notify_compile g a s = (s1, o) -> fr id s s1 /\ (forall p, loc p s -> loc p s1) /\ Forall quiet o.
Proof.
  intros id g a s s1 o E. unfold notify_compile in E. destruct (_ <=? _); inversion E; subst.
  - split; [apply fr_refl|]. split; [auto|constructor].
  - split; [repeat split; auto|]. split; [intros p H; exact H|repeat constructor].
Qed.
Lemma emit_an : f_an emit_pending.
Proof.
  intros p s p1 s1 o L E. unfold emit_pending in E.
  assert (Same : loc p s /\ p_id p = p_id p /\ fr (p_id p) s s /\ announced []) by (repeat split; try apply L; auto; apply announced_nil).
  destruct (x_last p) as [a|]; [|inversion E; subst; exact Same].
  destruct (negb _); [inversion E; subst; exact Same|]. destruct (negb _); [inversion E; subst; exact Same|].
  destruct (notify_compile _ _ _) as [s2 o2] eqn:En. inversion E; subst; clear E.
  destruct (notify_an (p_id p) _ _ _ _ _ En) as (a1 & a2 & a3). split; [apply a2; exact L|]. split; [reflexivity|]. split; [exact a1|now apply announced_quiet].
Qed.
Lemma ext_an : forall a, f_an (ext_compiled a).
Proof.
  intros a p s p1 s1 o L E. unfold ext_compiled in E. destruct (_ <=? _).
  - inversion E; subst. split; [exact L|]. split; [reflexivity|]. split; [apply fr_refl|apply announced_nil].
  - exact (emit_an (set_last p a) s p1 s1 o L E).
Qed.
Lemma pc_an : forall a, f_an (process_compile a).
Proof.
  intros a p s p1 s1 o L E. unfold process_compile in E. destruct (_ <=? _); inversion E; subst.
  - split; [exact L|]. split; [reflexivity|]. split; [apply fr_refl|apply announced_nil].
  - split; [exact L|]. split; [reflexivity|]. split; [apply fr_refl|apply announced_quiet; repeat constructor].
Qed.
Lemma change_an : forall c r, f_an (change c r).
Proof.
  intros c r p s p1 s1 o L E. unfold change in E. destruct c; inversion E; subst.
  - split; [apply (loc_raise p); auto; cbn; lia|]. split; [reflexivity|]. split; [apply fr_refl|apply announced_quiet; repeat constructor].
  - split; [exact L|]. split; [reflexivity|]. split; [apply fr_refl|apply announced_nil].
Qed.
Lemma change_task_an : forall i e, f_an (change_task i e).
Proof.
  intros i e p s p1 s1 o L E. unfold change_task in E. set (m := i || _) in E.
  set (o1 := if m then [OChange (p_id p) (S (p_rev p))] else []) in E.
  assert (Q1 : Forall quiet o1) by (unfold o1; destruct m; repeat constructor).
  assert (L1 : loc (if m then bump p else p) s) by (apply (loc_raise p); auto; destruct m; cbn; auto).
  assert (Id : p_id (if m then bump p else p) = p_id p) by (destruct m; reflexivity).
  destruct e as [e|].
  - destruct (if e =? 0 then _ else _) as [s2 o2] eqn:St0. inversion E; subst; clear E.
    assert (X : fr (p_id p) s s1 /\ (loc (if m then bump p else p) s1) /\ Forall quiet o2).
    { destruct (e =? 0); [|inversion St0; subst; split; [apply fr_refl|split; [exact L1|constructor]]].
      destruct (status_fr _ _ _ _ _ _ St0) as (a & b & c & d). split; [exact a|]. split; [|exact d].
      destruct L1 as (l1 & l2 & l3). unfold loc. rewrite Id in *. rewrite b, c. split; [lia|]. split; auto. }
    destruct X as (x1 & x2 & x3). split; [exact x2|]. split; [exact Id|]. split; [exact x1|].
    apply announced_quiet. apply Forall_app. split; [exact Q1|]. constructor; [exact I|exact x3].
  - inversion E; subst; clear E. split; [exact L1|]. split; [exact Id|]. split; [apply fr_refl|now apply announced_quiet].
Qed.
Lemma try_an : f_an try_compile.
Proof.
  intros p s p1 s1 o L E. unfold try_compile in E. destruct (_ || _).
  - inversion E; subst. split; [exact L|]. split; [reflexivity|]. split; [apply fr_refl|apply announced_nil].
  - set (p0 := set_reasons p (p_reason p) no_reason (p_reason p)) in E.
    assert (Sn : exists p2 sn, snapshot p0 = (p2, sn) /\ sn_id sn = p_id p /\ sn_rev sn = p_rev p /\ p_id p2 = p_id p /\
      p_rev p2 = p_rev p /\ (forall x, p_snap p2 = Some x -> sn_id x = p_id p)).
    { destruct L as (_ & L2 & _). unfold snapshot. cbn [p_snap p0 set_reasons p_rev]. destruct (p_snap p) as [sn|] eqn:Ps.
      - destruct (Nat.eqb_spec (sn_rev sn) (p_rev p)) as [Er|Er].
        + exists p0, sn. repeat split; auto. intros x Hx. cbn in Hx. rewrite Ps in Hx. inversion Hx; subst. auto.
        + eexists. eexists. split; [reflexivity|]. repeat split. intros x Hx. inversion Hx; subst. reflexivity.
      - eexists. eexists. split; [reflexivity|]. repeat split. intros x Hx. inversion Hx; subst. reflexivity. }
    destruct Sn as (p2 & sn & Es & Si & Sr & Pi & Pr & Ps). rewrite Es, Si, Sr in E.
    destruct (status _ _ _ _ _) as [s2 o2] eqn:St0. inversion E; subst; clear E.
    destruct L as (L1 & L2 & L3). destruct (status_an _ _ _ _ _ _ St0 L1) as (a & b & c & o' & d & e).
    split; [|split; [exact Pi|split]].
    + unfold loc. cbn [p_id set_compiling p_rev p_snap]. rewrite Pi, Pr. split; [unfold St in *; cbn; lia|]. split; [exact Ps|].
      intros t Ht Hi. cbn in Ht. apply in_app_or in Ht. destruct Ht as [Ht|[<-|[]]]; [|cbn; lia]. rewrite c in Ht. exact (L3 t Ht Hi).
    + destruct a as (a1 & a2 & a3). split; [exact a1|]. split; [exact a2|]. intros t Ht. cbn in Ht. apply in_app_or in Ht.
      destruct Ht as [Ht|[<-|[]]]; [exact (a3 t Ht)|]. right. split; [reflexivity|exact Si].
    + intros x y id rev Exy. destruct (app_split _ _ _ _ _ _ Exy) as [[b0 [Eb _]]|[a0 [Ea Eb]]].
      * exfalso. rewrite Eb in e. apply Forall_app in e. destruct e as [_ e]. inversion e as [|? ? Z]. destruct Z.
      * destruct a0 as [|z a0]; [|destruct a0; discriminate]. cbn in Eb. inversion Eb; subst. rewrite app_nil_r. exists o'. reflexivity.
Qed.
Lemma consider_an : forall clean, f_an (consider clean).
Proof.
  intros clean p s p1 s1 o L E. unfold consider in E. destruct (x_compiling p).
  - inversion E; subst. split; [exact L|]. split; [reflexivity|]. split; [apply fr_refl|apply announced_nil].
  - destruct (_ && _).
    + destruct (emit_pending _ s) as [[p2 s2] o2] eqn:Em. inversion E; subst; clear E.
      destruct (emit_an (set_reasons p no_reason (see (x_pending p) (p_reason p)) (x_emitted p)) s _ _ _ L Em) as (a & b & c & d).
      split; [exact a|]. split; [exact b|]. split; [exact c|]. apply (announced_app [_]); [|exact d]. apply announced_quiet. repeat constructor.
    + exact (try_an p s p1 s1 o L E).
Qed.

(** Loops. *)
Definition frs (K : nat -> Prop) (s s1 : st) : Prop :=
  s_gen s1 = s_gen s /\ (forall i, ~ K i -> St s1 i = St s i) /\
  (forall t, In t (s_tasks s1) -> In t (s_tasks s) \/ (fst t = s_gen s /\ K (sn_id (snd t)))).
Lemma each_an : forall f, f_an f -> forall l s l1 s1 o, Forall (fun p => loc p s) l -> NoDup (map p_id l) -> each f l s = (l1, s1, o) ->
  Forall (fun p => loc p s1) l1 /\ map p_id l1 = map p_id l /\ frs (fun i => In i (map p_id l)) s s1 /\ announced o.
Proof.
  intros f F. induction l as [|p l IH]; intros s l1 s1 o L Nd E; cbn in E.
  - inversion E; subst. split; [constructor|]. split; [reflexivity|]. split; [repeat split; auto|apply announced_nil].
  - destruct (f p s) as [[p1 sa] oa] eqn:Fp. destruct (each f l sa) as [[r1 sb] ob] eqn:Er. inversion E; subst; clear E.
    inversion L as [|? ? L1 L2]; subst. inversion Nd as [|? ? Nd1 Nd2]; subst.
    destruct (F _ _ _ _ _ L1 Fp) as (a & b & c & d).
    assert (L2' : Forall (fun q => loc q sa) l).
    { rewrite Forall_forall in *. intros q Hq. apply (loc_other q s sa (p_id p)); auto. intro X. apply Nd1. rewrite X. now apply in_map. }
    destruct (IH _ _ _ _ L2' Nd2 Er) as (a' & b' & c' & d').
    destruct c as (c1 & c2 & c3), c' as (c4 & c5 & c6). split; [|split; [|split]].
    + constructor; [|exact a']. destruct a as (x1 & x2 & x3). unfold loc. rewrite b in *. rewrite (c5 _ Nd1).
      split; [exact x1|]. split; [exact x2|]. intros t Ht Hi. destruct (c6 t Ht) as [X|[_ X]]; [exact (x3 t X Hi)|]. rewrite Hi in X. contradiction.
    + cbn. now rewrite b, b'.
    + split; [congruence|]. split.
      * intros i Hi. cbn in Hi. rewrite c5, c2; auto; intuition.
      * intros t Ht. destruct (c6 t Ht) as [X|[X Y]]; [destruct (c3 t X) as [Z|[Z W]]; [now left|]|].
        -- right. split; [exact Z|]. cbn. auto.
        -- right. split; [congruence|]. cbn. auto.
    + now apply announced_app.
Qed.

Record G (seen : list nat) (s : st) : Prop := {
  G_loc : Forall (fun p => loc p s) (projects s);
  G_nd : NoDup (map p_id (projects s));
  G_seen : forall id, known s id -> In id seen;
  G_task : forall t, In t (s_tasks s) -> fst t = s_gen s /\ In (sn_id (snd t)) seen;
  G_new : forall id, ~ In id seen -> St s id = 0
}.
Lemma G_frs : forall seen s s1, G seen s -> Forall (fun p => loc p s1) (projects s1) -> map p_id (projects s1) = map p_id (projects s) ->
  frs (fun i => known s i) s s1 -> G seen s1.
Proof.
  intros seen s s1 [a b c d e] L M (f & g & h). constructor.
  - exact L.
  - now rewrite M.
  - intros id H. apply c. unfold known in *. now rewrite <- M.
  - intros t Ht. rewrite f. destruct (h t Ht) as [X|[X Y]]; [exact (d t X)|]. split; [exact X|exact (c _ Y)].
  - intros id H. rewrite g; [exact (e id H)|]. intro X. exact (H (c _ X)).
Qed.
Lemma core_frs : forall K s s1 s2, frs K s s1 -> same_core s1 s2 -> frs K s s2.
Proof. intros K s s1 s2 (a & b & c) (e1 & e2 & e3 & e4 & e5 & e6 & e7). unfold frs, St in *. rewrite e1, e3, e5. auto. Qed.
Lemma G_for_all : forall f seen s s1 o, f_an f -> G seen s -> for_all_projects f s = (s1, o) -> G seen s1 /\ announced o.
Proof.
  intros f seen s s1 o F Gs E. destruct (for_all_each _ _ _ _ E) as (l & s2 & Ea & El & C).
  destruct (each_an f F _ _ _ _ _ (G_loc _ _ Gs) (G_nd _ _ Gs) Ea) as (a & b & c & d). split; [|exact d].
  apply (G_frs seen s); auto.
  - rewrite El. eapply Forall_impl; [|exact a]. intros q Hq. exact (loc_core _ _ _ Hq C).
  - now rewrite El.
  - apply core_frs with (s1 := s2); auto.
Qed.
Lemma G_on_project : forall f seen s s1 o id, f_an f -> (forall p p1 s2 o2, f p s = (p1, s2, o2) -> same_rest s s2) -> G seen s ->
  on_project id f s = Some (s1, o) -> G seen s1 /\ announced o.
Proof.
  intros f seen s s1 o id F R Gs E. destruct (on_project_some _ _ _ _ _ E R) as (a & p & b & p1 & s2 & Ep & Ei & Na & Ef & Ep1 & C).
  pose proof (G_loc _ _ Gs) as L. pose proof (G_nd _ _ Gs) as Nd. rewrite Ep in L, Nd. apply Forall_app in L. destruct L as [La Lb].
  inversion Lb as [|? ? Lp Lb']; subst. destruct (F _ _ _ _ _ Lp Ef) as (x & y & z & w). split; [|exact w].
  rewrite map_app in Nd. cbn in Nd. apply NoDup_remove in Nd. destruct Nd as [_ Nd].
  apply (G_frs seen s); auto.
  - rewrite Ep1. apply Forall_app. split; [|constructor].
    + rewrite Forall_forall in *. intros q Hq. apply (loc_core q s2); [|exact C]. apply (loc_other q s s2 (p_id p)); auto.
      intro X. apply Nd. apply in_or_app. left. rewrite X. now apply in_map.
    + exact (loc_core _ _ _ x C).
    + rewrite Forall_forall in *. intros q Hq. apply (loc_core q s2); [|exact C]. apply (loc_other q s s2 (p_id p)); auto.
      intro X. apply Nd. apply in_or_app. right. rewrite X. now apply in_map.
  - rewrite Ep1, Ep, !map_app. cbn. now rewrite y.
  - apply core_frs with (s1 := s2); [|exact C]. destruct z as (z1 & z2 & z3). split; [exact z1|].
    assert (Kp : known s (p_id p)) by (unfold known; rewrite Ep, map_app; apply in_or_app; right; now left).
    split.
    + intros i Hi. apply z2. intro X. subst. contradiction.
    + intros t Ht. destruct (z3 t Ht) as [X|[X Y]]; [now left|right]. split; [exact X|]. now rewrite Y.
Qed.
Lemma G_sub : forall seen s s1, G seen s -> s_gen s1 = s_gen s -> s_status s1 = s_status s ->
  (forall t, In t (s_tasks s1) -> In t (s_tasks s)) -> projects s1 = projects s -> G seen s1.
Proof.
  intros seen s s1 Gs a b c d. apply (G_frs seen s); auto.
  - rewrite d. eapply Forall_impl; [|exact (G_loc _ _ Gs)]. intros q (x & y & z). unfold loc, St. rewrite a, b. split; [exact x|]. split; auto.
  - now rewrite d.
  - split; [exact a|]. split; [intros; unfold St; now rewrite a, b|]. auto.
Qed.
Lemma G_remove : forall seen s s1 o id, G seen s -> remove_dedicates id s = (s1, o) -> G seen s1 /\ announced o.
Proof.
  intros seen s s1 o id Gs E. unfold remove_dedicates in E. destruct (existsb _ _); inversion E; subst; clear E; [|split; [exact Gs|apply announced_nil]].
  split; [|apply announced_quiet; repeat constructor]. destruct Gs as [a b c d e].
  unfold projects in *. cbn in b. inversion b as [|? ? b1 b2]; subst. destruct (remove_first_ids id _ b2) as [r1 r2].
  constructor; cbn; auto.
  - inversion a as [|? ? a1 a2]; subst. constructor; [exact a1|]. apply Forall_forall. intros q Hq. rewrite Forall_forall in a2. exact (a2 q (remove_first_in _ _ _ Hq)).
  - constructor; [|exact r1]. intro X. apply r2 in X. tauto.
  - intros i Hi. apply c. unfold known in *. cbn in *. destruct Hi as [Hi|Hi]; [now left|right]. apply r2 in Hi. tauto.
Qed.
Lemma G_sched : forall seen clean r s s1 o, G seen s -> (forall s2 o2, r = Some (s2, o2) -> G seen s2 /\ announced o2) ->
  then_schedule clean r s = (s1, o) -> G seen s1 /\ announced o.
Proof.
  intros seen clean [[s2 o2]|] s s1 o Gs H E; cbn in E.
  - destruct (on_any_reason clean s2) as [s3 o3] eqn:Eo. inversion E; subst. destruct (H _ _ eq_refl) as [x y].
    destruct (G_for_all _ _ _ _ _ (consider_an clean) x Eo) as [z w]. split; [exact z|now apply announced_app].
  - inversion E; subst. split; [apply (G_sub seen s); auto|apply announced_quiet; repeat constructor].
Qed.
Lemma G_inner : forall seen i s s1 o, G seen s -> process_inner i s = Some (s1, o) -> G seen s1 /\ announced o.
Proof.
  intros seen i s s1 o Gs E. destruct i; cbn in E.
  - eapply G_on_project; [apply (change_an true reason_entry)| |exact Gs|exact E]. intros; eapply change_rest; eauto.
  - inversion E as [E0]. exact (G_remove _ _ _ _ _ Gs E0).
  - eapply G_on_project; [apply change_task_an| |exact Gs|exact E]. intros; eapply change_task_rest; eauto.
  - inversion E as [E0]. eapply G_for_all; [|exact Gs|exact E0]. intros p ? ? ? ?. apply change_an.
  - inversion E as [E0]. eapply G_for_all; [|exact Gs|exact E0]. intros p ? ? ? ?. apply change_an.
  - inversion E as [E0]. eapply G_for_all; [|exact Gs|exact E0]. intros p ? ? ? ?. apply change_an.
  - inversion E; subst. split; [exact Gs|apply announced_nil].
Qed.
Definition also (e : event) (seen : list nat) : list nat := match e with Recreate id _ => id :: seen | _ => seen end.
Lemma existsb_known : forall id s, existsb (fun p => p_id p =? id) (s_dedicates s) = true -> known s id.
Proof.
  intros id s H. apply existsb_exists in H. destruct H as (p & Hp & He). apply Nat.eqb_eq in He. subst.
  unfold known, projects. cbn. right. now apply in_map.
Qed.
Lemma G_step : forall seen s e s1 o, G seen s -> is_reload e = false -> (forall id en, e = Recreate id en -> ~ In id seen) ->
  step s e = (s1, o) -> G (also e seen) s1 /\ announced o.
Proof.
  intros seen s e s1 o Gs R Fr E. unfold step in E. destruct (s_dead s).
  { inversion E; subst. split; [|apply announced_nil]. destruct e; auto. cbn.
    destruct Gs as [a b c d f]. constructor; auto.
    - intros i Hi. right. auto.
    - intros t Ht. destruct (d t Ht). split; [auto|now right].
    - intros i Hi. apply f. intro X. apply Hi. now right. }
  destruct e as [i clean|clean|n ok| |id entry|entry]; cbn [also].
  - eapply G_sched; [exact Gs| |exact E]. intros s2 o2 X. eapply G_inner; eauto.
  - destruct (s_queue s) as [|a q]; [inversion E; subst; split; [exact Gs|apply announced_nil]|].
    destruct (tell_ext a (set_queue s q)) as [s2 o2] eqn:Et. destruct (then_schedule _ _ s2) as [s3 o3] eqn:Es. inversion E; subst; clear E.
    assert (Gq : G seen (set_queue s q)) by (apply (G_sub seen s); auto).
    assert (X : G seen s2 /\ announced o2).
    { unfold tell_ext in Et. destruct (on_project _ _ _) as [[sx ox]|] eqn:Eo; inversion Et; subst; [|split; [exact Gq|apply announced_nil]].
      eapply G_on_project; [apply ext_an| |exact Gq|exact Eo]. intros; eapply ext_rest; eauto. }
    destruct X as [x1 x2].
    assert (Y : G seen s1 /\ announced o3).
    { eapply G_sched; [exact x1| |exact Es]. intros s4 o4 Z. eapply G_on_project; [apply pc_an| |exact x1|exact Z]. intros; eapply pc_rest; eauto. }
    destruct Y. split; [assumption|now apply announced_app].
  - destruct (nth_error (s_tasks s) n) as [[g sn]|] eqn:Nt; [|inversion E; subst; split; [exact Gs|apply announced_nil]].
    destruct (nth_split' _ _ _ _ Nt) as (ta & tb & Ts & Dr). rewrite Dr in E. apply nth_error_In in Nt.
    destruct (G_task _ _ Gs _ Nt) as [Hg Hs]. cbn in Hg, Hs. subst g.
    destruct (status _ _ _ _ _) as [s2 o2] eqn:St0. destruct (notify_compile _ _ _) as [s3 o3] eqn:En. inversion E; subst; clear E.
    assert (G0 : G seen (set_tasks s (ta ++ tb))).
    { apply (G_sub seen s); auto. intros t Ht. cbn in Ht. rewrite Ts. apply in_or_app. apply in_app_or in Ht. cbn. tauto. }
    pose proof (status_rest (s_gen s) (sn_id sn) (sn_rev sn) (if ok then Success else Failure) (set_tasks s (ta ++ tb))) as Sr.
    assert (G2 : G seen s2 /\ Forall quiet o2).
    { rewrite St0 in Sr. cbn in Sr. destruct Sr as (r1 & r2 & r3 & r4 & r5).
      change (s_gen s) with (s_gen (set_tasks s (ta ++ tb))) in St0. destruct (status_fr _ _ _ _ _ _ St0) as (a & b & c & d).
      split; [|exact d]. assert (Ep : projects s2 = projects s) by (unfold projects; rewrite r3, r4; reflexivity).
      destruct a as (a1 & a2 & a3). destruct G0 as [h1 h2 h3 h4 h5]. constructor.
      - rewrite Ep. rewrite Forall_forall in *. intros p Hp. destruct (h1 p Hp) as (l1 & l2 & l3).
        destruct (Nat.eq_dec (p_id p) (sn_id sn)) as [Eq|Ne].
        + pose proof (G_loc _ _ Gs) as Gl. rewrite Forall_forall in Gl. destruct (Gl p Hp) as (_ & _ & m3).
          specialize (m3 _ Nt (eq_sym Eq)). cbn in m3. split; [rewrite Eq in *; rewrite b; lia|]. split; [exact l2|].
          intros t Ht. rewrite c in Ht. exact (l3 t Ht).
        + split; [rewrite a2; auto|]. split; [exact l2|]. intros t Ht. rewrite c in Ht. exact (l3 t Ht).
      - rewrite Ep. exact h2.
      - intros id Hid. apply h3. unfold known in *. rewrite Ep in Hid. exact Hid.
      - intros t Ht. rewrite c in Ht. rewrite a1. exact (h4 t Ht).
      - intros id Hid. rewrite a2; [exact (h5 id Hid)|]. intro X. subst. contradiction. }
    destruct G2 as [g1 g2].
    destruct (notify_an 0 _ _ _ _ _ En) as (n1 & n2 & n3). split; [|apply announced_app; now apply announced_quiet].
    unfold notify_compile in En. destruct (_ <=? _); inversion En; subst; [exact g1|]. apply (G_sub seen s2); auto.
  - inversion E; subst. split; [|apply announced_nil]. destruct Gs as [a b c d f].
    assert (Sn : p_id (fst (snapshot (s_primary s))) = p_id (s_primary s) /\ loc (fst (snapshot (s_primary s))) s).
    { unfold projects in a. inversion a as [|? ? a1 a2]; subst. unfold snapshot. destruct (p_snap (s_primary s)) as [sn|] eqn:Ps.
      - destruct (_ =? _); cbn; [split; [reflexivity|exact a1]|]. split; [reflexivity|]. destruct a1 as (x & y & z).
        split; [exact x|]. split; [|exact z]. intros k Hk. inversion Hk; subst. reflexivity.
      - cbn. split; [reflexivity|]. destruct a1 as (x & y & z).
        split; [exact x|]. split; [|exact z]. intros k Hk. inversion Hk; subst. reflexivity. }
    destruct Sn as [Si Sl].
    assert (Mp : map p_id (projects (set_primary s (fst (snapshot (s_primary s))))) = map p_id (projects s)) by (cbn; now rewrite Si).
    constructor.
    + unfold projects in *. cbn. inversion a; subst. constructor; assumption.
    + rewrite Mp. exact b.
    + intros id Hid. apply c. unfold known in *. rewrite Mp in Hid. exact Hid.
    + exact d.
    + exact f.
  - specialize (Fr id entry eq_refl).
    assert (Ex : existsb (fun p => p_id p =? id) (s_dedicates s) = false).
    { destruct (existsb _ _) eqn:X; [|reflexivity]. exfalso. apply existsb_known in X. exact (Fr (G_seen _ _ Gs _ X)). }
    unfold remove_dedicates in E. rewrite Ex in E. inversion E; subst; clear E. split; [|apply announced_quiet; repeat constructor].
    destruct Gs as [a b c d f]. constructor.
    + unfold projects in *. cbn. inversion a; subst. constructor; [assumption|]. apply Forall_app. split; [assumption|]. constructor; [|constructor].
      unfold loc. cbn. split; [unfold St in *; cbn; rewrite f; auto; lia|]. split; [discriminate|].
      intros t Ht Hi. destruct (d t Ht) as [_ X]. rewrite Hi in X. contradiction.
    + unfold projects in *. cbn in *. inversion b as [|? ? b1 b2]; subst. rewrite map_app. cbn. constructor.
      * intro X. apply in_app_or in X. destruct X as [X|[X|[]]]; [contradiction|].
        apply Fr. rewrite X. apply c. unfold known, projects. cbn. now left.
      * apply NoDup_snoc; [exact b2|]. intro X. apply Fr. apply c. unfold known, projects. cbn. now right.
    + intros i Hi. unfold known, projects in Hi. cbn in Hi. destruct Hi as [Hi|Hi].
      * right. apply c. unfold known, projects. cbn. now left.
      * rewrite map_app in Hi. apply in_app_or in Hi. destruct Hi as [Hi|[Hi|[]]]; [right; apply c; unfold known, projects; cbn; now right|left; exact Hi].
    + intros t Ht. cbn in Ht. destruct (d t Ht). split; [auto|now right].
    + intros i Hi. unfold St in *. cbn. apply f. intro X. apply Hi. now right.
  - discriminate R.
Qed.
Lemma G_run : forall es seen s s1 o, G seen s -> forallb (fun e => negb (is_reload e)) es = true ->
  NoDup (created es) -> (forall id, In id (created es) -> ~ In id seen) -> run s es = (s1, o) -> announced o.
Proof.
  induction es as [|e es IH]; intros seen s s1 o Gs R Nd Fr E; cbn in E; [inversion E; subst; apply announced_nil|].
  destruct (step s e) as [s2 o2] eqn:Es. destruct (run s2 es) as [s3 o3] eqn:Er. inversion E; subst; clear E.
  cbn in R. apply andb_true_iff in R. destruct R as [R1 R2]. apply negb_true_iff in R1.
  assert (F1 : forall id en, e = Recreate id en -> ~ In id seen) by (intros id en ->; apply Fr; cbn; now left).
  destruct (G_step _ _ _ _ _ Gs R1 F1 Es) as [G2 A2]. apply announced_app; [exact A2|].
  apply (IH (also e seen) s2 s1 o3); auto.
  - destruct e; auto. cbn in Nd. now inversion Nd.
  - intros id Hid. destruct e; cbn in *; auto. inversion Nd; subst. intros [X|X]; [subst; contradiction|]. apply (Fr id); auto.
Qed.
Lemma starts_are_reported : forall entry es, forallb (fun e => negb (is_reload e)) es = true -> NoDup (0 :: created es) ->
  announced (snd (run (init entry) es)).
Proof.
  intros entry es R Nd. inversion Nd as [|? ? n1 n2]; subst. destruct (run (init entry) es) as [s o] eqn:E. cbn.
  apply (G_run es [0] (init entry) s o); auto.
  - constructor; cbn.
    + constructor; [|constructor]. unfold loc. cbn. split; [unfold St; cbn; lia|]. split; [discriminate|]. intros t [].
    + repeat constructor. auto.
    + intros id [H|[]]. left. exact H.
    + intros t [].
    + reflexivity.
  - intros id H [X|[]]. subst. contradiction.
Qed.
