From Coq Require Import List String Bool Arith ZArith Lia.
From Verif Require Import CfgModel CfgSpec.
Import ListNotations.
Open Scope list_scope.

Lemma registered_app c l1 : forall b l2, registered c b (l1 ++ l2) =
  match registered c b l1 with Some b' => registered c b' l2 | None => None end.
Proof.
  induction l1 as [|x l1 IH]; intros b l2; [reflexivity|].
  destruct x as [c'|c'| | | | |]; cbn; auto; destruct (cap_eqb c c'); auto; destruct b; auto.
Qed.

Lemma enable_tokens_spec e s : let (s', o) := enable_tokens e s in
  registered CapTokens (s_tokens s) o = Some (s_tokens s') /\
  (forall b, registered CapFormat b o = Some b) /\
  s_const s' = s_const s /\ s_config s' = s_config s /\ s_fmt s' = s_fmt s /\
  (dyn_tokens (s_const s) = true -> s_tokens s' = e) /\
  (dyn_tokens (s_const s) = false -> s_tokens s' = s_tokens s /\ o = []).
Proof.
  unfold enable_tokens. destruct s as [k c t f]. cbn. destruct (dyn_tokens k); [|cbn; repeat split; congruence].
  destruct e, t; cbn; repeat split; congruence.
Qed.
Lemma enable_fmt_spec e s : let (s', o) := enable_fmt e s in
  registered CapFormat (s_fmt s) o = Some (s_fmt s') /\
  (forall b, registered CapTokens b o = Some b) /\
  s_const s' = s_const s /\ s_config s' = s_config s /\ s_tokens s' = s_tokens s /\
  (dyn_fmt (s_const s) = true -> s_fmt s' = e) /\
  (dyn_fmt (s_const s) = false -> s_fmt s' = s_fmt s /\ o = []).
Proof.
  unfold enable_fmt. destruct s as [k c t f]. cbn. destruct (dyn_fmt k); [|cbn; repeat split; congruence].
  destruct e, f; cbn; repeat split; congruence.
Qed.

(** No (un)registrations at all. *)
Definition noreg (l : list eff) : Prop :=
  forall x, In x l -> match x with Register _ | Unregister _ => False | _ => True end.
Lemma noreg_reg c b l : noreg l -> registered c b l = Some b.
Proof.
  revert b. induction l as [|x l IH]; intros b H; [reflexivity|].
  assert (noreg l) by (intros y Hy; apply H; right; auto).
  specialize (H x (or_introl eq_refl)). destruct x; try contradiction; cbn; auto.
Qed.

Lemma fmt_enabled_formatter c : fmt_enabled c = match formatter c with None => false | _ => true end.
Proof. unfold fmt_enabled, formatter. destruct (c_set c FormatterMode); reflexivity. Qed.
Lemma formatter_eqb_spec a b : formatter_eqb a b = true <-> a = b.
Proof.
  destruct a as [[[m w] i]|], b as [[[m' w'] i']|]; cbn; split; intros H; try discriminate; try reflexivity.
  - apply andb_prop in H as [H H3]. apply andb_prop in H as [H1 H2].
    apply Nat.eqb_eq in H1, H2, H3. congruence.
  - inversion H; subst. rewrite !Nat.eqb_refl. reflexivity.
Qed.

(** A state is settled when registration follows the configuration. *)
Definition settled (s : st) : Prop :=
  (dyn_tokens (s_const s) = true -> s_tokens s = tokens_enabled (s_config s)) /\
  (dyn_fmt (s_const s) = true -> s_fmt s = fmt_enabled (s_config s)).

Definition follows (s s' : st) (o : list eff) : Prop :=
  registered CapTokens (s_tokens s) o = Some (s_tokens s') /\
  registered CapFormat (s_fmt s) o = Some (s_fmt s') /\ s_const s' = s_const s.
Definition silent (s s' : st) (o : list eff) : Prop :=
  (dyn_tokens (s_const s) = false -> forall x, In x o -> x <> Register CapTokens /\ x <> Unregister CapTokens) /\
  (dyn_fmt (s_const s) = false -> forall x, In x o -> x <> Register CapFormat /\ x <> Unregister CapFormat).

Lemma initialized_spec s : let (s', o) := initialized s in
  follows s s' o /\ s_config s' = s_config s /\
  ((s_tokens s = false /\ s_fmt s = false) \/ settled s -> settled s').
Proof.
  unfold initialized. destruct s as [k c t f]. cbn [s_const s_config].
  destruct k as [dt df dc]. unfold enable_tokens, enable_fmt, settled, follows. cbn [dyn_tokens dyn_fmt dyn_cfg].
  destruct dt, df, dc, (tokens_enabled c) eqn:Et, (fmt_enabled c) eqn:Ef, t, f; cbn; rewrite ?Et, ?Ef;
    repeat split; intros; try congruence; try tauto;
    match goal with H : _ \/ _ |- _ => destruct H as [[? ?]|[H1 H2]]; try congruence;
      try (specialize (H1 eq_refl)); try (specialize (H2 eq_refl)); congruence end.
Qed.

Lemma changed_spec O m s : let '(s', o, err) := on_changed_configuration O m s in
  follows s s' o /\ (settled s -> settled s') /\
  (err = false -> s_config s' = fst (update_by_map O m)) /\
  (err = negb (snd (update_by_map O m))) /\ (err = true -> s' = s /\ o = []).
Proof.
  unfold on_changed_configuration. destruct (update_by_map O m) as [c ok] eqn:Eu. cbn [fst snd].
  destruct ok; [|unfold follows; cbn; split; [auto|]; split; [auto|]; split; [discriminate|auto]].
  set (s0 := mkSt (s_const s) c (s_tokens s) (s_fmt s)).
  set (o1 := if export_eqb (s_config s) c then [] else [ExportChanged]).
  set (o2 := if Bool.eqb (c_notify (s_config s)) (c_notify c) then [] else [StatusChanged (c_notify c)]).
  set (o3 := if primary_eqb O (s_config s) c then [] else [ReloadProjects]).
  assert (N : forall cp b, registered cp b (o1 ++ o2 ++ o3) = Some b).
  { intros cp b. apply noreg_reg. intros x Hx. unfold o1, o2, o3 in Hx. rewrite !in_app_iff in Hx.
    destruct (export_eqb _ _), (Bool.eqb _ _), (primary_eqb _ _ _); cbn in Hx; intuition subst; exact I. }
  assert (T : let (s1, o4) := if Nat.eqb (c_set (s_config s) SemanticTokens) (c_set c SemanticTokens) then (s0, [])
                else enable_tokens (tokens_enabled c) s0 in
     registered CapTokens (s_tokens s) o4 = Some (s_tokens s1) /\ (forall b, registered CapFormat b o4 = Some b) /\
     s_const s1 = s_const s /\ s_config s1 = c /\ s_fmt s1 = s_fmt s /\
     (dyn_tokens (s_const s) = true -> s_tokens s = tokens_enabled (s_config s) -> s_tokens s1 = tokens_enabled c)).
  { destruct (Nat.eqb_spec (c_set (s_config s) SemanticTokens) (c_set c SemanticTokens)) as [E|E].
    - cbn. repeat split; auto. intros _ H. rewrite H. unfold tokens_enabled. rewrite E. reflexivity.
    - pose proof (enable_tokens_spec (tokens_enabled c) s0) as H. destruct (enable_tokens _ s0) as [s1 o4].
      destruct H as (H1 & H2 & H3 & H4 & H5 & H6 & H7). repeat split; auto. }
  destruct (if Nat.eqb _ _ then (s0, []) else enable_tokens (tokens_enabled c) s0) as [s1 o4].
  destruct T as (T1 & T2 & T3 & T4 & T5 & T6).
  assert (F : let (s2, o5) := if formatter_eqb (formatter (s_config s)) (formatter c) then (s1, [])
                    else let (s2, o) := enable_fmt (match formatter c with None => false | _ => true end) s1 in
                         (s2, o ++ [FormatterChanged]) in
     registered CapFormat (s_fmt s1) o5 = Some (s_fmt s2) /\ (forall b, registered CapTokens b o5 = Some b) /\
     s_const s2 = s_const s /\ s_config s2 = c /\ s_tokens s2 = s_tokens s1 /\
     (dyn_fmt (s_const s) = true -> s_fmt s = fmt_enabled (s_config s) -> s_fmt s2 = fmt_enabled c)).
  { destruct (formatter_eqb (formatter (s_config s)) (formatter c)) eqn:E.
    - apply formatter_eqb_spec in E. repeat split; auto. intros _ H. rewrite T5, H.
      rewrite !fmt_enabled_formatter, E. reflexivity.
    - pose proof (enable_fmt_spec (match formatter c with None => false | _ => true end) s1) as H.
      destruct (enable_fmt _ s1) as [s2 o]. destruct H as (H1 & H2 & H3 & H4 & H5 & H6 & H7).
      repeat split; try congruence.
      + rewrite registered_app, H1. reflexivity.
      + intros b. rewrite registered_app, H2. reflexivity.
      + intros Hd _. rewrite fmt_enabled_formatter. apply H6. congruence. }
  destruct (if formatter_eqb _ _ then (s1, []) else _) as [s2 o5].
  destruct F as (F1 & F2 & F3 & F4 & F5 & F6).
  replace (o1 ++ o2 ++ o3 ++ o4 ++ o5) with ((o1 ++ o2 ++ o3) ++ o4 ++ o5) by (rewrite <- !app_assoc; reflexivity).
  split.
  { split; [|split; [|exact F3]].
    - rewrite registered_app, N, registered_app, T1, F2. congruence.
    - rewrite registered_app, N, registered_app, T2. rewrite <- T5. exact F1. }
  split.
  { intros [S1 S2]. split; intros Hd.
    - rewrite F5, F4. rewrite F3 in Hd. auto.
    - rewrite F4. rewrite F3 in Hd. auto. }
  split; [intros _; exact F4|]. split; [reflexivity|discriminate].
Qed.

Lemma step_spec O s e : let (s', o) := step O s e in
  follows s s' o /\ (settled s -> settled s').
Proof.
  assert (Stay : forall o, noreg o -> follows s s o /\ (settled s -> settled s)).
  { intros o H. unfold follows. rewrite !noreg_reg by auto. auto. }
  destruct e as [|j|[l|]]; cbn [step].
  - pose proof (initialized_spec s). destruct (initialized s). tauto.
  - destruct j; try (apply Stay; intros x [<-|[]]; exact I).
    pose proof (changed_spec O l s). destruct (on_changed_configuration O l s) as [[s' o] err]. tauto.
  - pose proof (changed_spec O (values_to_map l) s). destruct (on_changed_configuration O _ s) as [[s' o] err]. tauto.
  - apply Stay. intros x [].
Qed.

Lemma run_spec O evs : forall s, let (s', o) := run O s evs in
  follows s s' o /\ (settled s -> settled s').
Proof.
  induction evs as [|e evs IH]; intros s; cbn [run].
  - unfold follows. cbn. auto.
  - pose proof (step_spec O s e) as H1. destruct (step O s e) as [s1 o1].
    pose proof (IH s1) as H2. destruct (run O s1 evs) as [s2 o2].
    destruct H1 as [(A1 & A2 & A3) A4], H2 as [(B1 & B2 & B3) B4]. split; [|tauto].
    unfold follows. rewrite !registered_app, A1, A2. repeat split; congruence.
Qed.

Lemma run_app O a : forall s b, run O s (a ++ b) =
  let (s1, o1) := run O s a in let (s2, o2) := run O s1 b in (s2, o1 ++ o2).
Proof.
  induction a as [|e a IH]; intros s b; cbn [run app].
  - destruct (run O s b); reflexivity.
  - destruct (step O s e) as [s1 o1]. rewrite IH. destruct (run O s1 a) as [s2 o2].
    destruct (run O s2 b) as [s3 o3]. rewrite app_assoc. reflexivity.
Qed.

Lemma alternation O k opts evs :
  let (s, o) := run O (start O k opts) (Initialized :: evs) in
  (dyn_tokens k = true -> registered CapTokens false o = Some (tokens_enabled (s_config s))) /\
  (dyn_fmt k = true -> registered CapFormat false o = Some (fmt_enabled (s_config s))).
Proof.
  pose proof (run_spec O evs (fst (initialized (start O k opts)))) as H2.
  pose proof (initialized_spec (start O k opts)) as H1.
  cbn [run step]. destruct (initialized (start O k opts)) as [s1 o1]. cbn [fst] in H2.
  destruct (run O s1 evs) as [s2 o2].
  destruct H1 as [(A1 & A2 & A3) (A4 & A5)], H2 as [(B1 & B2 & B3) B4].
  assert (Hs : settled s2) by (apply B4, A5; left; auto).
  destruct Hs as [S1 S2]. rewrite !registered_app. cbn in A1, A2, A3. rewrite A1, A2, B1, B2.
  rewrite B3, A3 in S1, S2. split; intros Hd; f_equal; auto.
Qed.

(** Without client support nothing is ever (un)registered. *)
Lemma changed_silent O m s : let '(s', o, _) := on_changed_configuration O m s in
  s_const s' = s_const s /\ silent s s' o.
Proof.
  pose proof (changed_spec O m s) as Hc. destruct (on_changed_configuration O m s) as [[s' o] err] eqn:E.
  destruct Hc as ((_ & _ & Hk) & _). split; [exact Hk|].
  unfold on_changed_configuration in E. destruct (update_by_map O m) as [c ok]. destruct ok.
  2:{ inversion E; subst. split; intros _ x []. }
  set (s0 := mkSt (s_const s) c (s_tokens s) (s_fmt s)) in *.
  set (P := if Nat.eqb (c_set (s_config s) SemanticTokens) (c_set c SemanticTokens) then (s0, []) else enable_tokens (tokens_enabled c) s0) in *.
  assert (H1 : s_const (fst P) = s_const s /\ (forall x, In x (snd P) -> x = Register CapTokens \/ x = Unregister CapTokens)
     /\ (dyn_tokens (s_const s) = false -> snd P = [])).
  { unfold P. destruct (Nat.eqb _ _); [cbn; repeat split; auto; intros x []|].
    unfold enable_tokens. cbn. destruct (dyn_tokens (s_const s)); [|cbn; repeat split; auto; intros x []].
    destruct (tokens_enabled c), (s_tokens s); cbn; repeat split; auto; try discriminate; intros x; cbn; intuition. }
  destruct P as [s1 o4]. cbn [fst snd] in H1. destruct H1 as (K1 & H1 & H1').
  set (Q := if formatter_eqb (formatter (s_config s)) (formatter c) then (s1, [])
            else let (s2, o) := enable_fmt match formatter c with Some _ => true | None => false end s1 in (s2, o ++ [FormatterChanged])) in *.
  assert (H2 : (forall x, In x (snd Q) -> x = Register CapFormat \/ x = Unregister CapFormat \/ x = FormatterChanged)
     /\ (dyn_fmt (s_const s) = false -> forall x, In x (snd Q) -> x = FormatterChanged)).
  { unfold Q. destruct (formatter_eqb _ _); [split; [intros x []|intros _ x []]|].
    unfold enable_fmt. rewrite K1. destruct (dyn_fmt (s_const s)).
    - destruct (match formatter c with Some _ => true | None => false end), (s_fmt s1); cbn; split; try discriminate; intuition.
    - cbn. split; intuition. }
  destruct Q as [s2 o5]. cbn [snd] in H2. destruct H2 as [H2 H2']. inversion E; subst. clear E.
  split; intros Hd x Hx; rewrite !in_app_iff in Hx.
  - rewrite (H1' Hd) in Hx. destruct Hx as [Hx|[Hx|[Hx|[[]|Hx]]]].
    + destruct (export_eqb _ _); cbn in Hx; intuition (subst; discriminate).
    + destruct (Bool.eqb _ _); cbn in Hx; intuition (subst; discriminate).
    + destruct (primary_eqb _ _ _); cbn in Hx; intuition (subst; discriminate).
    + apply H2 in Hx as [->|[->| ->]]; split; discriminate.
  - destruct Hx as [Hx|[Hx|[Hx|[Hx|Hx]]]].
    + destruct (export_eqb _ _); cbn in Hx; intuition (subst; discriminate).
    + destruct (Bool.eqb _ _); cbn in Hx; intuition (subst; discriminate).
    + destruct (primary_eqb _ _ _); cbn in Hx; intuition (subst; discriminate).
    + apply H1 in Hx as [->| ->]; split; discriminate.
    + apply (H2' Hd) in Hx as ->; split; discriminate.
Qed.

Lemma step_silent O s e : let (s', o) := step O s e in s_const s' = s_const s /\ silent s s' o.
Proof.
  destruct e as [|j|[l|]]; cbn [step].
  - unfold initialized, silent, enable_tokens, enable_fmt. destruct s as [[dt df dc] c t f]. cbn.
    destruct dt, df, dc, (tokens_enabled c), (fmt_enabled c), t, f; cbn;
      repeat split; intros; try discriminate; cbn in *; intuition (subst; discriminate).
  - destruct j; try (split; [reflexivity|]; split; intros _ x [<-|[]]; split; discriminate).
    pose proof (changed_silent O l s). destruct (on_changed_configuration O l s) as [[s' o] err]. exact H.
  - pose proof (changed_silent O (values_to_map l) s). destruct (on_changed_configuration O _ s) as [[s' o] err]. exact H.
  - split; [reflexivity|]. split; intros _ x [].
Qed.
Lemma run_silent O evs : forall s, let (s', o) := run O s evs in
  s_const s' = s_const s /\ silent s s' o.
Proof.
  induction evs as [|e evs IH]; intros s; cbn [run].
  - split; [reflexivity|]. split; intros _ x [].
  - pose proof (step_silent O s e) as H1. destruct (step O s e) as [s1 o1].
    pose proof (IH s1) as H2. destruct (run O s1 evs) as [s2 o2].
    destruct H1 as (A3 & A1 & A2), H2 as (B3 & B1 & B2). split; [congruence|]. rewrite A3 in *.
    split; intros Hd x Hx; apply in_app_or in Hx as [Hx|Hx]; auto.
Qed.

(** The setting that counts. *)
Lemma tokens_enabled_key O m : tokens_enabled (fst (update_by_map O m)) = true <->
  get "semanticTokens" m <> Some (JStr "disable").
Proof.
  unfold tokens_enabled, update_by_map. cbn. unfold assign. cbn [read_key dec default].
  destruct (get "semanticTokens" m) as [[| | |s| |]|]; cbn [dec_semantic]; try (split; [discriminate|reflexivity]).
  destruct (String.eqb_spec s "disable") as [->|Hd]; [cbn; split; [discriminate|congruence]|].
  destruct (String.eqb_spec s "enable") as [->|He]; cbn; split; auto; intros; congruence.
Qed.
Lemma fmt_enabled_key O m : fmt_enabled (fst (update_by_map O m)) = true <->
  get "formatterMode" m = Some (JStr "typstyle") \/ get "formatterMode" m = Some (JStr "typstfmt").
Proof.
  unfold fmt_enabled, update_by_map. cbn. unfold assign. cbn [read_key dec default].
  destruct (get "formatterMode" m) as [[| | |s| |]|]; cbn [dec_formatter]; try (cbn; split; [discriminate|intros [|]; discriminate]).
  destruct (String.eqb_spec s "disable") as [->|Hd]; [cbn; split; [discriminate|intros [|]; discriminate]|].
  destruct (String.eqb_spec s "typstyle") as [->|He]; [cbn; split; auto|].
  destruct (String.eqb_spec s "typstfmt") as [->|Hf]; [cbn; split; auto|].
  cbn. split; [discriminate|intros [|]; congruence].
Qed.

Lemma last_setting O k opts evs m : snd (update_by_map O m) = true ->
  let o := snd (run O (start O k opts) (Initialized :: evs ++ [DidChange (JObj m)])) in
  (dyn_tokens k = true -> exists b, registered CapTokens false o = Some b /\
     (b = true <-> get "semanticTokens" m <> Some (JStr "disable"))) /\
  (dyn_fmt k = true -> exists b, registered CapFormat false o = Some b /\
     (b = true <-> get "formatterMode" m = Some (JStr "typstyle") \/ get "formatterMode" m = Some (JStr "typstfmt"))).
Proof.
  intros Hok. pose proof (alternation O k opts (evs ++ [DidChange (JObj m)])) as H.
  assert (Hc : s_config (fst (run O (start O k opts) (Initialized :: evs ++ [DidChange (JObj m)]))) = fst (update_by_map O m)).
  { rewrite app_comm_cons, run_app. destruct (run O _ (Initialized :: evs)) as [s1 o1]. cbn [run step].
    pose proof (changed_spec O m s1) as Hs. destruct (on_changed_configuration O m s1) as [[s2 o2] err].
    cbn. destruct Hs as (_ & _ & H3 & H4 & _). rewrite Hok in H4. auto. }
  destruct (run O (start O k opts) (Initialized :: evs ++ [DidChange (JObj m)])) as [s o]. cbn [fst snd] in *.
  destruct H as [H1 H2]. rewrite Hc in H1, H2. split; intros Hd.
  - exists (tokens_enabled (fst (update_by_map O m))). split; [auto|]. apply tokens_enabled_key.
  - exists (fmt_enabled (fst (update_by_map O m))). split; [auto|]. apply fmt_enabled_key.
Qed.

(** Rejected and repeated changes. *)
Lemma rejected O m s : snd (update_by_map O m) = false ->
  step O s (DidChange (JObj m)) = (s, []).
Proof.
  intros H. cbn [step]. pose proof (changed_spec O m s) as Hs.
  destruct (on_changed_configuration O m s) as [[s' o] err]. destruct Hs as (_ & _ & _ & H4 & H5).
  rewrite H in H4. destruct (H5 H4) as [-> ->]. reflexivity.
Qed.
Lemma same_config_quiet O m s : s_config s = fst (update_by_map O m) ->
  step O s (DidChange (JObj m)) = (s, []).
Proof.
  intros H. cbn [step]. unfold on_changed_configuration. destruct (update_by_map O m) as [c ok]. cbn in H. subst c.
  destruct ok; [|reflexivity].
  assert (E1 : export_eqb (s_config s) (s_config s) = true) by (unfold export_eqb; rewrite !Nat.eqb_refl, eqb_reflx; reflexivity).
  assert (E2 : primary_eqb O (s_config s) (s_config s) = true) by (unfold primary_eqb; rewrite !Nat.eqb_refl; reflexivity).
  assert (E3 : formatter_eqb (formatter (s_config s)) (formatter (s_config s)) = true) by (apply formatter_eqb_spec; reflexivity).
  rewrite E1, E2, E3, eqb_reflx, Nat.eqb_refl. cbn. destruct s; reflexivity.
Qed.
Lemma repeated O m s : step O (fst (step O s (DidChange (JObj m)))) (DidChange (JObj m))
  = (fst (step O s (DidChange (JObj m))), []).
Proof.
  destruct (snd (update_by_map O m)) eqn:Hok; [|rewrite (rejected O m s Hok); apply rejected; auto].
  apply same_config_quiet. cbn [step]. pose proof (changed_spec O m s) as Hs.
  destruct (on_changed_configuration O m s) as [[s' o] err]. destruct Hs as (_ & _ & H3 & H4 & _).
  rewrite Hok in H4. cbn. auto.
Qed.

(** Settings and keys. *)
Lemma own_key_partial O m m' s : s <> Lint -> get (own_key s) m = get (own_key s) m' ->
  c_set (fst (update_by_map O m)) s = c_set (fst (update_by_map O m')) s.
Proof.
  intros Hs H. cbn. unfold assign. replace (read_key s) with (own_key s) by (destruct s; congruence || reflexivity).
  rewrite H. reflexivity.
Qed.

(** Channels. *)
Lemma channels_partial O k m evs :
  (forall m', get "tinymist" m <> Some (JObj m')) -> snd (update_by_map O m) = true ->
  same_config (s_config (fst (run O (start O k None) (evs ++ [DidChange (JObj m)]))))
              (fst (initial_config O (Some (JObj m)))).
Proof.
  intros Hn Hok. rewrite run_app. destruct (run O (start O k None) evs) as [s1 o1]. cbn [run step].
  pose proof (changed_spec O m s1) as Hs. destruct (on_changed_configuration O m s1) as [[s2 o2] err].
  destruct Hs as (_ & _ & H3 & H4 & _). rewrite Hok in H4. cbn [fst]. rewrite (H3 H4).
  unfold initial_config, update. destruct (update_by_map O m) as [c ok]. cbn in *. subst ok.
  destruct (get "tinymist" m) as [[]|]; cbn; try (repeat split; reflexivity). exfalso. eapply Hn; eauto.
Qed.

(** Polling gives every listed key the client's value. *)
Lemma get_combine_notin k (ks : list string) (vs : list json) : ~ In k ks -> get k (combine ks vs) = None.
Proof.
  revert vs. induction ks as [|a ks IH]; intros vs H; [reflexivity|]. destruct vs as [|v vs]; [reflexivity|].
  cbn in *. destruct (String.eqb_spec k a) as [->|]; [tauto|]. apply IH. tauto.
Qed.
Lemma get_combine_map k (ks : list string) (f : string -> json) : In k ks ->
  get k (combine ks (map f ks)) = Some (f k).
Proof.
  induction ks as [|a ks IH]; intros H; [destruct H|]. cbn.
  destruct (String.eqb_spec k a) as [->|E]; [reflexivity|]. apply IH. destruct H; congruence || auto.
Qed.
Definition lookup (m : list (string * json)) (k : string) : json :=
  match get k m with Some v => v | None => JNull end.
Lemma pair_up_plain m (ks : list string) : (forall k, In k ks -> get ("tinymist." ++ k)%string m = None) ->
  pair_up (map (lookup m) (flat_map (fun i => [("tinymist." ++ i)%string; i]) ks)) = map (lookup m) ks.
Proof.
  induction ks as [|a ks IH]; intros H; [reflexivity|].
  cbn [flat_map app map pair_up]. rewrite IH by (intros; apply H; right; auto).
  unfold lookup at 1. rewrite (H a (or_introl eq_refl)). reflexivity.
Qed.
Lemma polled O m s : (forall k, In k config_items -> get ("tinymist." ++ k)%string m = None) ->
  (dec O s JNull = None \/ dec O s JNull = Some (default s)) ->
  In (read_key s) config_items ->
  c_set (fst (update_by_map O (values_to_map (answer_plain m)))) s = c_set (fst (update_by_map O m)) s.
Proof.
  intros Hp Hn Hi. unfold update_by_map. cbn [fst c_set]. unfold assign, values_to_map, answer_plain.
  change (map (fun k => match get k m with Some v => v | None => JNull end) get_items) with (map (lookup m) get_items).
  unfold get_items. rewrite (pair_up_plain m config_items Hp). rewrite (get_combine_map _ _ (lookup m) Hi).
  unfold lookup. destruct (get (read_key s) m) as [v|] eqn:E; [reflexivity|].
  destruct Hn as [->| ->]; reflexivity.
Qed.
