From Coq Require Import List Arith Bool Lia.
From Verif Require Import AssocModel AssocProof WatchModel WatchSpec.
Import ListNotations.

Lemma same_spec : forall a b, same a b = true <-> a = b.
Proof.
  intros [x|x] [y|y]; cbn; try (split; intro; discriminate); rewrite Nat.eqb_eq; split; intro H; [now subst|now inversion H|now subst|now inversion H].
Qed.
Lemma mem_spec : forall p l, mem p l = true <-> In p l.
Proof.
  intros p l. unfold mem. rewrite existsb_exists. split.
  - intros (x & H & E). apply Nat.eqb_eq in E. now subst.
  - intro H. exists p. now rewrite Nat.eqb_refl.
Qed.
Lemma reported_app : forall p a b r, reported p (a ++ b) r = reported p b (reported p a r).
Proof. induction a as [|[q|q f] a IH]; intros b r; cbn; auto. Qed.
(** The reports do not mention the path. *)
Definition silent (p : nat) (o : list report) : Prop := Forall (fun x => match x with Gone q | Now q _ => q <> p end) o.
Lemma reported_silent : forall p o r, silent p o -> reported p o r = r.
Proof.
  induction o as [|x o IH]; intros r H; [reflexivity|]. inversion H as [|? ? H1 H2]; subst.
  destruct x as [q|q f]; cbn; apply Nat.eqb_neq in H1; rewrite H1; auto.
Qed.
Lemma silent_app : forall p a b, silent p a -> silent p b -> silent p (a ++ b).
Proof. intros. now apply Forall_app. Qed.
(** No report about the path repeats what is already known. *)
Fixpoint newer (p : nat) (o : list report) (r : option file) : Prop :=
  match o with
  | [] => True
  | Gone q :: o => newer p o (if q =? p then None else r)
  | Now q f :: o => (q = p -> r <> Some f) /\ newer p o (if q =? p then Some f else r)
  end.
Lemma newer_app : forall p a b r, newer p (a ++ b) r <-> newer p a r /\ newer p b (reported p a r).
Proof. induction a as [|[q|q f] a IH]; intros b r; cbn; [tauto|apply IH|]. rewrite IH. tauto. Qed.
Lemma newer_silent : forall p o r, silent p o -> newer p o r.
Proof.
  induction o as [|x o IH]; intros r H; [exact I|]. inversion H as [|? ? H1 H2]; subst. destruct x as [q|q f]; cbn; [auto|]. split; [contradiction|auto].
Qed.

Record J (c : bool) (p : nat) (s : st) (r : option file) : Prop := {
  j_nd : NoDup (akeys (w_entries s));
  j_none : aget p (w_entries s) = None -> r = None;
  j_full : forall e f, aget p (w_entries s) = Some e -> e_prev e = Some f -> full f = true -> e_state e = None /\ r = Some f;
  j_clean : c = true -> full (w_disk s p) = true /\
    forall e, aget p (w_entries s) = Some e -> (e_prev e = None /\ e_state e = None /\ r = None) \/ exists f, e_prev e = Some f /\ full f = true
}.
Definition synced (p : nat) (s : st) : Prop :=
  forall e, aget p (w_entries s) = Some e -> full (w_disk s p) = true -> e_prev e = Some (w_disk s p).

(** Replacing the entry of the path by one with the same state. *)
Lemma J_same : forall c p s r s1 e1, J c p s r -> NoDup (akeys (w_entries s1)) -> w_disk s1 p = w_disk s p ->
  aget p (w_entries s1) = Some e1 ->
  match aget p (w_entries s) with
  | Some e => e_prev e1 = e_prev e /\ e_state e1 = e_state e
  | None => e_prev e1 = None /\ e_state e1 = None
  end -> J c p s1 r.
Proof.
  intros c p s r s1 e1 [a b d f] N D E H. constructor.
  - exact N.
  - intro X. congruence.
  - intros e g X Hp Hf. rewrite E in X. inversion X; subst. destruct (aget p (w_entries s)) as [e0|] eqn:E0.
    + destruct H as [H1 H2]. rewrite H2. apply (d e0 g eq_refl); congruence.
    + destruct H as [H1 H2]. congruence.
  - intro Hc. destruct (f Hc) as [f1 f2]. split; [now rewrite D|]. intros e X. rewrite E in X. inversion X; subst.
    destruct (aget p (w_entries s)) as [e0|] eqn:E0.
    + destruct H as [H1 H2]. rewrite H1, H2. exact (f2 e0 eq_refl).
    + destruct H as [H1 H2]. left. split; [exact H1|]. split; [exact H2|]. now apply b.
Qed.
Lemma J_frame : forall c p s r s1, J c p s r -> NoDup (akeys (w_entries s1)) -> w_disk s1 p = w_disk s p ->
  aget p (w_entries s1) = aget p (w_entries s) -> J c p s1 r.
Proof. intros c p s r s1 [a b d f] N D E. constructor; auto; rewrite ?E, ?D; auto. Qed.

Lemma look_other : forall p q s s1 o, look q s = (s1, o) -> NoDup (akeys (w_entries s)) -> q <> p ->
  aget p (w_entries s1) = aget p (w_entries s) /\ silent p o.
Proof.
  intros p q s s1 o E N Ne. unfold look in E. destruct (aget q (w_entries s)) as [e|]; [|inversion E; subst; split; [auto|constructor]].
  assert (Ne' : p <> q) by auto.
  destruct (e_prev e) as [[a|a]|]; destruct (w_disk s q) as [b|b]; try destruct (e_state e) as [[t0 y0]|];
    try destruct (b <? 2); try destruct (same _ _); try destruct (a =? b); try destruct (b =? 0); inversion E; subst; cbn;
    rewrite ?aget_aset_neq by exact Ne'; (split; [reflexivity|]); repeat constructor; exact Ne.
Qed.
Lemma look_all_facts : forall q s s1 o, look q s = (s1, o) -> NoDup (akeys (w_entries s)) ->
  NoDup (akeys (w_entries s1)) /\ w_disk s1 = w_disk s /\ w_life s1 = w_life s /\
  (forall e, aget q (w_entries s) = Some e -> exists e1, aget q (w_entries s1) = Some e1 /\ e_life e1 = e_life e /\
     e_watching e1 = e_watching e /\ e_seen e1 = e_seen e).
Proof.
  intros q s s1 o E N. unfold look in E. destruct (aget q (w_entries s)) as [e|] eqn:Eq; [|inversion E; subst; repeat split; auto; intros; discriminate].
  assert (R : s1 = s \/ exists st0 pr w, s1 = mkSt (w_life s) (w_tick s) (aset q (mkEntry (e_life e) (e_watching e) (e_seen e) st0 pr) (w_entries s)) w (w_disk s)).
  { destruct (e_prev e) as [[a|a]|]; destruct (w_disk s q) as [b|b]; try destruct (e_state e) as [[t0 y0]|];
    try destruct (b <? 2); try destruct (same _ _); try destruct (a =? b); try destruct (b =? 0); inversion E; subst;
    try (left; reflexivity); right; eexists; eexists; eexists; reflexivity. }
  destruct R as [->|(st0 & pr & w & ->)].
  - repeat split; auto. intros e0 X. inversion X; subst. exists e0. auto.
  - cbn. split; [now apply nodup_aset|]. split; [reflexivity|]. split; [reflexivity|]. intros e0 X. inversion X; subst.
    exists (mkEntry (e_life e0) (e_watching e0) (e_seen e0) st0 pr). rewrite aget_aset_eq. auto.
Qed.
Lemma look_self : forall c p s s1 o r, J c p s r -> look p s = (s1, o) ->
  J c p s1 (reported p o r) /\ synced p s1 /\ (c = true -> newer p o r).
Proof.
  intros c p s s1 o r Hj E. destruct (look_all_facts _ _ _ _ E (j_nd _ _ _ _ Hj)) as (N1 & D1 & _ & _).
  unfold look in E. destruct (aget p (w_entries s)) as [e|] eqn:Ep.
  2:{ inversion E; subst. split; [exact Hj|]. split; [intros e X; congruence|intros _; exact I]. }
  assert (Send : s1 = mkSt (w_life s) (w_tick s) (aset p (mkEntry (e_life e) (e_watching e) (e_seen e) None (Some (w_disk s p))) (w_entries s)) (w_wait s) (w_disk s) ->
    o = [Now p (w_disk s p)] -> (c = true -> r <> Some (w_disk s p)) ->
    J c p s1 (reported p o r) /\ synced p s1 /\ (c = true -> newer p o r)).
  { intros -> -> Hr. cbn. rewrite Nat.eqb_refl. split; [|split].
    - constructor; cbn; rewrite ?aget_aset_eq; auto; try discriminate.
      + intros e0 f X. inversion X; subst. cbn. intros Y _. inversion Y; subst. auto.
      + intro Hc. destruct (j_clean _ _ _ _ Hj Hc) as [c1 c2]. split; [exact c1|]. intros e0 X. inversion X; subst. cbn. right.
        eexists. split; [reflexivity|exact c1].
    - intros e0 X F. cbn in *. rewrite aget_aset_eq in X. inversion X; subst. reflexivity.
    - intro Hc. split; [intros _; exact (Hr Hc)|exact I]. }
  assert (Susp : forall x y, full (w_disk s p) = false ->
    s1 = mkSt (w_life s) (w_tick s) (aset p (mkEntry (e_life e) (e_watching e) (e_seen e) x (Some y)) (w_entries s)) (w_wait s1) (w_disk s) ->
    o = [] -> (full y = true -> e_prev e = Some y /\ x = e_state e) ->
    J c p s1 (reported p o r) /\ synced p s1 /\ (c = true -> newer p o r)).
  { intros x y F S1 -> Hy. rewrite S1. split; [|split; [|intros _; exact I]].
    - constructor; cbn; rewrite ?aget_aset_eq; try discriminate.
      + rewrite S1 in N1. exact N1.
      + intros e0 f X. inversion X; subst. cbn. intros Y G. inversion Y; subst. destruct (Hy G) as [H1 ->].
        exact (j_full _ _ _ _ Hj e f Ep H1 G).
      + intro Hc. destruct (j_clean _ _ _ _ Hj Hc) as [c1 _]. congruence.
    - intros e0 X G. cbn in *. congruence. }
  assert (Stay : s1 = s -> o = [] -> synced p s -> J c p s1 (reported p o r) /\ synced p s1 /\ (c = true -> newer p o r)).
  { intros -> -> Hs. split; [exact Hj|]. split; [exact Hs|intros _; exact I]. }
  assert (Fresh : forall f, e_prev e = Some f -> f <> w_disk s p -> c = true -> r <> Some (w_disk s p)).
  { intros f H1 H2 Hc. destruct (j_clean _ _ _ _ Hj Hc) as [c1 c2]. destruct (c2 e Ep) as [(X & _)|(g & X & Y)]; [congruence|].
    destruct (j_full _ _ _ _ Hj e g Ep X Y) as [_ ->]. intro Z. inversion Z. congruence. }
  assert (NoSync : full (w_disk s p) = false -> synced p s) by (intros F e0 X G; congruence).
  destruct (w_disk s p) as [b|b] eqn:Ed; destruct (e_prev e) as [[a|a]|] eqn:Pr.
  - destruct (Nat.eqb_spec a b) as [->|Ne].
    + inversion E; subst. apply Stay; auto. intros e0 X _. rewrite Ep in X. inversion X; subst. congruence.
    + destruct (e_state e) as [[t0 y0]|] eqn:Es.
      * destruct (Nat.eqb_spec b 0) as [->|Nb].
        -- inversion E; subst. apply Stay; auto.
        -- inversion E; subst. apply Send; auto. apply (Fresh (Ok a)); [reflexivity|]. congruence.
      * destruct (Nat.eqb_spec b 0) as [->|Nb].
        -- inversion E; subst. apply (Susp (Some (w_tick s, Ok 0)) (Ok 0)); auto. discriminate.
        -- inversion E; subst. apply Send; auto. apply (Fresh (Ok a)); [reflexivity|]. congruence.
  - inversion E; subst. apply Send; auto. apply (Fresh (Err a)); [reflexivity|discriminate].
  - inversion E; subst. apply Send; auto. intro Hc. destruct (j_clean _ _ _ _ Hj Hc) as [_ c2].
    destruct (c2 e Ep) as [(_ & _ & ->)|(f & X & _)]; [discriminate|congruence].
  - destruct (e_state e) as [[t0 y0]|] eqn:Es.
    + inversion E; subst. apply (Susp (Some (t0, Err b)) (Ok a)); auto. intro F. exfalso.
      destruct (j_full _ _ _ _ Hj e (Ok a) Ep Pr F). congruence.
    + destruct (b <? 2); [inversion E; subst; apply (Susp (Some (w_tick s, Err b)) (Err b)); auto; discriminate|].
      inversion E; subst. apply Send; auto. apply (Fresh (Ok a)); [reflexivity|discriminate].
  - destruct (e_state e) as [[t0 y0]|] eqn:Es.
    + inversion E; subst. apply (Susp (Some (t0, Err b)) (Err a)); auto. discriminate.
    + destruct (b <? 2); [inversion E; subst; apply (Susp (Some (w_tick s, Err b)) (Err b)); auto; discriminate|].
      destruct (same (Err a) (Err b)) eqn:Sa.
      * inversion E; subst. apply Stay; auto.
      * inversion E; subst. apply Send; auto. apply (Fresh (Err a)); [reflexivity|]. intro X. apply same_spec in X. congruence.
  - inversion E; subst. apply Send; auto. intro Hc. destruct (j_clean _ _ _ _ Hj Hc) as [c1 _]. rewrite Ed in c1. discriminate.
Qed.
Lemma look_J : forall c p q s s1 o r, J c p s r -> look q s = (s1, o) ->
  J c p s1 (reported p o r) /\ (c = true -> newer p o r) /\ (synced p s \/ q = p -> synced p s1).
Proof.
  intros c p q s s1 o r Hj E. destruct (Nat.eq_dec q p) as [->|Ne].
  - destruct (look_self _ _ _ _ _ _ Hj E) as (a & b & d). split; [exact a|]. split; [exact d|]. intros _. exact b.
  - destruct (look_all_facts _ _ _ _ E (j_nd _ _ _ _ Hj)) as (N1 & D1 & _ & _).
    destruct (look_other p _ _ _ _ E (j_nd _ _ _ _ Hj) Ne) as [A S]. rewrite (reported_silent p o r S). split; [|split].
    + apply (J_frame c p s); auto. now rewrite D1.
    + intros _. now apply newer_silent.
    + intros [Hs|X]; [|contradiction]. unfold synced. rewrite A, D1. exact Hs.
Qed.
Lemma look_all_J : forall c p ps s s1 o r, J c p s r -> look_all ps s = (s1, o) ->
  J c p s1 (reported p o r) /\ (c = true -> newer p o r) /\ (synced p s \/ In p ps -> synced p s1) /\ w_disk s1 = w_disk s.
Proof.
  induction ps as [|q ps IH]; intros s s1 o r Hj E; cbn in E.
  - inversion E; subst. split; [exact Hj|]. split; [intros _; exact I|]. split; [intros [H|[]]; exact H|reflexivity].
  - destruct (look q s) as [sa oa] eqn:El. destruct (look_all ps sa) as [sb ob] eqn:Er. inversion E; subst; clear E.
    destruct (look_J _ _ _ _ _ _ _ Hj El) as (a & b & d). destruct (IH _ _ _ _ a Er) as (a' & b' & d' & f').
    destruct (look_all_facts _ _ _ _ El (j_nd _ _ _ _ Hj)) as (_ & D1 & _ & _).
    rewrite reported_app, newer_app. split; [exact a'|]. split; [auto|]. split; [|congruence].
    intros [H|[->|H]]; apply d'; auto.
Qed.

(** The loop over dependencies. *)
Definition K (p : nat) (s : st) : Prop := forall e, aget p (w_entries s) = Some e -> e_seen e = true ->
  e_life e = w_life s /\ (full (w_disk s p) = true -> e_prev e = Some (w_disk s p)).
Lemma watch_one_other : forall w p q s s1 o, watch_one w q s = (s1, o) -> NoDup (akeys (w_entries s)) -> q <> p ->
  aget p (w_entries s1) = aget p (w_entries s) /\ silent p o.
Proof.
  intros w p q s s1 o E N Ne. unfold watch_one in E. destruct (e_seen _).
  - inversion E; subst. cbn. split; [apply aget_aset_neq; auto|constructor].
  - match type of E with look _ ?x = _ => set (s0 := x) in E end.
    assert (N0 : NoDup (akeys (w_entries s0))) by (cbn; now apply nodup_aset).
    destruct (look_other p _ _ _ _ E N0 Ne) as [a b]. split; [|exact b]. rewrite a. cbn. apply aget_aset_neq. auto.
Qed.
Lemma watch_one_facts : forall w q s s1 o, watch_one w q s = (s1, o) -> NoDup (akeys (w_entries s)) ->
  NoDup (akeys (w_entries s1)) /\ w_disk s1 = w_disk s /\ w_life s1 = w_life s /\
  (exists e1, aget q (w_entries s1) = Some e1 /\ e_life e1 = w_life s /\ e_seen e1 = true /\
    match aget q (w_entries s) with
    | Some e => e_watching e1 = if e_seen e then e_watching e else e_watching e || w q
    | None => e_watching e1 = w q
    end).
Proof.
  intros w q s s1 o E N. unfold watch_one in E. destruct (aget q (w_entries s)) as [e|] eqn:Eq; cbn [e_seen] in E.
  - destruct (e_seen e) eqn:Se.
    + inversion E; subst. cbn. split; [now apply nodup_aset|]. split; [reflexivity|]. split; [reflexivity|].
      eexists. rewrite aget_aset_eq. split; [reflexivity|]. cbn. auto.
    + match type of E with look _ ?x = _ => set (s0 := x) in E end.
      assert (N0 : NoDup (akeys (w_entries s0))) by (cbn; now apply nodup_aset).
      destruct (look_all_facts _ _ _ _ E N0) as (a & b & c & d). split; [exact a|]. split; [exact b|]. split; [exact c|].
      destruct (d _ (aget_aset_eq _ _ _ _)) as (e1 & x1 & x2 & x3 & x4). exists e1. cbn in *. auto.
  - match type of E with look _ ?x = _ => set (s0 := x) in E end.
    assert (N0 : NoDup (akeys (w_entries s0))) by (cbn; now apply nodup_aset).
    destruct (look_all_facts _ _ _ _ E N0) as (a & b & c & d). split; [exact a|]. split; [exact b|]. split; [exact c|].
    destruct (d _ (aget_aset_eq _ _ _ _)) as (e1 & x1 & x2 & x3 & x4). exists e1. cbn in *. auto.
Qed.
Lemma watch_one_self : forall c w p s s1 o r, J c p s r -> K p s -> watch_one w p s = (s1, o) ->
  J c p s1 (reported p o r) /\ K p s1 /\ (c = true -> newer p o r).
Proof.
  intros c w p s s1 o r Hj Hk E. pose proof (j_nd _ _ _ _ Hj) as N.
  destruct (watch_one_facts _ _ _ _ _ E N) as (N1 & D1 & L1 & e1 & x1 & x2 & x3 & _).
  unfold watch_one in E. destruct (aget p (w_entries s)) as [e|] eqn:Ep; cbn [e_seen] in E.
  - destruct (e_seen e) eqn:Se.
    + inversion E; subst. cbn. split; [|split; [|intros _; exact I]].
      * eapply J_same; [exact Hj|cbn; now apply nodup_aset|reflexivity|cbn; apply aget_aset_eq|]. rewrite Ep. cbn. auto.
      * intros e0 X _. cbn in *. rewrite aget_aset_eq in X. inversion X; subst. cbn. split; [reflexivity|]. intro F. exact (proj2 (Hk e Ep Se) F).
    + match type of E with look _ ?x = _ => set (s0 := x) in E end.
      assert (J0 : J c p s0 r).
      { eapply J_same; [exact Hj|cbn; now apply nodup_aset|reflexivity|cbn; apply aget_aset_eq|]. rewrite Ep. cbn. auto. }
      destruct (look_self _ _ _ _ _ _ J0 E) as (a & b & d). split; [exact a|]. split; [|exact d].
      intros e0 X _. rewrite x1 in X. inversion X; subst. split; [congruence|]. intro F. exact (b e0 x1 F).
  - match type of E with look _ ?x = _ => set (s0 := x) in E end.
    assert (J0 : J c p s0 r).
    { eapply J_same; [exact Hj|cbn; now apply nodup_aset|reflexivity|cbn; apply aget_aset_eq|]. rewrite Ep. cbn. auto. }
    destruct (look_self _ _ _ _ _ _ J0 E) as (a & b & d). split; [exact a|]. split; [|exact d].
    intros e0 X _. rewrite x1 in X. inversion X; subst. split; [congruence|]. intro F. exact (b e0 x1 F).
Qed.
Lemma watch_all_other : forall w p ps s s1 o, watch_all w ps s = (s1, o) -> NoDup (akeys (w_entries s)) -> ~ In p ps ->
  aget p (w_entries s1) = aget p (w_entries s) /\ silent p o.
Proof.
  induction ps as [|q ps IH]; intros s s1 o E N Ni; cbn in E; [inversion E; subst; split; [reflexivity|constructor]|].
  destruct (watch_one w q s) as [sa oa] eqn:El. destruct (watch_all w ps sa) as [sb ob] eqn:Er. inversion E; subst; clear E.
  assert (Ne : q <> p) by (intro X; apply Ni; now left).
  destruct (watch_one_facts _ _ _ _ _ El N) as (Na & _).
  destruct (watch_one_other w p q s sa oa El N Ne) as [a1 b1].
  destruct (IH _ _ _ Er Na) as [a2 b2]; [intro X; apply Ni; now right|].
  split; [congruence|now apply silent_app].
Qed.
Lemma watch_all_facts : forall w ps s s1 o, watch_all w ps s = (s1, o) -> NoDup (akeys (w_entries s)) ->
  NoDup (akeys (w_entries s1)) /\ w_disk s1 = w_disk s /\ w_life s1 = w_life s.
Proof.
  induction ps as [|q ps IH]; intros s s1 o E N; cbn in E; [inversion E; subst; auto|].
  destruct (watch_one w q s) as [sa oa] eqn:El. destruct (watch_all w ps sa) as [sb ob] eqn:Er. inversion E; subst; clear E.
  destruct (watch_one_facts _ _ _ _ _ El N) as (Na & Da & La & _). destruct (IH _ _ _ Er Na) as (a & b & c). repeat split; congruence || auto.
Qed.
Lemma watch_all_J : forall c w p ps s s1 o r, J c p s r -> K p s -> watch_all w ps s = (s1, o) ->
  J c p s1 (reported p o r) /\ K p s1 /\ (c = true -> newer p o r).
Proof.
  induction ps as [|q ps IH]; intros s s1 o r Hj Hk E; cbn in E; [inversion E; subst; split; [exact Hj|split; [exact Hk|intros _; exact I]]|].
  destruct (watch_one w q s) as [sa oa] eqn:El. destruct (watch_all w ps sa) as [sb ob] eqn:Er. inversion E; subst; clear E.
  pose proof (j_nd _ _ _ _ Hj) as N. destruct (watch_one_facts _ _ _ _ _ El N) as (Na & Da & La & _).
  assert (X : J c p sa (reported p oa r) /\ K p sa /\ (c = true -> newer p oa r)).
  { destruct (Nat.eq_dec q p) as [->|Ne]; [now apply (watch_one_self c w p s sa oa r)|].
    destruct (watch_one_other w p q s sa oa El N Ne) as [a b]. rewrite (reported_silent p oa r b). split; [|split].
    - apply (J_frame c p s); auto. now rewrite Da.
    - unfold K. rewrite a, Da, La. exact Hk.
    - intros _. now apply newer_silent. }
  destruct X as (x1 & x2 & x3). destruct (IH _ _ _ _ x1 x2 Er) as (y1 & y2 & y3).
  rewrite reported_app, newer_app. split; [exact y1|]. split; [exact y2|auto].
Qed.
Lemma watch_all_in : forall w p ps s s1 o, watch_all w ps s = (s1, o) -> NoDup (akeys (w_entries s)) ->
  (In p ps \/ (exists e, aget p (w_entries s) = Some e /\ e_seen e = true /\ e_life e = w_life s)) ->
  exists e, aget p (w_entries s1) = Some e /\ e_seen e = true /\ e_life e = w_life s1.
Proof.
  induction ps as [|q ps IH]; intros s s1 o E N H; cbn in E; [inversion E; subst; destruct H as [[]|H]; exact H|].
  destruct (watch_one w q s) as [sa oa] eqn:El. destruct (watch_all w ps sa) as [sb ob] eqn:Er. inversion E; subst; clear E.
  destruct (watch_one_facts _ _ _ _ _ El N) as (Na & Da & La & e1 & x1 & x2 & x3 & _).
  apply (IH _ _ _ Er Na). destruct (Nat.eq_dec q p) as [->|Ne].
  - right. exists e1. split; [exact x1|]. split; [exact x3|congruence].
  - destruct H as [[H|H]|(e & h1 & h2 & h3)]; [contradiction|now left|].
    right. destruct (watch_one_other w p q s sa oa El N Ne) as [a _]. exists e. rewrite a, La. auto.
Qed.

(** Maps and filters over the entries. *)
Lemma aget_on : forall p f l, aget p (on_entries f l) = option_map f (aget p l).
Proof. induction l as [|[q e] l IH]; cbn; [reflexivity|]. destruct (p =? q); [reflexivity|exact IH]. Qed.
Lemma keys_on : forall f l, akeys (on_entries f l) = akeys l.
Proof. intros. unfold akeys, on_entries. rewrite map_map. reflexivity. Qed.
Lemma aget_filter : forall p (g : entry -> bool) l, NoDup (akeys l) ->
  aget p (filter (fun x => g (snd x)) l) = match aget p l with Some e => if g e then Some e else None | None => None end.
Proof.
  induction l as [|[q e] l IH]; intro N; cbn; [reflexivity|]. inversion N as [|? ? N1 N2]; subst. destruct (Nat.eqb_spec p q) as [->|Ne].
  - destruct (g e); cbn; [now rewrite Nat.eqb_refl|]. rewrite IH by exact N2. apply aget_none in N1. now rewrite N1.
  - destruct (g e); cbn; [apply Nat.eqb_neq in Ne; rewrite Ne|]; apply IH; exact N2.
Qed.
Lemma nodup_filter : forall (g : nat * entry -> bool) l, NoDup (akeys l) -> NoDup (akeys (filter g l)).
Proof.
  induction l as [|x l IH]; intro N; cbn; [constructor|]. inversion N as [|? ? N1 N2]; subst. destruct (g x); cbn; [|auto].
  constructor; [|auto]. intro H. apply N1. unfold akeys in *. apply in_map_iff in H. destruct H as (y & H1 & H2). apply filter_In in H2.
  apply in_map_iff. exists y. tauto.
Qed.
Lemma gone_spec : forall p (g : entry -> bool) l, NoDup (akeys l) ->
  (forall e, aget p l = Some e -> g e = false) -> silent p (map (fun x => Gone (fst x)) (filter (fun x => g (snd x)) l)).
Proof.
  intros p g l N H. apply Forall_forall. intros x Hx. apply in_map_iff in Hx. destruct Hx as ([q e] & <- & Hi). cbn.
  apply filter_In in Hi. destruct Hi as [Hi Hg]. cbn in Hg. intro X. subst. rewrite (H e) in Hg; [discriminate|]. now apply in_aget.
Qed.
Lemma gone_reported : forall p (g : entry -> bool) l e r, NoDup (akeys l) -> aget p l = Some e -> g e = true ->
  reported p (map (fun x => Gone (fst x)) (filter (fun x => g (snd x)) l)) r = None.
Proof.
  intros p g l e r N H G. assert (In (p, e) (filter (fun x => g (snd x)) l)) as X by (apply filter_In; split; [now apply aget_in|exact G]).
  revert X. generalize (filter (fun x : nat * entry => g (snd x)) l). clear. intros l X.
  assert (Y : forall l r, r = None -> reported p (map (fun x : nat * entry => Gone (fst x)) l) r = None).
  { clear. induction l as [|[q e] l IH]; intros r H; cbn; [exact H|]. apply IH. destruct (q =? p); auto. }
  revert r. induction l as [|[q e0] l IH]; intro r; [destruct X|]. cbn. destruct X as [X|X].
  - inversion X; subst. rewrite Nat.eqb_refl. now apply Y.
  - apply IH. exact X.
Qed.
Lemma gone_newer : forall p l r, newer p (map (fun x : nat * entry => Gone (fst x)) l) r.
Proof. induction l as [|[q e] l IH]; intro r; cbn; [exact I|apply IH]. Qed.

Lemma update_J : forall c w p ps s s1 o r, J c p s r -> update_watches w ps s = (s1, o) ->
  J c p s1 (reported p o r) /\ (c = true -> newer p o r) /\ (synced p s \/ In p ps -> synced p s1) /\ w_disk s1 = w_disk s.
Proof.
  intros c w p ps s s1 o r Hj E. unfold update_watches in E.
  set (s0 := mkSt (S (w_life s)) (w_tick s) (on_entries unsee (w_entries s)) (w_wait s) (w_disk s)) in E.
  destruct (watch_all w ps s0) as [sa oa] eqn:Ew.
  assert (N0 : NoDup (akeys (w_entries s0))) by (unfold s0; cbn [w_entries]; rewrite keys_on; apply (j_nd _ _ _ _ Hj)).
  destruct (watch_all_facts _ _ _ _ _ Ew N0) as (Na & Da & La).
  assert (A0 : aget p (w_entries s0) = option_map unsee (aget p (w_entries s))) by (cbn; apply aget_on).
  assert (J0 : J c p s0 r).
  { destruct (aget p (w_entries s)) as [e|] eqn:Ep.
    - eapply J_same; [exact Hj|exact N0|reflexivity|exact A0|]. rewrite Ep. cbn. auto.
    - apply (J_frame c p s); auto. now rewrite A0, Ep. }
  assert (K0 : K p s0). { intros e X Y. rewrite A0 in X. destruct (aget p (w_entries s)); inversion X; subst. discriminate. }
  set (l := on_entries unwatch (w_entries sa)) in E. inversion E; subst s1 o; clear E.
  assert (Nl : NoDup (akeys l)) by (unfold l; rewrite keys_on; exact Na).
  assert (Al : aget p l = option_map unwatch (aget p (w_entries sa))) by apply aget_on.
  cbn [w_disk w_entries w_life]. split; [|split; [|split; [|exact Da]]].
  - destruct (in_dec Nat.eq_dec p ps) as [Hi|Hi].
    + destruct (watch_all_in w p ps s0 sa oa Ew N0 (or_introl Hi)) as (e & x1 & x2 & x3).
      destruct (watch_all_J _ _ _ _ _ _ _ _ J0 K0 Ew) as (Ja & _ & _).
      assert (Y : young (w_life sa) (unwatch e) = true).
      { unfold young, unwatch. rewrite x2, x3. now rewrite Nat.sub_diag. }
      rewrite reported_app, (reported_silent p (map _ _)); [|apply (gone_spec p (fun e => negb (young (w_life sa) e))); [exact Nl|]].
      * apply (J_same c p sa (reported p oa r) _ (unwatch e) Ja); cbn [w_entries w_disk w_life]; auto.
        -- now apply nodup_filter.
        -- rewrite (aget_filter p (young (w_life sa)) l Nl), Al, x1. cbn [option_map]. now rewrite Y.
        -- rewrite x1. unfold unwatch. rewrite x2. auto.
      * intros e0 X. rewrite Al, x1 in X. inversion X; subst. now rewrite Y.
    + destruct (watch_all_other w p ps s0 sa oa Ew N0 Hi) as [Ao So]. rewrite reported_app, (reported_silent p oa _ So).
      destruct (aget p (w_entries sa)) as [e|] eqn:Ep.
      * cbn in Al. destruct (young (w_life sa) (unwatch e)) eqn:Y.
        -- rewrite (reported_silent p (map _ _)); [|apply (gone_spec p (fun e => negb (young (w_life sa) e))); [exact Nl|intros e0 X; rewrite Al in X; inversion X; subst; now rewrite Y]].
           apply (J_same c p s0 r _ (unwatch e) J0); cbn [w_entries w_disk w_life].
           ++ now apply nodup_filter.
           ++ now rewrite Da.
           ++ rewrite (aget_filter p (young (w_life sa)) l Nl), Al. now rewrite Y.
           ++ rewrite <- Ao. unfold unwatch. destruct (e_seen e); auto.
        -- rewrite (gone_reported p (fun e => negb (young (w_life sa) e)) l (unwatch e) r Nl Al) by now rewrite Y.
           assert (An : aget p (filter (fun x => young (w_life sa) (snd x)) l) = None) by (rewrite (aget_filter p (young (w_life sa)) l Nl), Al; now rewrite Y).
           constructor; cbn [w_entries w_disk w_life]; auto.
           ++ now apply nodup_filter.
           ++ intros e0 f X. congruence.
           ++ intro Hc. destruct (j_clean _ _ _ _ J0 Hc) as [c1 _]. split; [rewrite Da; exact c1|]. intros e0 X. congruence.
      * rewrite (reported_silent p (map _ _)); [|apply (gone_spec p (fun e => negb (young (w_life sa) e))); [exact Nl|intros e0 X; rewrite Al in X; discriminate]].
        apply (J_frame c p s0); auto; cbn [w_entries w_disk w_life].
        -- now apply nodup_filter.
        -- now rewrite Da.
        -- rewrite (aget_filter p (young (w_life sa)) l Nl), Al. cbn. cbn in Ao. exact Ao.
  - intro Hc. apply newer_app. split; [apply gone_newer|].
    destruct (in_dec Nat.eq_dec p ps) as [Hi|Hi].
    + destruct (watch_all_in w p ps s0 sa oa Ew N0 (or_introl Hi)) as (e & x1 & x2 & x3).
      rewrite (reported_silent p (map _ _)); [|apply (gone_spec p (fun e => negb (young (w_life sa) e))); [exact Nl|]].
      * apply (watch_all_J _ _ _ _ _ _ _ _ J0 K0 Ew). exact Hc.
      * intros e0 X. rewrite Al, x1 in X. inversion X; subst. unfold young, unwatch. rewrite x2, x3. now rewrite Nat.sub_diag.
    + apply newer_silent. apply (watch_all_other w p ps s0 sa oa Ew N0 Hi).
  - intros H e X F. cbn [w_entries w_disk w_life] in X, F |- *. rewrite (aget_filter p (young (w_life sa)) l Nl), Al in X.
    destruct (aget p (w_entries sa)) as [ea|] eqn:Ea; [|discriminate]. cbn [option_map] in X. destruct (young _ _); [|discriminate]. inversion X; subst.
    assert (Pr : e_prev (unwatch ea) = e_prev ea) by (unfold unwatch; destruct (e_seen ea); reflexivity). rewrite Pr.
    destruct (in_dec Nat.eq_dec p ps) as [Hi|Hi].
    + destruct (watch_all_in w p ps s0 sa oa Ew N0 (or_introl Hi)) as (e & x1 & x2 & x3). rewrite Ea in x1. inversion x1; subst.
      destruct (watch_all_J _ _ _ _ _ _ _ _ J0 K0 Ew) as (_ & Ka & _). exact (proj2 (Ka e Ea x2) F).
    + destruct H as [H|H]; [|contradiction]. destruct (watch_all_other w p ps s0 sa oa Ew N0 Hi) as [Ao _].
      rewrite Ea, A0 in Ao. destruct (aget p (w_entries s)) as [es|] eqn:Es; [|discriminate]. cbn in Ao. inversion Ao; subst.
      cbn. rewrite Da in *. exact (H es Es F).
Qed.

Lemma forget_aget : forall p q l, aget p (forget q l) = match aget p l with
  | Some e => Some (if p =? q then mkEntry (e_life e) false (e_seen e) (e_state e) (e_prev e) else e) | None => None end.
Proof.
  intros p q l. unfold forget. destruct (Nat.eqb_spec p q) as [->|Ne].
  - destruct (aget q l) as [e|] eqn:E; [now rewrite aget_aset_eq|exact E].
  - destruct (aget q l) as [e|] eqn:E; [rewrite aget_aset_neq by exact Ne|]; destruct (aget p l); reflexivity.
Qed.
Lemma forget_nodup : forall q l, NoDup (akeys l) -> NoDup (akeys (forget q l)).
Proof. intros q l N. unfold forget. destruct (aget q l); [now apply nodup_aset|exact N]. Qed.
Lemma forgets : forall p ps l, NoDup (akeys l) -> NoDup (akeys (fold_left (fun l p => forget p l) ps l)) /\
  match aget p l with
  | Some e => exists e1, aget p (fold_left (fun l p => forget p l) ps l) = Some e1 /\ e_prev e1 = e_prev e /\ e_state e1 = e_state e
  | None => aget p (fold_left (fun l p => forget p l) ps l) = None
  end.
Proof.
  induction ps as [|q ps IH]; intros l N; cbn.
  - split; [exact N|]. destruct (aget p l) as [e|]; [exists e; auto|reflexivity].
  - destruct (IH (forget q l) (forget_nodup q l N)) as [a b]. split; [exact a|]. rewrite forget_aget in b.
    destruct (aget p l) as [e|]; [|exact b]. destruct b as (e1 & b1 & b2 & b3). exists e1. destruct (p =? q); auto.
Qed.
Lemma event_J : forall c p rm ps s s1 o r, J c p s r -> notify_event rm ps s = (s1, o) ->
  J c p s1 (reported p o r) /\ (c = true -> newer p o r) /\ (synced p s \/ In p ps -> synced p s1) /\ w_disk s1 = w_disk s.
Proof.
  intros c p rm ps s s1 o r Hj E. unfold notify_event in E. destruct (look_all ps s) as [sa oa] eqn:El.
  destruct (look_all_J _ _ _ _ _ _ _ Hj El) as (a & b & d & f). destruct rm; inversion E; subst; [|auto].
  destruct (forgets p ps (w_entries sa) (j_nd _ _ _ _ a)) as [N X]. split; [|split; [exact b|split; [|exact f]]].
  - destruct (aget p (w_entries sa)) as [e|] eqn:Ea.
    + destruct X as (e1 & x1 & x2 & x3). eapply J_same; [exact a|exact N|reflexivity|exact x1|]. rewrite Ea. auto.
    + apply (J_frame c p sa); auto. now rewrite Ea.
  - intros H e Y F. cbn in Y, F |- *. specialize (d H). destruct (aget p (w_entries sa)) as [e0|] eqn:Ea; [|congruence].
    destruct X as (e1 & x1 & x2 & x3). rewrite x1 in Y. inversion Y; subst. rewrite x2. exact (d e0 Ea F).
Qed.
Lemma recheck_J : forall c p t q s s1 o r, J c p s r -> recheck t q s = (s1, o) ->
  J c p s1 (reported p o r) /\ (c = true -> newer p o r) /\ (synced p s -> synced p s1) /\ w_disk s1 = w_disk s.
Proof.
  intros c p t q s s1 o r Hj E. unfold recheck in E. pose proof (j_nd _ _ _ _ Hj) as N.
  destruct (aget q (w_entries s)) as [e|] eqn:Eq; [|inversion E; subst; split; [exact Hj|]; split; [intros _; exact I|]; split; [auto|reflexivity]].
  set (s2 := mkSt (w_life s) (w_tick s) (aset q (mkEntry (e_life e) (e_watching e) (e_seen e) None (e_prev e)) (w_entries s)) (w_wait s) (w_disk s)) in E.
  assert (R : s1 = s2 /\ (o = [] \/ exists f, o = [Now q f] /\ e_state e <> None)).
  { destruct (e_state e) as [[t0 f]|]; [|inversion E; subst; auto]. destruct (t0 =? t); [|inversion E; subst; auto].
    destruct (match e_prev e with Some _ => _ | None => _ end); inversion E; subst; split; auto. right. exists f. split; [reflexivity|discriminate]. }
  destruct R as [-> R]. clear E.
  destruct (Nat.eq_dec q p) as [->|Ne].
  - assert (Sy : synced p s -> synced p s2).
    { intros H e0 X F. cbn in X. rewrite aget_aset_eq in X. inversion X; subst. cbn in *. exact (H e Eq F). }
    destruct R as [->|(f & -> & Hs)].
    + cbn. split; [|split; [intros _; exact I|split; [exact Sy|reflexivity]]]. constructor; cbn; rewrite ?aget_aset_eq; try discriminate.
      * now apply nodup_aset.
      * intros e0 g X. inversion X; subst. cbn. intros Y G. split; [reflexivity|]. exact (proj2 (j_full _ _ _ _ Hj e g Eq Y G)).
      * intro Hc. destruct (j_clean _ _ _ _ Hj Hc) as [c1 c2]. split; [exact c1|]. intros e0 X. inversion X; subst. cbn. destruct (c2 e Eq) as [(y1 & y2 & y3)|Y]; auto.
    + assert (NF : forall g, e_prev e = Some g -> full g = false).
      { intros g Y. destruct (full g) eqn:G; [|reflexivity]. destruct (j_full _ _ _ _ Hj e g Eq Y G). contradiction. }
      cbn. rewrite Nat.eqb_refl. split; [|split; [|split; [exact Sy|reflexivity]]].
      * constructor; cbn; rewrite ?aget_aset_eq; try discriminate.
        -- now apply nodup_aset.
        -- intros e0 g X. inversion X; subst. cbn. intros Y G. rewrite (NF g Y) in G. discriminate.
        -- intro Hc. destruct (j_clean _ _ _ _ Hj Hc) as [c1 c2]. split; [exact c1|]. intros e0 X. inversion X; subst. cbn.
           destruct (c2 e Eq) as [(Y1 & Y3 & Y2)|(g & Y1 & Y2)]; [contradiction|rewrite (NF g Y1) in Y2; discriminate].
      * intro Hc. split; [|exact I]. intros _ X. destruct (j_clean _ _ _ _ Hj Hc) as [_ c2].
        destruct (c2 e Eq) as [(Y1 & Y3 & Y2)|(g & Y1 & Y2)]; [congruence|]. rewrite (NF g Y1) in Y2. discriminate.
  - assert (Si : silent p o) by (destruct R as [->|(f & -> & _)]; repeat constructor; exact Ne).
    assert (Ag : aget p (w_entries s2) = aget p (w_entries s)) by (cbn; apply aget_aset_neq; auto).
    rewrite (reported_silent p o r Si). split; [|split; [intros _; now apply newer_silent|split; [|reflexivity]]].
    + apply (J_frame c p s); auto. cbn. now apply nodup_aset.
    + unfold synced. rewrite Ag. auto.
Qed.

Lemma step_J : forall c p e s s1 o r u, J c p s r -> step s e = (s1, o) -> (c = true -> always_full p [e] = true) ->
  (u = false -> synced p s) ->
  J c p s1 (reported p o r) /\ (c = true -> newer p o r) /\ (unseen p [e] u = false -> synced p s1).
Proof.
  intros c p e s s1 o r u Hj E Hc Hu. assert (Jn : J c p (next_tick s) r) by (apply (J_frame c p s); auto; apply Hj).
  assert (Sn : synced p s -> synced p (next_tick s)) by auto.
  assert (Up : forall ps (w : nat -> bool), (c = true -> newer p o r) -> (synced p (next_tick s) \/ In p ps -> synced p s1) ->
    (if mem p ps then false else u) = false -> synced p s1).
  { intros ps w _ H X. apply H. destruct (mem p ps) eqn:M; [right; now apply mem_spec|left; auto]. }
  destruct e as [q f|ps w|ps w|ps rm|n]; cbn [step] in E; cbn [unseen].
  - inversion E; subst. cbn. split; [|split; [intros _; exact I|]].
    + destruct Hj as [a b d g]. constructor; cbn; auto. intro X. destruct (g X) as [g1 g2]. split; [|exact g2].
      unfold upd. specialize (Hc X). cbn in Hc. rewrite andb_true_r in Hc. destruct (Nat.eqb_spec q p) as [->|Ne]; cbn in Hc.
      * now rewrite Nat.eqb_refl.
      * destruct (Nat.eqb_spec p q); [congruence|exact g1].
    + destruct (Nat.eqb_spec q p) as [->|Ne]; [discriminate|]. intro X. unfold synced. cbn. unfold upd.
      destruct (Nat.eqb_spec p q); [congruence|]. exact (Hu X).
  - destruct (update_J _ _ _ _ _ _ _ _ Jn E) as (a & b & d & _). split; [exact a|]. split; [exact b|]. exact (Up ps w b d).
  - destruct (update_J _ _ _ _ _ _ _ _ Jn E) as (a & b & d & _). split; [exact a|]. split; [exact b|]. exact (Up ps w b d).
  - destruct (event_J _ _ _ _ _ _ _ _ Jn E) as (a & b & d & _). split; [exact a|]. split; [exact b|]. exact (Up ps (fun _ => true) b d).
  - destruct (nth_error (w_wait s) n) as [[t q]|].
    + match type of E with recheck _ _ ?x = _ => set (s2 := x) in E end.
      assert (J2 : J c p s2 r) by (apply (J_frame c p s); auto; apply Hj).
      destruct (recheck_J _ _ _ _ _ _ _ _ J2 E) as (a & b & d & _). split; [exact a|]. split; [exact b|]. intro X. apply d. exact (Hu X).
    + inversion E; subst. split; [exact Hj|]. split; [intros _; exact I|]. exact Hu.
Qed.
Lemma unseen_cons : forall p e es u, unseen p (e :: es) u = unseen p es (unseen p [e] u).
Proof. intros p [q f|ps w|ps w|ps rm|n] es u; reflexivity. Qed.
Lemma run_J : forall c p es s s1 o r u, J c p s r -> run s es = (s1, o) -> (c = true -> always_full p es = true) ->
  (u = false -> synced p s) ->
  J c p s1 (reported p o r) /\ (c = true -> newer p o r) /\ (unseen p es u = false -> synced p s1).
Proof.
  induction es as [|e es IH]; intros s s1 o r u Hj E Hc Hu; cbn [run] in E.
  - inversion E; subst. split; [exact Hj|]. split; [intros _; exact I|exact Hu].
  - destruct (step s e) as [sa oa] eqn:Es. destruct (run sa es) as [sb ob] eqn:Er. inversion E; subst; clear E.
    destruct (step_J c p e s sa oa r u Hj Es) as (a & b & d); auto.
    { intro X. specialize (Hc X). destruct e; cbn in Hc |- *; auto. rewrite andb_true_r. now apply andb_prop in Hc. }
    destruct (IH sa s1 ob (reported p oa r) (unseen p [e] u) a Er) as (a' & b' & d'); auto.
    { intro X. specialize (Hc X). destruct e; cbn in Hc |- *; auto. now apply andb_prop in Hc. }
    rewrite reported_app, newer_app, unseen_cons. split; [exact a'|]. split; [auto|exact d'].
Qed.
Lemma init_J : forall c p disk, (c = true -> full (disk p) = true) -> J c p (init disk) None.
Proof. intros c p disk H. constructor; cbn; try discriminate; auto. - constructor. - intro X. split; [auto|discriminate]. Qed.

Lemma reports_current : forall disk es s o p, run (init disk) es = (s, o) -> tracked s p -> unseen p es false = false ->
  full (w_disk s p) = true -> reported p o None = Some (w_disk s p).
Proof.
  intros disk es s o p E (e & T) U F.
  destruct (run_J false p es (init disk) s o None false (init_J false p disk ltac:(discriminate)) E) as (a & _ & d); [discriminate|intros _ e0 X; discriminate|].
  exact (proj2 (j_full _ _ _ _ a e _ T (d U e T F) F)).
Qed.
Lemma repeats_newer : forall p o r, newer p o r -> ~ repeats p o.
Proof.
  intros p o r H (a & f & b & c & -> & Nb & Ng). apply newer_app in H. destruct H as [_ H]. cbn in H. rewrite Nat.eqb_refl in H.
  destruct H as [_ H]. apply newer_app in H. destruct H as [_ H]. cbn in H. destruct H as [H _]. apply (H eq_refl).
  apply reported_silent. apply Forall_forall. intros [q|q g] X; intro Y; subst; [exact (Ng X)|exact (Nb g X)].
Qed.
Lemma reports_change : forall disk es s o p, run (init disk) es = (s, o) -> full (disk p) = true -> always_full p es = true -> ~ repeats p o.
Proof.
  intros disk es s o p E F A.
  destruct (run_J true p es (init disk) s o None true (init_J true p disk (fun _ => F)) E) as (_ & b & _); [auto|discriminate|].
  exact (repeats_newer p o None (b eq_refl)).
Qed.

(** Which paths the operating system watches after a list of dependencies. *)
Lemma watch_all_watching : forall w p ps s s1 o, watch_all w ps s = (s1, o) -> NoDup (akeys (w_entries s)) -> In p ps ->
  (forall e, aget p (w_entries s) = Some e -> e_seen e = false) ->
  exists e, aget p (w_entries s1) = Some e /\
    e_watching e = match aget p (w_entries s) with Some e0 => e_watching e0 || w p | None => w p end.
Proof.
  induction ps as [|q ps IH]; intros s s1 o E N Hi Hs; [destruct Hi|]. cbn in E.
  destruct (watch_one w q s) as [sa oa] eqn:El. destruct (watch_all w ps sa) as [sb ob] eqn:Er. inversion E; subst; clear E.
  destruct (watch_one_facts _ _ _ _ _ El N) as (Na & Da & La & e1 & x1 & x2 & x3 & x4).
  destruct (Nat.eq_dec q p) as [->|Ne].
  - assert (V : e_watching e1 = match aget p (w_entries s) with Some e0 => e_watching e0 || w p | None => w p end).
    { destruct (aget p (w_entries s)) as [e0|]; [|exact x4]. now rewrite (Hs e0 eq_refl) in x4. }
    rewrite <- V. clear - Er Na x1 x3. revert sa s1 ob e1 Er Na x1 x3. induction ps as [|q ps IH]; intros sa s1 ob e1 Er Na x1 x3; cbn in Er.
    + inversion Er; subst. eauto.
    + destruct (watch_one w q sa) as [sc oc] eqn:El. destruct (watch_all w ps sc) as [sd od] eqn:Ed. inversion Er; subst; clear Er.
      destruct (watch_one_facts _ _ _ _ _ El Na) as (Nc & _ & _ & e2 & y1 & y2 & y3 & y4). destruct (Nat.eq_dec q p) as [->|Ne].
      * rewrite x1, x3 in y4. rewrite <- y4. exact (IH _ _ _ _ Ed Nc y1 y3).
      * destruct (watch_one_other w p q sa sc oc El Na Ne) as [a _]. apply (IH _ _ _ e1 Ed Nc); [congruence|exact x3].
  - destruct (watch_one_other w p q s sa oa El N Ne) as [a _]. rewrite <- a. destruct Hi as [Hi|Hi]; [contradiction|].
    apply (IH _ _ _ Er Na Hi). now rewrite a.
Qed.
Lemma update_watching : forall w ps s s1 o p, NoDup (akeys (w_entries s)) -> update_watches w ps s = (s1, o) ->
  (watched s1 p <-> In p ps /\ (watched s p \/ w p = true)).
Proof.
  intros w ps s s1 o p N E. unfold update_watches in E.
  set (s0 := mkSt (S (w_life s)) (w_tick s) (on_entries unsee (w_entries s)) (w_wait s) (w_disk s)) in E.
  destruct (watch_all w ps s0) as [sa oa] eqn:Ew. inversion E; subst; clear E.
  assert (N0 : NoDup (akeys (w_entries s0))) by (unfold s0; cbn [w_entries]; rewrite keys_on; exact N).
  destruct (watch_all_facts _ _ _ _ _ Ew N0) as (Na & Da & La).
  assert (A0 : aget p (w_entries s0) = option_map unsee (aget p (w_entries s))) by (cbn; apply aget_on).
  set (l := on_entries unwatch (w_entries sa)).
  assert (Nl : NoDup (akeys l)) by (unfold l; rewrite keys_on; exact Na).
  assert (Al : aget p l = option_map unwatch (aget p (w_entries sa))) by apply aget_on.
  unfold watched. cbn [w_entries]. rewrite (aget_filter p (young (w_life sa)) l Nl), Al.
  destruct (in_dec Nat.eq_dec p ps) as [Hi|Hi].
  - destruct (watch_all_in w p ps s0 sa oa Ew N0 (or_introl Hi)) as (e & x1 & x2 & x3).
    destruct (watch_all_watching w p ps s0 sa oa Ew N0 Hi) as (e' & y1 & y2).
    { intros e0 X. rewrite A0 in X. destruct (aget p (w_entries s)); inversion X; subst. reflexivity. }
    rewrite x1 in y1. inversion y1; subst e'. rewrite x1. cbn. unfold unwatch. rewrite x2. unfold young. rewrite x3, Nat.sub_diag. cbn.
    rewrite A0 in y2. destruct (aget p (w_entries s)) as [e0|]; cbn in y2.
    + split.
      * intros (e1 & H1 & H2). inversion H1; subst. split; [exact Hi|]. rewrite y2 in H2. apply orb_prop in H2. destruct H2 as [H2|H2]; [left; eauto|now right].
      * intros (_ & H). exists e. split; [reflexivity|]. rewrite y2. apply orb_true_intro. destruct H as [(e1 & H1 & H2)|H]; [inversion H1; subst; now left|now right].
    + split.
      * intros (e1 & H1 & H2). inversion H1; subst. split; [exact Hi|]. right. congruence.
      * intros (_ & H). exists e. split; [reflexivity|]. rewrite y2. destruct H as [(e1 & H1 & H2)|H]; [discriminate|exact H].
  - split; [|intros [H _]; contradiction]. intros (e & H1 & H2). exfalso.
    destruct (watch_all_other w p ps s0 sa oa Ew N0 Hi) as [Ao _]. rewrite A0 in Ao.
    destruct (aget p (w_entries s)) as [e0|]; cbn in Ao; rewrite Ao in H1; cbn [option_map] in H1; [|discriminate].
    destruct (young _ _); inversion H1; subst. discriminate.
Qed.
Lemma run_nodup : forall disk es s o, run (init disk) es = (s, o) -> NoDup (akeys (w_entries s)).
Proof.
  intros disk es s o E.
  destruct (run_J false 0 es (init disk) s o None true (init_J false 0 disk ltac:(discriminate)) E) as (a & _ & _); [discriminate|discriminate|]. apply a.
Qed.
Lemma dependencies_watched : forall disk es ps w s o p, run (init disk) (es ++ [Sync ps w]) = (s, o) ->
  (watched s p <-> In p ps /\ (w p = true \/ watched (fst (run (init disk) es)) p)).
Proof.
  intros disk es ps w s o p E. destruct (run (init disk) es) as [sa oa] eqn:Ea. pose proof (run_nodup _ _ _ _ Ea) as N.
  assert (X : forall es s0 sa oa, run s0 es = (sa, oa) -> run s0 (es ++ [Sync ps w]) = let (a, b) := step sa (Sync ps w) in (a, oa ++ b)).
  { clear. induction es as [|e es IH]; intros s0 sa oa H; cbn [run app] in *.
    - inversion H; subst. destruct (step sa (Sync ps w)) as [a b]. now rewrite app_nil_r.
    - destruct (step s0 e) as [s1 o1]. destruct (run s1 es) as [s2 o2] eqn:E2. inversion H; subst. rewrite (IH _ _ _ E2).
      destruct (step sa (Sync ps w)) as [a b]. now rewrite app_assoc. }
  rewrite (X _ _ _ _ Ea) in E. cbn [step] in E. destruct (update_watches w ps (next_tick sa)) as [s1 o1] eqn:Eu. inversion E; subst.
  cbn [fst]. rewrite (update_watching w ps (next_tick sa) s o1 p N Eu). change (watched (next_tick sa) p) with (watched sa p). tauto.
Qed.
