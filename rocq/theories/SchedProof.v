(** Proofs about the compile scheduler. *)
From Coq Require Import List Arith Bool Lia.
From Verif Require Import AssocModel AssocProof SchedModel SchedSpec.
Import ListNotations.

(** ** Lists *)

Lemma app_split : forall A (o o' a b : list A) x, o ++ o' = a ++ x :: b ->
  (exists b0, o = a ++ x :: b0 /\ b = b0 ++ o') \/ (exists a0, a = o ++ a0 /\ o' = a0 ++ x :: b).
Proof.
  induction o as [|y o IH]; intros o' a b x E.
  - right. exists a. auto.
  - destruct a as [|z a]; cbn in E; inversion E; subst.
    + left. exists o. auto.
    + destruct (IH _ _ _ _ H1) as [[b0 [-> ->]]|[a0 [-> ->]]]; [left; exists b0|right; exists a0]; auto.
Qed.
Lemma nth_split' : forall A (l : list A) n x, nth_error l n = Some x ->
  exists a b, l = a ++ x :: b /\ drop_nth n l = a ++ b.
Proof.
  induction l as [|y l IH]; intros [|n] x E; cbn in E; try discriminate.
  - inversion E; subst. exists [], l. auto.
  - destruct (IH _ _ E) as (a & b & -> & D). exists (y :: a), b. split; [reflexivity|]. cbn. now rewrite D.
Qed.

(** ** The parts of the state that belong to one project *)

Definition tasks_of (id : nat) (l : list (nat * snap)) := filter (fun t => sn_id (snd t) =? id) l.
Definition queue_of (id : nat) (l : list art) := filter (fun a => sn_id (a_snap a) =? id) l.
Definition N (s : st) (id : nat) : nat := s_notified s (s_gen s) id.
Definition same_loc (s s1 : st) (id : nat) : Prop :=
  tasks_of id (s_tasks s1) = tasks_of id (s_tasks s) /\ queue_of id (s_queue s1) = queue_of id (s_queue s) /\
  N s1 id = N s id.
Definition gens (s : st) : Prop := Forall (fun t => fst t = s_gen s) (s_tasks s).

Definition about (id : nat) (x : out) : Prop :=
  match x with
  | OStatus i _ _ | OClear i _ | OStart i _ | OSkip i _ | OCommit i _ | OChange i _ | OEntry i _ => i = id
  | ONotify _ | ORemove _ | OPanic => False
  end.
Definition bounded (id : nat) (o : list out) (r : nat) : Prop :=
  forall a b rev, o = a ++ OChange id rev :: b -> ~ In (ORemove id) b -> rev <= r.

Record good (pl : bool) (p : proj) (s : st) (o : list out) : Prop := {
  g_n : N s (p_id p) <= p_rev p;
  g_x : x_notified p <= N s (p_id p);
  g_c : p_committed p <= N s (p_id p);
  g_s : forall sn, p_snap p = Some sn ->
    sn_id sn = p_id p /\ sn_rev sn <= p_rev p /\ (pl = true -> any (p_reason p) = true -> sn_rev sn < p_rev p);
  g_l : forall a, x_last p = Some a -> sn_id (a_snap a) = p_id p /\ sn_rev (a_snap a) <= N s (p_id p);
  g_i : x_compiling p = false ->
    tasks_of (p_id p) (s_tasks s) = [] /\ queue_of (p_id p) (s_queue s) = [] /\
    (any (p_reason p) = true -> N s (p_id p) < p_rev p) /\ (pl = true -> p_good p = last_good (p_id p) o None);
  g_p : x_compiling p = true ->
    (exists g sn, tasks_of (p_id p) (s_tasks s) = [(g, sn)] /\ queue_of (p_id p) (s_queue s) = [] /\
       N s (p_id p) < sn_rev sn /\ sn_rev sn <= p_rev p /\ (any (p_reason p) = true -> sn_rev sn < p_rev p) /\
       (pl = true -> sn_good sn = p_good p /\ p_good p = last_good (p_id p) o None)) \/
    (exists a, tasks_of (p_id p) (s_tasks s) = [] /\ queue_of (p_id p) (s_queue s) = [a] /\
       sn_rev (a_snap a) = N s (p_id p) /\ x_notified p < N s (p_id p) /\ p_committed p < N s (p_id p) /\
       (any (p_reason p) = true -> N s (p_id p) < p_rev p) /\
       (pl = true -> last_good (p_id p) o None = match a_doc a with Some _ => a_doc a | None => p_good p end));
  g_t : any (p_reason p) = false -> settled (p_id p) o;
  g_r : bounded (p_id p) o (p_rev p)
}.

Lemma last_good_app : forall id o o' d, last_good id (o ++ o') d = last_good id o' (last_good id o d).
Proof. induction o as [|x o IH]; intros; cbn; [reflexivity|]. apply IH. Qed.
Lemma last_good_about : forall id i o d, Forall (about i) o -> i <> id -> last_good id o d = d.
Proof.
  induction o as [|x o IH]; intros d F Ne; [reflexivity|]. inversion F; subst. cbn.
  rewrite IH; auto. destruct x; cbn in *; try reflexivity; try contradiction.
  subst. apply Nat.eqb_neq in Ne. now rewrite Ne.
Qed.
Lemma removed_dec : forall id o, In (ORemove id) o \/ ~ In (ORemove id) o.
Proof.
  induction o as [|x o [H|H]]; [right; auto|left; now right|].
  destruct x as [ | | | | | | | |i| ]; try (right; intros [X|X]; [discriminate X|contradiction]).
  destruct (Nat.eq_dec i id) as [->|Ne]; [left; now left|]. right. intros [X|X]; [congruence|contradiction].
Qed.
Lemma settled_app : forall id o o', settled id o -> (forall r, ~ In (OChange id r) o') -> settled id (o ++ o').
Proof.
  intros id o o' S H a b r E. destruct (app_split _ _ _ _ _ _ E) as [[b0 [-> ->]]|[a0 [-> ->]]].
  - destruct (S _ _ _ eq_refl) as [Hi|(x & r' & Hi & D)].
    + left. apply in_or_app. auto.
    + right. exists x, r'. split; [apply in_or_app; auto|exact D].
  - exfalso. apply (H r). apply in_or_app. right. now left.
Qed.
Lemma settled_decided : forall id o o' x r, bounded id o r -> (forall r, ~ In (OChange id r) o') ->
  In x o' -> decided id r x -> settled id (o ++ o').
Proof.
  intros id o o' x r B H Hx D a b r0 E. destruct (app_split _ _ _ _ _ _ E) as [[b0 [-> ->]]|[a0 [-> ->]]].
  - destruct (removed_dec id b0) as [Hi|Hn].
    + left. apply in_or_app. auto.
    + right. exists x, r. split; [apply in_or_app; auto|]. split; [exact D|]. exact (B _ _ _ eq_refl Hn).
  - exfalso. apply (H r0). apply in_or_app. right. now left.
Qed.
Lemma bounded_app : forall id o o' r, bounded id o r -> (forall r, ~ In (OChange id r) o') -> bounded id (o ++ o') r.
Proof.
  intros id o o' r B H a b r0 E Hn. destruct (app_split _ _ _ _ _ _ E) as [[b0 [-> ->]]|[a0 [-> ->]]].
  - apply (B _ _ _ eq_refl). intro X. apply Hn. apply in_or_app. auto.
  - exfalso. apply (H r0). apply in_or_app. right. now left.
Qed.
Lemma bounded_change : forall id o o' r r', bounded id o r -> r <= r' -> (forall r0, In (OChange id r0) o' -> r0 <= r') ->
  bounded id (o ++ o') r'.
Proof.
  intros id o o' r r' B L H a b r0 E Hn. destruct (app_split _ _ _ _ _ _ E) as [[b0 [-> ->]]|[a0 [-> ->]]].
  - transitivity r; [|exact L]. apply (B _ _ _ eq_refl). intro X. apply Hn. apply in_or_app. auto.
  - apply H. apply in_or_app. right. now left.
Qed.
Lemma about_change : forall i id o r, Forall (about i) o -> i <> id -> ~ In (OChange id r) o.
Proof. intros i id o r F Ne Hi. rewrite Forall_forall in F. specialize (F _ Hi). cbn in F. congruence. Qed.

(** [good] of another project survives. *)
Lemma good_other : forall pl p s o s1 i o', good pl p s o -> i <> p_id p -> same_loc s s1 (p_id p) ->
  Forall (about i) o' -> good pl p s1 (o ++ o').
Proof.
  intros pl p s o s1 i o' G Ne (T & Q & L) F.
  assert (LG : last_good (p_id p) (o ++ o') None = last_good (p_id p) o None).
  { rewrite last_good_app. apply last_good_about with i; auto. }
  destruct G. constructor; try rewrite L; try rewrite T; try rewrite Q; try rewrite LG; auto.
  - intro R. apply settled_app; auto. intro. now apply about_change with i.
  - apply bounded_app; auto. intro. now apply about_change with i.
Qed.

(** ** Functions on one project *)

Definition same_rest (s s1 : st) : Prop :=
  s_gen s1 = s_gen s /\ s_ninst s1 = s_ninst s /\ s_primary s1 = s_primary s /\ s_dedicates s1 = s_dedicates s /\
  s_dead s1 = s_dead s.
Definition frame (i : nat) (s s1 : st) : Prop :=
  same_rest s s1 /\ gens s1 /\ (forall id, id <> i -> same_loc s s1 id) /\
  (forall g id, s_gen s < g -> s_notified s1 g id = s_notified s g id).
Definition f_ok (Pre : bool -> proj -> Prop) (f : proj -> st -> proj * st * list out) : Prop :=
  forall pl p s o p1 s1 o', good pl p s o -> gens s -> Pre pl p -> f p s = (p1, s1, o') ->
  good pl p1 s1 (o ++ o') /\ p_id p1 = p_id p /\ frame (p_id p) s s1 /\ Forall (about (p_id p)) o'.
Definition always (pl : bool) (p : proj) : Prop := True.

Lemma same_loc_refl : forall s id, same_loc s s id.
Proof. intros. repeat split. Qed.
Lemma same_rest_refl : forall s, same_rest s s.
Proof. intros. repeat split. Qed.
Lemma frame_refl : forall i s, gens s -> frame i s s.
Proof. intros. repeat split; auto. Qed.
#[local] Hint Resolve same_loc_refl same_rest_refl frame_refl : core.

Lemma any_see_l : forall a b, any b = true -> any (see a b) = true.
Proof. intros [] []. unfold any, see; cbn. intro H. repeat rewrite orb_true_iff in *. tauto. Qed.
Lemma any_see : forall a b, any (see a b) = any a || any b.
Proof. intros [[] [] []] [[] [] []]; reflexivity. Qed.

Lemma unchanged_ok : forall pl p s o, good pl p s o -> gens s ->
  good pl p s (o ++ []) /\ p_id p = p_id p /\ frame (p_id p) s s /\ Forall (about (p_id p)) [].
Proof. intros. rewrite app_nil_r. split; [assumption|]. split; [reflexivity|]. split; auto. Qed.

Lemma change_ok : forall c r, any r = true -> f_ok always (change c r).
Proof.
  intros c r Hr pl p s o p1 s1 o' G Gs _ E. unfold change in E. destruct c; inversion E; subst; clear E.
  - split; [|repeat split; auto; repeat constructor]. destruct G. constructor; cbn; auto.
    + intros sn X. destruct (g_s0 sn X) as (A & B & _). repeat split; auto; lia.
    + intro X. destruct (g_i0 X) as (A & B & C & D). repeat split; auto; [lia|].
      intro P. rewrite last_good_app. cbn. auto.
    + intro X. destruct (g_p0 X) as [(g & sn & A & B & C & D & F & K)|(a & A & B & C & D & F & K & M)]; [left|right].
      * exists g, sn. repeat (split; [auto; lia|]). rewrite last_good_app. exact K.
      * exists a. repeat (split; [auto; lia|]). rewrite last_good_app. exact M.
    + intro X. rewrite any_see, Hr, orb_true_r in X. discriminate X.
    + eapply bounded_change; [exact g_r0|lia|]. intros r0 [X|[]]. inversion X. lia.
  - now apply unchanged_ok.
Qed.

Lemma status_spec : forall g id rev k s s1 o, status g id rev k s = (s1, o) ->
  same_rest s s1 /\ s_tasks s1 = s_tasks s /\ s_queue s1 = s_queue s /\ s_notified s1 = s_notified s /\
  Forall (about id) o /\ (forall r, ~ In (OChange id r) o) /\ (forall d, last_good id o d = d).
Proof.
  intros g id rev k s s1 o E. unfold status in E. destruct (rev <? s_status s g id); inversion E; subst; clear E.
  - repeat split; auto.
  - repeat split; auto.
    + destruct k; repeat constructor.
    + destruct k; cbn; intuition discriminate.
    + destruct k; reflexivity.
Qed.

Lemma change_task_ok : forall inputs entry, inputs = true \/ entry <> None ->
  f_ok (fun pl p => pl = true -> entry <> None -> x_compiling p = false) (change_task inputs entry).
Proof.
  intros inputs entry Hm pl p s o p1 s1 o' G Gs Pre E. unfold change_task in E.
  assert (M : inputs || match entry with Some _ => true | None => false end = true).
  { destruct Hm as [->|Hm]; [reflexivity|]. destruct entry; [apply orb_true_r|congruence]. }
  rewrite M in E. destruct entry as [e|].
  - destruct (if e =? 0 then status (s_gen s) (p_id p) (p_rev (bump p)) Suspended s else (s, [])) as [s2 o2] eqn:St.
    inversion E; subst; clear E.
    assert (SP : same_rest s s1 /\ s_tasks s1 = s_tasks s /\ s_queue s1 = s_queue s /\ s_notified s1 = s_notified s /\
      Forall (about (p_id p)) o2 /\ (forall r, ~ In (OChange (p_id p) r) o2) /\ (forall d, last_good (p_id p) o2 d = d)).
    { destruct (e =? 0); [eapply status_spec; eauto|]. inversion St; subst. repeat split; auto. }
    destruct SP as (R & T & Q & Nn & Ab & Nc & Lg). pose proof R as (Rg & _).
    assert (NE : forall id, N s1 id = N s id) by (intro; unfold N; rewrite Nn, Rg; reflexivity).
    split.
    + destruct G. constructor; cbn [p_id p_rev p_entry p_reason p_snap p_committed p_good x_notified x_pending x_emitted x_compiling x_last see_p set_entry bump]; rewrite ?NE, ?T, ?Q; auto.
      * intros sn X. destruct (g_s0 sn X) as (A & B & _). repeat split; auto; lia.
      * intro X. destruct (g_i0 X) as (A & B & C & D). repeat split; auto; [lia|].
        intro P. rewrite last_good_app. cbn. rewrite Nat.eqb_refl. rewrite Lg. reflexivity.
      * intro X. destruct (g_p0 X) as [(g & sn & A & B & C & D & F & K)|(a & A & B & C & D & F & K & M')]; [left|right].
        -- exists g, sn. split; [auto|]. split; [auto|]. split; [lia|]. split; [lia|]. split; [lia|].
           intro P. rewrite Pre in X; auto; discriminate.
        -- exists a. repeat (split; [auto; lia|]).
           intro P. rewrite Pre in X; auto; discriminate.
      * intro X. rewrite any_see, orb_true_r in X. discriminate X.
      * eapply bounded_change; [exact g_r0|lia|]. intros r0 [X|[X|X]]; [inversion X; lia|discriminate|].
        exfalso. exact (Nc _ X).
    + split; [reflexivity|]. split.
      * split; [exact R|]. split; [unfold gens in *; rewrite T, Rg; exact Gs|]. split; [|intros; now rewrite Nn].
        intros id _. unfold same_loc. rewrite T, Q, NE. auto.
      * constructor; [reflexivity|]. constructor; [reflexivity|exact Ab].
  - inversion E; subst; clear E. destruct inputs; [|discriminate M].
    pose proof (change_ok true reason_entry eq_refl pl p s1 o _ _ _ G Gs I eq_refl) as X. exact X.
Qed.

(** Emitting again never does anything. *)
Lemma emit_pending_noop : forall p s, (forall a, x_last p = Some a -> sn_id (a_snap a) = p_id p /\ sn_rev (a_snap a) <= N s (p_id p)) ->
  exists pe em, emit_pending p s = (set_reasons p (p_reason p) pe em, s, []).
Proof.
  intros p s H. unfold emit_pending. assert (Sf : p = set_reasons p (p_reason p) (x_pending p) (x_emitted p)) by (destruct p; reflexivity).
  destruct (x_last p) as [a|] eqn:La; [|exists (x_pending p), (x_emitted p); now rewrite <- Sf].
  destruct (negb (sn_rev (a_snap a) =? p_rev p)); [exists (x_pending p), (x_emitted p); now rewrite <- Sf|].
  destruct (negb (any (exclude (x_pending p) (x_emitted p)))); [exists (x_pending p), (x_emitted p); now rewrite <- Sf|].
  destruct (H a eq_refl) as [Hi Hr]. unfold notify_compile. cbn [with_signal a_snap sn_id sn_rev].
  rewrite Hi. unfold N in Hr. apply Nat.leb_le in Hr. rewrite Hr. eauto.
Qed.

Lemma relabel_ok : forall pl p s o pe em, good pl p s o -> gens s ->
  good pl (set_reasons p (p_reason p) pe em) s (o ++ []) /\ p_id p = p_id p /\ frame (p_id p) s s /\ Forall (about (p_id p)) [].
Proof. intros pl p s o pe em G Gs. rewrite app_nil_r. split; [destruct G; constructor; auto|]. split; [reflexivity|]. split; auto. Qed.

Lemma try_compile_ok : f_ok (fun _ p => x_compiling p = false) try_compile.
Proof.
  intros pl p s o p1 s1 o' G Gs Nc E. unfold try_compile in E.
  destruct (any (p_reason p)) eqn:An; cbn [negb orb] in E.
  2: { inversion E; subst; clear E. exact (relabel_ok _ _ _ _ _ _ G Gs). }
  destruct (p_entry p =? 0); [inversion E; subst; clear E; exact (relabel_ok _ _ _ _ _ _ G Gs)|].
  destruct (snapshot (set_reasons p (p_reason p) no_reason (p_reason p))) as [p2 sn] eqn:Sn.
  destruct (status (s_gen s) (sn_id sn) (sn_rev sn) Compiling s) as [s2 o2] eqn:St.
  inversion E; subst; clear E.
  assert (P : sn_id sn = p_id p /\ sn_rev sn = p_rev p /\ p_id p2 = p_id p /\ p_rev p2 = p_rev p /\ p_snap p2 = Some sn /\
     p_committed p2 = p_committed p /\ p_good p2 = p_good p /\ x_notified p2 = x_notified p /\ x_last p2 = x_last p /\
     (pl = true -> sn_good sn = p_good p)).
  { unfold snapshot in Sn. cbn [p_snap set_reasons p_rev] in Sn. destruct (p_snap p) as [sn0|] eqn:Ps.
    - destruct (g_s _ _ _ _ G _ Ps) as (A & B & C). destruct (Nat.eqb_spec (sn_rev sn0) (p_rev p)) as [Er|Er].
      + inversion Sn; subst; clear Sn. cbn. repeat split; auto. intro Hp. specialize (C Hp An). lia.
      + inversion Sn; subst; clear Sn. cbn. repeat split; auto.
    - inversion Sn; subst; clear Sn. cbn. repeat split; auto. }
  destruct P as (Pi & Pr & P2i & P2r & P2s & P2c & P2g & P2x & P2l & Pg).
  rewrite Pi in St. destruct (status_spec _ _ _ _ _ _ _ St) as (R & T & Q & Nn & Ab & NoCh & Lg). pose proof R as (Rg & _).
  destruct (g_i _ _ _ _ G Nc) as (A & B & C & D). specialize (C An).
  assert (NE : forall id, N s2 id = N s id) by (intro; unfold N; rewrite Nn, Rg; reflexivity).
  assert (LG : last_good (p_id p) (o ++ o2 ++ [OStart (p_id p) (sn_rev sn)]) None = last_good (p_id p) o None).
  { rewrite !last_good_app. cbn. apply Lg. }
  assert (NoCh' : forall r, ~ In (OChange (p_id p) r) (o2 ++ [OStart (p_id p) (sn_rev sn)])).
  { intros r X. apply in_app_or in X. destruct X as [X|[X|[]]]; [exact (NoCh _ X)|discriminate]. }
  split.
  - destruct G. constructor; cbn [set_compiling p_id p_rev p_reason p_snap p_committed p_good x_notified x_compiling x_last].
    all: rewrite ?P2i, ?P2r, ?P2s, ?P2c, ?P2g, ?P2x, ?P2l.
    all: try (change (N (set_tasks s2 (s_tasks s2 ++ [(s_gen s, sn)])) (p_id p)) with (N s2 (p_id p)); rewrite NE); auto.
    + intros sn' X. inversion X; subst. repeat split; auto; try lia. intros _ X'. discriminate X'.
    + discriminate.
    + intros _. left. exists (s_gen s), sn. cbn [set_tasks s_tasks s_queue]. rewrite T, Q. unfold tasks_of. rewrite filter_app.
      cbn [filter snd]. rewrite Pi, Nat.eqb_refl. fold (tasks_of (p_id p) (s_tasks s)). rewrite A.
      repeat split; auto; try lia; try discriminate.
      rewrite LG. auto.
    + intros _. eapply settled_decided; [exact g_r0|exact NoCh'|apply in_or_app; right; left; reflexivity|].
      left. now rewrite Pr.
    + apply bounded_app; auto.
  - split; [exact P2i|]. split.
    + split; [exact R|]. split.
      * unfold gens in *. cbn. rewrite T, Rg. apply Forall_app. split; [exact Gs|]. repeat constructor.
      * split; [|intros g id Hg; cbn; now rewrite Nn].
        intros id Ne. unfold same_loc. cbn [set_tasks s_tasks s_queue].
        change (N (set_tasks s2 (s_tasks s2 ++ [(s_gen s, sn)])) id) with (N s2 id).
        rewrite T, Q, NE. unfold tasks_of. rewrite filter_app. cbn [filter snd]. rewrite Pi.
        apply not_eq_sym in Ne. apply Nat.eqb_neq in Ne. rewrite Ne. rewrite app_nil_r. auto.
    + apply Forall_app. split; [exact Ab|]. repeat constructor.
Qed.

Lemma consider_ok : forall clean, f_ok always (consider clean).
Proof.
  intros clean pl p s o p1 s1 o' G Gs _ E. unfold consider in E. destruct (x_compiling p) eqn:Xc.
  - inversion E; subst. now apply unchanged_ok.
  - destruct (_ && _) eqn:Cl.
    + destruct (emit_pending _ s) as [[p2 s2] o2] eqn:Em. inversion E; subst; clear E.
      destruct (emit_pending_noop (set_reasons p no_reason (see (x_pending p) (p_reason p)) (x_emitted p)) s) as (pe & em & X).
      { cbn. exact (g_l _ _ _ _ G). }
      rewrite X in Em. inversion Em; subst; clear Em X. cbn [p_reason set_reasons].
      split; [|repeat split; auto; repeat constructor].
      destruct (g_i _ _ _ _ G Xc) as (A & B & C & D).
      destruct G. constructor; cbn; auto.
      * intros sn X. destruct (g_s0 _ X) as (A1 & B1 & _). repeat split; auto. intros _ Y. discriminate Y.
      * intros _. repeat split; auto; [intro Y; discriminate Y|]. intro P. rewrite last_good_app. cbn. auto.
      * intro X. rewrite Xc in X. discriminate X.
      * intros _. eapply settled_decided; [exact g_r0| |left; reflexivity|right; reflexivity].
        intros r [X|[]]. discriminate X.
      * apply bounded_app; [auto|]. intros r [X|[]]. discriminate X.
    + exact (try_compile_ok pl p s o _ _ _ G Gs Xc E).
Qed.
Definition rested (p : proj) : Prop := x_compiling p = true \/ any (p_reason p) = false \/ p_entry p = 0.
Lemma consider_rested : forall clean p s, rested (fst (fst (consider clean p s))).
Proof.
  intros clean p s. unfold consider, rested. destruct (x_compiling p) eqn:Xc; [left; exact Xc|].
  destruct (_ && _).
  - right. left. unfold emit_pending. cbn [x_last set_reasons]. destruct (x_last p) as [a|]; [|reflexivity].
    destruct (negb _); [reflexivity|]. destruct (negb _); [reflexivity|]. destruct (notify_compile _ _ _). reflexivity.
  - unfold try_compile. destruct (any (p_reason p)) eqn:An; cbn [negb orb]; [|right; left; exact An].
    destruct (Nat.eqb_spec (p_entry p) 0) as [E|E]; [right; right; exact E|].
    destruct (snapshot _). destruct (status _ _ _ _ _). left. reflexivity.
Qed.

(** ** Loops *)

Lemma each_ok : forall Pre f, f_ok Pre f -> forall pl l s o l1 s1 o',
  Forall (fun p => good pl p s o) l -> Forall (Pre pl) l -> gens s -> NoDup (map p_id l) -> each f l s = (l1, s1, o') ->
  Forall (fun p => good pl p s1 (o ++ o')) l1 /\ map p_id l1 = map p_id l /\ same_rest s s1 /\ gens s1 /\
  (forall id, ~ In id (map p_id l) -> same_loc s s1 id) /\
  (forall g id, s_gen s < g -> s_notified s1 g id = s_notified s g id) /\
  Forall (fun x => exists i, In i (map p_id l) /\ about i x) o'.
Proof.
  intros Pre f F pl. induction l as [|p l IH]; intros s o l1 s1 o' G Pr Gs Nd E; cbn in E.
  - inversion E; subst. repeat split; auto.
  - destruct (f p s) as [[p1 sa] oa] eqn:Fp. destruct (each f l sa) as [[r1 sb] ob] eqn:Er. inversion E; subst; clear E.
    inversion G as [|? ? G1 G2]; subst. inversion Nd as [|? ? Nd1 Nd2]; subst. inversion Pr as [|? ? Pr1 Pr2]; subst.
    destruct (F pl p s o _ _ _ G1 Gs Pr1 Fp) as (Ga & Ia & (Ra & Gsa & La & Ha) & Aa).
    assert (G2' : Forall (fun q => good pl q sa (o ++ oa)) l).
    { rewrite Forall_forall in *. intros q Hq. assert (Ne : p_id p <> p_id q).
      { intro X. apply Nd1. rewrite X. now apply in_map. }
      apply good_other with (s := s) (i := p_id p); auto. rewrite Forall_forall. exact Aa. }
    destruct (IH sa (o ++ oa) _ _ _ G2' Pr2 Gsa Nd2 Er) as (Gb & Ib & Rb & Gsb & Lb & Hb & Ab).
    assert (Rg : s_gen sa = s_gen s) by apply Ra.
    rewrite app_assoc. split.
    + constructor; [|exact Gb].
      assert (Ni : ~ In (p_id p1) (map p_id l)) by (rewrite Ia; exact Nd1).
      clear - Ga Lb Ab Ni. specialize (Lb _ Ni). revert Ga Ab. generalize (o ++ oa) as oo. intros oo Ga Ab.
      assert (LG : last_good (p_id p1) (oo ++ ob) None = last_good (p_id p1) oo None).
      { rewrite last_good_app. generalize (last_good (p_id p1) oo None). clear - Ab Ni. induction ob as [|x ob IH]; intro d; [reflexivity|].
        inversion Ab as [|? ? (i & Hi & Hx) Ab']; subst. cbn. rewrite IH; auto.
        destruct x; cbn in Hx; try reflexivity; try contradiction. subst.
        destruct (Nat.eqb_spec i (p_id p1)); [congruence|reflexivity]. }
      assert (NC : forall r, ~ In (OChange (p_id p1) r) ob).
      { intros r X. rewrite Forall_forall in Ab. destruct (Ab _ X) as (i & Hi & Hx). cbn in Hx. congruence. }
      destruct Lb as (T & Q & L). destruct Ga. constructor; try rewrite L; try rewrite T; try rewrite Q; try rewrite LG; auto.
      * intro R. apply settled_app; auto.
      * apply bounded_app; auto.
    + split; [cbn; now rewrite Ia, Ib|]. split.
      { destruct Ra as (a1 & a2 & a3 & a4 & a5), Rb as (b1 & b2 & b3 & b4 & b5). repeat split; congruence. }
      split; [exact Gsb|]. split.
      { intros id Hid. cbn in Hid. destruct (La id) as (a1 & a2 & a3); [intuition|].
        destruct (Lb id) as (b1 & b2 & b3); [intuition|]. repeat split; congruence. }
      split; [intros g id Hg; rewrite Hb, Ha; auto; congruence|].
      apply Forall_app. split.
      * eapply Forall_impl; [|exact Aa]. intros x Hx. exists (p_id p). split; [now left|exact Hx].
      * eapply Forall_impl; [|exact Ab]. intros x (i & Hi & Hx). exists i. split; [now right|exact Hx].
Qed.

Definition same_core (s s1 : st) : Prop :=
  s_gen s1 = s_gen s /\ s_ninst s1 = s_ninst s /\ s_status s1 = s_status s /\ s_notified s1 = s_notified s /\
  s_tasks s1 = s_tasks s /\ s_queue s1 = s_queue s /\ s_dead s1 = s_dead s.

Lemma each_post : forall (Q : proj -> Prop) f, (forall p s, Q (fst (fst (f p s)))) -> forall l s, Forall Q (fst (fst (each f l s))).
Proof.
  intros Q f H. induction l as [|p l IH]; intro s; cbn; [constructor|].
  specialize (H p s). destruct (f p s) as [[p1 sa] oa]. specialize (IH sa). destruct (each f l sa) as [[r1 sb] ob].
  cbn in *. constructor; auto.
Qed.

Lemma for_all_each : forall f s s1 o, for_all_projects f s = (s1, o) ->
  exists l s2, each f (projects s) s = (l, s2, o) /\ projects s1 = l /\ same_core s2 s1.
Proof.
  intros f s s1 o E. unfold for_all_projects in E. unfold projects at 1. cbn [each].
  destruct (f (s_primary s) s) as [[p1 sa] oa]. destruct (each f (s_dedicates s) sa) as [[l sb] ob].
  inversion E; subst; clear E. exists (p1 :: l), sb. repeat split.
Qed.

(** ** One project *)

Lemma on_first_some : forall id f l s l1 s1 o, on_first id f l s = Some (l1, s1, o) ->
  exists a p b p1, l = a ++ p :: b /\ p_id p = id /\ ~ In id (map p_id a) /\ f p s = (p1, s1, o) /\ l1 = a ++ p1 :: b.
Proof.
  induction l as [|q l IH]; intros s l1 s1 o E; cbn in E; [discriminate|].
  destruct (Nat.eqb_spec (p_id q) id) as [Eq|Ne].
  - destruct (f q s) as [[p1 s2] o2] eqn:F. inversion E; subst. exists [], q, l, p1. repeat split; auto.
  - destruct (on_first id f l s) as [[[r1 s2] o2]|] eqn:O; [|discriminate]. inversion E; subst.
    destruct (IH _ _ _ _ O) as (a & p & b & p1 & -> & I1 & I2 & I3 & ->).
    exists (q :: a), p, b, p1. repeat split; auto. cbn. intuition.
Qed.
Lemma on_first_none : forall id f l s, on_first id f l s = None -> ~ In id (map p_id l).
Proof.
  induction l as [|q l IH]; intros s E; cbn in *; [tauto|].
  destruct (Nat.eqb_spec (p_id q) id); [destruct (f q s) as [[? ?] ?]; discriminate|].
  destruct (on_first id f l s) as [[[? ?] ?]|] eqn:O; [discriminate|]. intros [X|X]; [contradiction|]. exact (IH _ O X).
Qed.
Lemma on_project_some : forall id f s s1 o, on_project id f s = Some (s1, o) ->
  (forall p p1 s2 o2, f p s = (p1, s2, o2) -> same_rest s s2) ->
  exists a p b p1 s2, projects s = a ++ p :: b /\ p_id p = id /\ ~ In id (map p_id a) /\ f p s = (p1, s2, o) /\
    projects s1 = a ++ p1 :: b /\ same_core s2 s1.
Proof.
  intros id f s s1 o E R. unfold on_project in E. unfold projects. destruct (Nat.eqb_spec id (p_id (s_primary s))) as [Eq|Ne].
  - destruct (f (s_primary s) s) as [[p1 s2] o2] eqn:F. inversion E; subst.
    exists [], (s_primary s), (s_dedicates s), p1, s2. pose proof (R _ _ _ _ F) as (_ & _ & _ & D & _).
    repeat split; auto. cbn. now rewrite D.
  - destruct (on_first id f (s_dedicates s) s) as [[[l s2] o2]|] eqn:O; [|discriminate]. inversion E; subst.
    destruct (on_first_some _ _ _ _ _ _ _ O) as (a & p & b & p1 & Hd & I1 & I2 & I3 & ->).
    exists (s_primary s :: a), p, b, p1, s2. pose proof (R _ _ _ _ I3) as (_ & _ & Pp & _ & _).
    repeat split; auto; cbn; [now rewrite Hd|intuition|now rewrite Pp].
Qed.
Lemma on_project_none : forall id f s, on_project id f s = None -> ~ known s id.
Proof.
  intros id f s E. unfold on_project in E. destruct (Nat.eqb_spec id (p_id (s_primary s))) as [Eq|Ne].
  - destruct (f (s_primary s) s) as [[? ?] ?]. discriminate.
  - destruct (on_first id f (s_dedicates s) s) as [[[? ?] ?]|] eqn:O; [discriminate|].
    apply on_first_none in O. unfold known, projects. cbn. intros [X|X]; [congruence|contradiction].
Qed.
Lemma unique_split : forall (a1 a2 b1 b2 : list proj) p1 p2 id, a1 ++ p1 :: b1 = a2 ++ p2 :: b2 ->
  p_id p1 = id -> p_id p2 = id -> ~ In id (map p_id a1) -> ~ In id (map p_id a2) -> a1 = a2 /\ p1 = p2 /\ b1 = b2.
Proof.
  induction a1 as [|x a1 IH]; intros [|y a2] b1 b2 p1 p2 id E I1 I2 N1 N2; cbn in *; inversion E; subst; auto.
  - exfalso. apply N2. now left.
  - exfalso. apply N1. now left.
  - edestruct (IH a2 b1 b2 p1 p2 (p_id p1)) as (-> & -> & ->); auto.
Qed.

(** ** The invariant of tame histories *)

Definition docs_ok (o : list out) : Prop :=
  forall o1 a o2, o = o1 ++ ONotify a :: o2 -> a_doc a = None -> success_doc a = last_good (sn_id (a_snap a)) o1 None.
Record Inv (pl : bool) (s : st) (o : list out) : Prop := {
  I_dead : s_dead s = false;
  I_prim : p_id (s_primary s) = 0;
  I_nd : NoDup (map p_id (projects s));
  I_g : Forall (fun p => good pl p s o) (projects s);
  I_gens : gens s;
  I_unk : forall id, ~ known s id -> tasks_of id (s_tasks s) = [] /\ queue_of id (s_queue s) = [] /\ N s id = 0 /\
    (forall a b rev, o = a ++ OChange id rev :: b -> In (ORemove id) b) /\ last_good id o None = None;
  I_fut : forall g id, s_gen s < g -> s_notified s g id = 0;
  I_doc : pl = true -> docs_ok o
}.

Lemma docs_app : forall o o', docs_ok o -> (forall a, ~ In (ONotify a) o') -> docs_ok (o ++ o').
Proof.
  intros o o' D H o1 a o2 E Hn. destruct (app_split _ _ _ _ _ _ E) as [[b0 [-> ->]]|[a0 [-> ->]]].
  - exact (D _ _ _ eq_refl Hn).
  - exfalso. apply (H a). apply in_or_app. right. now left.
Qed.
Lemma last_good_abouts : forall (K : nat -> Prop) id o d, Forall (fun x => exists i, K i /\ about i x) o -> ~ K id ->
  last_good id o d = d.
Proof.
  induction o as [|x o IH]; intros d F Nk; [reflexivity|]. inversion F as [|? ? (i & Hi & Hx) F']; subst. cbn. rewrite IH; auto.
  destruct x; cbn in Hx; try reflexivity; try contradiction. subst.
  destruct (Nat.eqb_spec i id); [subst; contradiction|reflexivity].
Qed.

Lemma Inv_extend : forall pl s o s1 o', Inv pl s o -> s_gen s1 = s_gen s -> s_dead s1 = s_dead s ->
  map p_id (projects s1) = map p_id (projects s) -> gens s1 ->
  Forall (fun p => good pl p s1 (o ++ o')) (projects s1) ->
  (forall id, ~ known s id -> same_loc s s1 id) ->
  (forall g id, s_gen s < g -> s_notified s1 g id = s_notified s g id) ->
  Forall (fun x => exists i, known s i /\ about i x) o' -> Inv pl s1 (o ++ o').
Proof.
  intros pl s o s1 o' [I1 I2 I3 I4 I5 I6 I7 I8] Hg Hd Hp Gs G L F A.
  assert (K : forall id, known s1 id <-> known s id) by (intro; unfold known; now rewrite Hp).
  assert (A' : forall x, In x o' -> exists i, known s i /\ about i x) by (rewrite Forall_forall in A; exact A).
  constructor; auto.
  - congruence.
  - unfold projects in Hp. cbn in Hp. inversion Hp. congruence.
  - now rewrite Hp.
  - intros id Nk. rewrite K in Nk. destruct (I6 id Nk) as (a1 & a2 & a3 & a4 & a5). destruct (L id Nk) as (b1 & b2 & b3).
    split; [congruence|]. split; [congruence|]. split; [congruence|]. split.
    + intros a b rev E. destruct (app_split _ _ _ _ _ _ E) as [[b0 [-> ->]]|[a0 [-> ->]]].
      * apply in_or_app. left. exact (a4 _ _ _ eq_refl).
      * exfalso. destruct (A' (OChange id rev)) as (i & Ki & X); [apply in_or_app; right; now left|]. cbn in X. congruence.
    + rewrite last_good_app, a5. eapply last_good_abouts; eauto.
  - intros g id Hlt. rewrite F; rewrite Hg in Hlt; auto.
  - intro P. apply docs_app; auto. intros a Hi. destruct (A' _ Hi) as (i & _ & X). exact X.
Qed.

Lemma good_core : forall pl p s s1 o, good pl p s o -> same_core s s1 -> good pl p s1 o.
Proof.
  intros pl p s s1 o G (a & b & c & d & e & f & g). assert (NE : forall id, N s1 id = N s id) by (intro; unfold N; congruence).
  destruct G. constructor; try rewrite NE; try rewrite e; try rewrite f; auto.
Qed.
Lemma gens_core : forall s s1, gens s -> same_core s s1 -> gens s1.
Proof. intros s s1 G (a & b & c & d & e & f & g). unfold gens in *. now rewrite e, a. Qed.
Lemma same_loc_core : forall s s1 s2 id, same_loc s s1 id -> same_core s1 s2 -> same_loc s s2 id.
Proof.
  intros s s1 s2 id (x & y & z) (a & b & c & d & e & f & g). unfold same_loc, N in *. rewrite a, d, e, f. auto.
Qed.

Lemma Inv_for_all : forall Pre f pl s o s1 o', f_ok Pre f -> Inv pl s o -> Forall (Pre pl) (projects s) ->
  for_all_projects f s = (s1, o') -> Inv pl s1 (o ++ o') /\ map p_id (projects s1) = map p_id (projects s).
Proof.
  intros Pre f pl s o s1 o' F I Pr E. destruct (for_all_each _ _ _ _ E) as (l & s2 & Ea & Pl & C).
  destruct (each_ok _ _ F pl _ _ o _ _ _ (I_g _ _ _ I) Pr (I_gens _ _ _ I) (I_nd _ _ _ I) Ea) as (G & M & R & Gs & L & Fu & A).
  rewrite <- Pl in M. split; [|exact M]. pose proof C as (c1 & c2 & c3 & c4 & c5 & c6 & c7). destruct R as (r1 & r2 & r3 & r4 & r5).
  apply Inv_extend with (s := s); [exact I|congruence|congruence|exact M| | | | |].
  - eapply gens_core; eauto.
  - rewrite Pl. eapply Forall_impl; [|exact G]. intros p Hp. exact (good_core _ _ _ _ _ Hp C).
  - intros id Nk. exact (same_loc_core _ _ _ _ (L id Nk) C).
  - intros g id Hg. rewrite c4. auto.
  - exact A.
Qed.

Lemma Inv_on_project : forall Pre f pl s o s1 o' id, f_ok Pre f -> Inv pl s o ->
  (forall p, In p (projects s) -> p_id p = id -> Pre pl p) ->
  (forall p p1 s2 o2, f p s = (p1, s2, o2) -> same_rest s s2) ->
  on_project id f s = Some (s1, o') -> Inv pl s1 (o ++ o') /\ map p_id (projects s1) = map p_id (projects s).
Proof.
  intros Pre f pl s o s1 o' id F I Pr Rs E.
  destruct (on_project_some _ _ _ _ _ E Rs) as (a & p & b & p1 & s2 & P1 & P2 & P3 & P4 & P5 & C).
  assert (Gp : good pl p s o).
  { pose proof (I_g _ _ _ I) as G. rewrite P1 in G. apply Forall_app in G. destruct G as [_ G]. now inversion G. }
  destruct (F pl p s o p1 s2 o' Gp (I_gens _ _ _ I)) as (G1 & I1 & (R & Gs & L & Fu) & A).
  { apply Pr; [|exact P2]. rewrite P1. apply in_or_app. right. now left. }
  { exact P4. }
  assert (M : map p_id (projects s1) = map p_id (projects s)) by (rewrite P5, P1, !map_app; cbn; now rewrite I1).
  split; [|exact M]. pose proof C as (c1 & c2 & c3 & c4 & c5 & c6 & c7). destruct R as (r1 & r2 & r3 & r4 & r5).
  assert (Others : forall q, In q (a ++ b) -> good pl q s1 (o ++ o')).
  { intros q Hq. assert (Gq : good pl q s o).
    { pose proof (I_g _ _ _ I) as G. rewrite P1, Forall_forall in G. apply G. apply in_app_or in Hq. apply in_or_app. cbn. tauto. }
    assert (Ne : p_id p <> p_id q).
    { pose proof (I_nd _ _ _ I) as Nd. rewrite P1, map_app in Nd. cbn in Nd. apply NoDup_remove_2 in Nd.
      intro X. apply Nd. rewrite X, <- map_app. now apply in_map. }
    eapply good_core; [|exact C]. apply good_other with (s := s) (i := p_id p); auto. }
  apply Inv_extend with (s := s); [exact I|congruence|congruence|exact M| | | | |].
  - eapply gens_core; eauto.
  - rewrite P5. rewrite Forall_forall. intros q Hq. apply in_app_or in Hq. destruct Hq as [Hq|[<-|Hq]].
    + apply Others. apply in_or_app. auto.
    + exact (good_core _ _ _ _ _ G1 C).
    + apply Others. apply in_or_app. auto.
  - intros i Nk. eapply same_loc_core; [|exact C]. apply L. intro X. apply Nk. unfold known. rewrite P1, map_app. subst. apply in_or_app. right. now left.
  - intros g i Hg. rewrite c4. auto.
  - eapply Forall_impl; [|exact A]. intros x Hx. exists (p_id p). split; [|exact Hx].
    unfold known. rewrite P1, map_app. apply in_or_app. right. now left.
Qed.

(** ** Scheduling *)

Definition all_rested (s : st) : Prop := Forall rested (projects s).
Lemma Inv_schedule : forall pl s o s1 o' clean, Inv pl s o -> on_any_reason clean s = (s1, o') ->
  Inv pl s1 (o ++ o') /\ all_rested s1 /\ map p_id (projects s1) = map p_id (projects s).
Proof.
  intros pl s o s1 o' clean I E. unfold on_any_reason in E.
  assert (T : Forall (always pl) (projects s)) by (apply Forall_forall; intros; exact Logic.I).
  destruct (Inv_for_all _ _ _ _ _ _ _ (consider_ok clean) I T E) as [J M]. split; [exact J|]. split; [|exact M].
  destruct (for_all_each _ _ _ _ E) as (l & s2 & Ea & Pl & C). unfold all_rested. rewrite Pl.
  pose proof (each_post rested (consider clean) (consider_rested clean) (projects s) s) as X. rewrite Ea in X. exact X.
Qed.

(** ** Steps *)

Lemma filter_none : forall A (f : A -> bool) l, filter f l = [] <-> (forall x, In x l -> f x = false).
Proof.
  induction l as [|x l IH]; cbn; [tauto|]. destruct (f x) eqn:E.
  - split; [discriminate|]. intro H. rewrite H in E; [discriminate|now left].
  - rewrite IH. split; [intros H y [<-|Hy]; auto|auto].
Qed.
Lemma not_in_flight : forall s id, ~ in_flight s id <-> tasks_of id (s_tasks s) = [] /\ queue_of id (s_queue s) = [].
Proof.
  intros s id. unfold tasks_of, queue_of. rewrite !filter_none. unfold in_flight. split.
  - intro H. split; intros x Hx.
    + apply Nat.eqb_neq. intro E. apply H. left. destruct x as [g sn]. exists g, sn. auto.
    + apply Nat.eqb_neq. intro E. apply H. right. exists x. auto.
  - intros [A B] [(g & sn & Hi & E)|(a & Hi & E)].
    + apply A in Hi. cbn in Hi. apply Nat.eqb_neq in Hi. contradiction.
    + apply B in Hi. apply Nat.eqb_neq in Hi. contradiction.
Qed.
Lemma not_in_flight_idle : forall pl p s o, good pl p s o -> ~ in_flight s (p_id p) -> x_compiling p = false.
Proof.
  intros pl p s o G H. apply not_in_flight in H. destruct H as [A B]. destruct (x_compiling p) eqn:X; [|reflexivity].
  destruct (g_p _ _ _ _ G X) as [(g & sn & T & _)|(a & _ & Q & _)]; congruence.
Qed.

Lemma status_rest : forall g id rev k s, same_rest s (fst (status g id rev k s)).
Proof. intros. unfold status. destruct (_ <? _); cbn; auto. repeat split. Qed.
Lemma change_rest : forall c r p s p1 s2 o2, change c r p s = (p1, s2, o2) -> same_rest s s2.
Proof. intros c r p s p1 s2 o2 E. unfold change in E. destruct c; inversion E; subst; auto. Qed.
Lemma change_task_rest : forall i e p s p1 s2 o2, change_task i e p s = (p1, s2, o2) -> same_rest s s2.
Proof.
  intros i e p s p1 s2 o2 E. unfold change_task in E. destruct e as [e|].
  - destruct (e =? 0).
    + pose proof (status_rest (s_gen s) (p_id p) (p_rev (if i || true then bump p else p)) Suspended s) as R.
      destruct (status _ _ _ _ _) as [sx ox]. inversion E; subst. exact R.
    + inversion E; subst; auto.
  - inversion E; subst; auto.
Qed.
Lemma notify_rest : forall g a s, same_rest s (fst (notify_compile g a s)).
Proof. intros. unfold notify_compile. destruct (_ <=? _); cbn; auto. repeat split. Qed.
Lemma emit_rest : forall p s p1 s2 o2, emit_pending p s = (p1, s2, o2) -> same_rest s s2.
Proof.
  intros p s p1 s2 o2 E. unfold emit_pending in E. destruct (x_last p) as [a|]; [|inversion E; subst; auto].
  destruct (negb _); [inversion E; subst; auto|]. destruct (negb _); [inversion E; subst; auto|].
  pose proof (notify_rest (s_gen s) (with_signal a (exclude (x_pending p) (x_emitted p))) s) as R.
  destruct (notify_compile _ _ _). inversion E; subst. exact R.
Qed.
Lemma ext_rest : forall a p s p1 s2 o2, ext_compiled a p s = (p1, s2, o2) -> same_rest s s2.
Proof.
  intros a p s p1 s2 o2 E. unfold ext_compiled in E. destruct (_ <=? _); [inversion E; subst; auto|]. eapply emit_rest; eauto.
Qed.
Lemma pc_rest : forall a p s p1 s2 o2, process_compile a p s = (p1, s2, o2) -> same_rest s s2.
Proof. intros a p s p1 s2 o2 E. unfold process_compile in E. destruct (_ <=? _); inversion E; subst; auto. Qed.

Lemma remove_first_in : forall id l p, In p (remove_first id l) -> In p l.
Proof.
  induction l as [|q l IH]; intros p H; cbn in *; [auto|]. destruct (p_id q =? id); [auto|]. destruct H; auto.
Qed.
Lemma remove_first_ids : forall id l, NoDup (map p_id l) ->
  NoDup (map p_id (remove_first id l)) /\ (forall i, In i (map p_id (remove_first id l)) <-> In i (map p_id l) /\ i <> id).
Proof.
  induction l as [|q l IH]; intros Nd; cbn in *; [split; [constructor|tauto]|]. inversion Nd; subst.
  destruct (Nat.eqb_spec (p_id q) id) as [<-|Ne].
  - split; [auto|]. intro i. split; [intro Hi; split; [auto|]; intro X; subst; contradiction|].
    intros [[X|X] Y]; [congruence|auto].
  - destruct (IH H2) as [A B]. cbn. split.
    + constructor; [|exact A]. rewrite B. tauto.
    + intro i. rewrite B. split; [intros [<-|[X Y]]; auto|intros [[X|X] Y]; auto].
Qed.

(** Removing a project with nothing in flight. *)
Lemma Inv_remove : forall pl s o s1 o' id, Inv pl s o -> (dedicated s id -> ~ in_flight s id) ->
  remove_dedicates id s = (s1, o') ->
  Inv pl s1 (o ++ o') /\ (id <> 0 -> ~ known s1 id).
Proof.
  intros pl s o s1 o' id I H E. unfold remove_dedicates in E.
  destruct (existsb _ _) eqn:Ex.
  2: { inversion E; subst. rewrite app_nil_r. split; [exact I|]. intros Nz [X|X].
       - rewrite (I_prim _ _ _ I) in X. congruence.
       - rewrite <- not_true_iff_false in Ex. apply Ex. apply in_map_iff in X. destruct X as (p & X & Y).
         apply existsb_exists. exists p. split; [exact Y|]. apply Nat.eqb_eq. exact X. }
  apply existsb_exists in Ex. destruct Ex as (p & Hp & Hi). apply Nat.eqb_eq in Hi. subst id.
  assert (Ded : dedicated s (p_id p)) by (unfold dedicated; now apply in_map). specialize (H Ded).
  unfold notify_removed in E. inversion E; subst; clear E.
  set (s' := set_dedicates _ _). set (id := p_id p) in *. set (out' := [OClear id (s_notified s (s_gen s) id)] ++ [ORemove id]).
  pose proof (I_nd _ _ _ I) as Nd. unfold projects in Nd. cbn in Nd. inversion Nd as [|? ? Nd1 Nd2]; subst.
  destruct (remove_first_ids id _ Nd2) as [R1 R2].
  assert (Np : ~ In id (map p_id (projects s'))).
  { cbn. intros [X|X].
    - unfold dedicated in Ded. rewrite <- X in Ded. contradiction.
    - apply R2 in X. tauto. }
  assert (NE : forall i, N s' i = if i =? id then 0 else N s i).
  { intro i. unfold N, s'. cbn. unfold upd2. rewrite upd_eq. unfold upd. reflexivity. }
  assert (LG : forall i d, last_good i out' d = if i =? id then None else d).
  { intros i d. cbn. rewrite Nat.eqb_sym. reflexivity. }
  assert (NC : forall i r, ~ In (OChange i r) out') by (intros i r [X|[X|[]]]; discriminate).
  assert (NNo : forall a, ~ In (ONotify a) out') by (intros a [X|[X|[]]]; discriminate).
  assert (RI : In (ORemove id) out') by (right; now left).
  change ([OClear id (s_notified s (s_gen s) id); ORemove id]) with out'.
  clearbody out'.
  assert (Oth : forall q, In q (projects s') -> good pl q s o -> good pl q s' (o ++ out')).
  { intros q Hq G. assert (Ne : p_id q <> id) by (intro X; apply Np; rewrite <- X; now apply in_map).
    assert (Ln : N s' (p_id q) = N s (p_id q)) by (rewrite NE; apply Nat.eqb_neq in Ne; now rewrite Ne).
    assert (Ll : last_good (p_id q) (o ++ out') None = last_good (p_id q) o None).
    { rewrite last_good_app, LG. apply Nat.eqb_neq in Ne. now rewrite Ne. }
    destruct G. constructor; try rewrite Ln; try rewrite Ll; auto.
    - intro R. apply settled_app; auto.
    - apply bounded_app; auto. }
  split; [|intros _; exact Np].
  constructor.
  - exact (I_dead _ _ _ I).
  - exact (I_prim _ _ _ I).
  - cbn. constructor; [|exact R1]. intro X. apply R2 in X. tauto.
  - rewrite Forall_forall. intros q Hq. apply Oth; [exact Hq|]. pose proof (I_g _ _ _ I) as G. rewrite Forall_forall in G. apply G.
    destruct Hq as [<-|Hq]; [now left|right]. exact (remove_first_in _ _ _ Hq).
  - exact (I_gens _ _ _ I).
  - intros i Nk. destruct (Nat.eq_dec i id) as [->|Ne].
    + apply not_in_flight in H. destruct H as [A B]. split; [exact A|]. split; [exact B|]. split; [rewrite NE, Nat.eqb_refl; reflexivity|].
      split; [|rewrite last_good_app, LG, Nat.eqb_refl; reflexivity].
      intros a b rev E. destruct (app_split _ _ _ _ _ _ E) as [[b0 [_ ->]]|[a0 [_ X]]].
      * apply in_or_app. right. exact RI.
      * exfalso. apply (NC id rev). rewrite X. apply in_or_app. right. now left.
    + destruct (I_unk _ _ _ I i) as (a1 & a2 & a3 & a4 & a5).
      { intros [X|X]; apply Nk; [left; exact X|right]. apply R2. auto. }
      split; [exact a1|]. split; [exact a2|]. split; [rewrite NE; apply Nat.eqb_neq in Ne; now rewrite Ne|]. split.
      * intros a b rev E. destruct (app_split _ _ _ _ _ _ E) as [[b0 [-> ->]]|[a0 [_ X]]].
        -- apply in_or_app. left. exact (a4 _ _ _ eq_refl).
        -- exfalso. apply (NC i rev). rewrite X. apply in_or_app. right. now left.
      * rewrite last_good_app, LG. apply Nat.eqb_neq in Ne. now rewrite Ne.
  - intros g i Hg. unfold s'. cbn. unfold upd2. rewrite upd_neq by (cbn in Hg; lia). exact (I_fut _ _ _ I g i Hg).
  - intro P. apply docs_app; [exact (I_doc _ _ _ I P)|exact NNo].
Qed.

Lemma not_known_new : forall pl s o id, Inv pl s o -> ~ known s id -> tasks_of id (s_tasks s) = [] /\ queue_of id (s_queue s) = [].
Proof. intros pl s o id I Nk. destruct (I_unk _ _ _ I id Nk) as (A & B & _). auto. Qed.

Lemma NoDup_snoc : forall A (l : list A) x, NoDup l -> ~ In x l -> NoDup (l ++ [x]).
Proof.
  induction l as [|y l IH]; intros x Nd H; cbn; [repeat constructor; auto|]. inversion Nd; subst. constructor.
  - intro X. apply in_app_or in X. destruct X as [X|[X|[]]]; [contradiction|]. subst. apply H. now left.
  - apply IH; auto. intro X. apply H. now right.
Qed.

(** A new project. *)
Lemma good_new : forall pl s o id inst entry s', ~ known s id -> Inv pl s o -> s_tasks s' = s_tasks s -> s_queue s' = s_queue s ->
  N s' id = N s id -> good pl (see_p (new_proj id inst entry) reason_entry) s' (o ++ [OChange id 1]).
Proof.
  intros pl s o id inst entry s' Nk I T Q Nn. destruct (I_unk _ _ _ I id Nk) as (a1 & a2 & a3 & a4 & a5).
  constructor; cbn; rewrite ?T, ?Q, ?Nn, ?a3; auto; try discriminate.
  - intros _. split; [auto|]. split; [auto|]. split; [lia|]. intro. rewrite last_good_app, a5. reflexivity.
  - intros a b rev E Hn. destruct (app_split _ _ _ _ _ _ E) as [[b0 [-> ->]]|[a0 [-> X]]].
    + exfalso. apply Hn. apply in_or_app. left. exact (a4 _ _ _ eq_refl).
    + destruct a0 as [|y a0]; cbn in X; inversion X; subst; auto. destruct a0; discriminate.
Qed.

Lemma Inv_restart : forall pl s o id entry s1 o', Inv pl s o -> tame s (Recreate id entry) ->
  step s (Recreate id entry) = (s1, o') -> Inv pl s1 (o ++ o').
Proof.
  intros pl s o id entry s1 o' I [Nz H] E. unfold step in E. rewrite (I_dead _ _ _ I) in E.
  destruct (remove_dedicates id s) as [s2 o2] eqn:R. destruct (Inv_remove _ _ _ _ _ _ I H R) as [J K]. specialize (K Nz).
  inversion E; subst; clear E. rewrite app_assoc. set (oo := o ++ o2) in *.
  set (s1 := mkSt _ _ _ _ _ _ _ _ _). set (p := see_p (new_proj id (s_ninst s) entry) reason_entry).
  assert (Pr : projects s1 = projects s2 ++ [p]) by reflexivity.
  assert (LG : forall i, last_good i (oo ++ [OChange id 1]) None = last_good i oo None) by (intro; rewrite last_good_app; reflexivity).
  assert (Oth : forall q, In q (projects s2) -> good pl q s2 oo -> good pl q s1 (oo ++ [OChange id 1])).
  { intros q Hq G. apply good_other with (s := s2) (i := id); auto; [|repeat split|repeat constructor].
    intro X. apply K. unfold known. rewrite X. now apply in_map. }
  constructor.
  - exact (I_dead _ _ _ J).
  - exact (I_prim _ _ _ J).
  - rewrite Pr, map_app. apply NoDup_snoc; [exact (I_nd _ _ _ J)|exact K].
  - rewrite Pr. apply Forall_app. split.
    + rewrite Forall_forall. intros q Hq. apply Oth; [exact Hq|]. pose proof (I_g _ _ _ J) as G. rewrite Forall_forall in G. auto.
    + constructor; [|constructor]. eapply good_new with (s := s2); eauto.
  - exact (I_gens _ _ _ J).
  - intros i Nk. assert (Nk2 : ~ known s2 i /\ i <> id).
    { split; intro X; apply Nk; unfold known; rewrite Pr, map_app; apply in_or_app; [left; exact X|right; subst; now left]. }
    destruct Nk2 as [Nk2 Ne]. destruct (I_unk _ _ _ J i Nk2) as (a1 & a2 & a3 & a4 & a5). split; [exact a1|]. split; [exact a2|]. split; [exact a3|].
    split; [|rewrite LG; exact a5]. intros a b rev E. destruct (app_split _ _ _ _ _ _ E) as [[b0 [X ->]]|[a0 [_ X]]].
    + apply in_or_app. left. exact (a4 _ _ _ X).
    + exfalso. destruct a0 as [|y a0]; cbn in X; inversion X; [congruence|]. destruct a0; discriminate.
  - exact (I_fut _ _ _ J).
  - intro P. apply docs_app; [exact (I_doc _ _ _ J P)|]. intros a [X|[]]; discriminate.
Qed.

Lemma last_good_removes : forall id l d, In id (map p_id l) -> last_good id (map (fun p => ORemove (p_id p)) l) d = None.
Proof.
  assert (Z : forall id l, last_good id (map (fun p => ORemove (p_id p)) l) None = None).
  { induction l as [|p l IH]; [reflexivity|]. cbn. destruct (p_id p =? id); exact IH. }
  induction l as [|p l IH]; intros d H; [destruct H|]. cbn. destruct (Nat.eqb_spec (p_id p) id) as [E|E]; [apply Z|].
  apply IH. destruct H; [contradiction|auto].
Qed.
Lemma last_good_removes_none : forall id l, last_good id (map (fun p => ORemove (p_id p)) l) None = None.
Proof. induction l as [|p l IH]; [reflexivity|]. cbn. destruct (p_id p =? id); exact IH. Qed.

Lemma Inv_reload : forall pl s o entry s1 o', Inv pl s o -> tame s (Reload entry) ->
  step s (Reload entry) = (s1, o') -> Inv pl s1 (o ++ o').
Proof.
  intros pl s o entry s1 o' I [T Q] E. unfold step in E. rewrite (I_dead _ _ _ I) in E. inversion E; subst; clear E.
  set (s1 := mkSt _ _ _ _ _ _ _ _ _). change (ORemove (p_id (s_primary s)) :: map (fun p => ORemove (p_id p)) (s_dedicates s))
    with (map (fun p => ORemove (p_id p)) (projects s)). set (o' := map _ (projects s)).
  assert (NC : forall i r, ~ In (OChange i r) o') by (intros i r X; apply in_map_iff in X; destruct X as (? & X & _); discriminate).
  assert (Rm : forall i, known s i -> In (ORemove i) o').
  { intros i X. unfold known in X. apply in_map_iff in X. destruct X as (p & <- & X). apply in_map_iff. exists p. auto. }
  assert (LG : forall i, last_good i (o ++ o') None = None).
  { intro i. rewrite last_good_app. destruct (in_dec Nat.eq_dec i (map p_id (projects s))) as [X|X].
    - now apply last_good_removes.
    - destruct (I_unk _ _ _ I i X) as (_ & _ & _ & _ & L). rewrite L. apply last_good_removes_none. }
  assert (Cl : forall i a b rev, o ++ o' = a ++ OChange i rev :: b -> In (ORemove i) b).
  { intros i a b rev E. destruct (app_split _ _ _ _ _ _ E) as [[b0 [X ->]]|[a0 [_ X]]].
    - apply in_or_app. destruct (in_dec Nat.eq_dec i (map p_id (projects s))) as [K|K]; [right; auto|left].
      destruct (I_unk _ _ _ I i K) as (_ & _ & _ & L & _). exact (L _ _ _ X).
    - exfalso. apply (NC i rev). rewrite X. apply in_or_app. right. now left. }
  assert (N0 : forall i, N s1 i = 0) by (intro i; unfold N; cbn; apply (I_fut _ _ _ I); lia).
  constructor.
  - reflexivity.
  - reflexivity.
  - repeat constructor. intros [].
  - constructor; [|constructor]. change (s_primary s1) with (new_proj 0 (s_ninst s) entry).
    constructor; cbn [new_proj p_id p_rev p_reason p_snap p_committed p_good x_notified x_compiling x_last]; rewrite ?N0; auto; try discriminate.
    + intros _. unfold s1. cbn [s_tasks s_queue]. rewrite T, Q. split; [reflexivity|]. split; [reflexivity|]. split; [lia|]. intro. symmetry. apply LG.
    + intros _ a b rev E. left. eapply Cl; eauto.
    + intros a b rev E Hn. exfalso. apply Hn. eapply Cl; eauto.
  - unfold gens, s1. cbn. rewrite T. constructor.
  - intros i _. rewrite N0. unfold s1. cbn [s_tasks s_queue]. rewrite T, Q. repeat split; auto. intros a b rev E. eapply Cl; eauto.
  - intros g i Hg. unfold s1 in *. cbn in *. apply (I_fut _ _ _ I). lia.
  - intro P. apply docs_app; [exact (I_doc _ _ _ I P)|]. intros a X. apply in_map_iff in X. destruct X as (? & X & _). discriminate.
Qed.

Lemma upd2_eq : forall f g id v, upd2 f g id v g id = v.
Proof. intros. unfold upd2. now rewrite !upd_eq. Qed.
Lemma upd2_neq : forall f g id v i, i <> id -> upd2 f g id v g i = f g i.
Proof. intros. unfold upd2. rewrite upd_eq. now rewrite upd_neq. Qed.
Lemma upd2_gen : forall f g id v g' i, g' <> g -> upd2 f g id v g' i = f g' i.
Proof. intros. unfold upd2. now rewrite upd_neq. Qed.

Lemma in_tasks_of : forall id g sn l, In (g, sn) l -> sn_id sn = id -> In (g, sn) (tasks_of id l).
Proof. intros. apply filter_In. split; [assumption|]. cbn. now apply Nat.eqb_eq. Qed.
Lemma in_queue_of : forall id a l, In a l -> sn_id (a_snap a) = id -> In a (queue_of id l).
Proof. intros. apply filter_In. split; [assumption|]. now apply Nat.eqb_eq. Qed.
Lemma in_flight_known : forall pl s o id, Inv pl s o -> in_flight s id -> known s id.
Proof.
  intros pl s o id I H. destruct (in_dec Nat.eq_dec id (map p_id (projects s))) as [K|K]; [exact K|].
  exfalso. destruct (I_unk _ _ _ I id K) as (A & B & _). apply (not_in_flight s id); auto.
Qed.
Lemma known_project : forall pl s o id, Inv pl s o -> known s id -> exists p, In p (projects s) /\ p_id p = id /\ good pl p s o.
Proof.
  intros pl s o id I K. apply in_map_iff in K. destruct K as (p & E & Hp). exists p. split; [exact Hp|]. split; [exact E|].
  pose proof (I_g _ _ _ I) as G. rewrite Forall_forall in G. exact (G p Hp).
Qed.
Lemma in_flight_compiling : forall pl s o p, good pl p s o -> in_flight s (p_id p) -> x_compiling p = true.
Proof.
  intros pl s o p G H. destruct (x_compiling p) eqn:X; [reflexivity|]. destruct (g_i _ _ _ _ G X) as (A & B & _).
  exfalso. apply (not_in_flight s (p_id p)); auto.
Qed.

Lemma finish_out : forall g a s s1 o1 k, status g (sn_id (a_snap a)) (sn_rev (a_snap a)) k s = (s1, o1) ->
  s_notified s1 = s_notified s.
Proof. intros. apply status_spec in H. tauto. Qed.

Lemma Inv_finish : forall pl s o n ok s1 o', Inv pl s o -> step s (Finish n ok) = (s1, o') -> Inv pl s1 (o ++ o').
Proof.
  intros pl s o n ok s1 o' I E. unfold step in E. rewrite (I_dead _ _ _ I) in E.
  destruct (nth_error (s_tasks s) n) as [[g sn]|] eqn:Nt; [|inversion E; subst; now rewrite app_nil_r].
  destruct (nth_split' _ _ _ _ Nt) as (ta & tb & Ts & Dr). rewrite Dr in E. set (id := sn_id sn) in *.
  set (a := mkArt sn _) in E.
  destruct (status g id (sn_rev sn) _ _) as [sa oa] eqn:St.
  destruct (status_spec _ _ _ _ _ _ _ St) as (R & T & Q & Nn & Ab & NoCh & Lg). cbn [set_tasks s_tasks s_queue s_notified] in T, Q, Nn.
  assert (Hin : In (g, sn) (s_tasks s)) by (rewrite Ts; apply in_or_app; right; now left).
  assert (Hg : g = s_gen s) by (pose proof (I_gens _ _ _ I) as G; unfold gens in G; rewrite Forall_forall in G; exact (G _ Hin)). subst g.
  assert (Fl : in_flight s id) by (left; eauto).
  assert (Kn : known s id) by (eapply in_flight_known; eauto).
  destruct (known_project _ _ _ _ I Kn) as (p & Hp & Pi & Gp).
  assert (Xc : x_compiling p = true) by (eapply in_flight_compiling; eauto; now rewrite Pi).
  assert (Case : tasks_of id (s_tasks s) = [(s_gen s, sn)] /\ queue_of id (s_queue s) = [] /\ N s id < sn_rev sn /\ sn_rev sn <= p_rev p /\
     (any (p_reason p) = true -> sn_rev sn < p_rev p) /\ (pl = true -> sn_good sn = p_good p /\ p_good p = last_good id o None)).
  { pose proof (in_tasks_of id _ _ _ Hin eq_refl) as Hi.
    destruct (g_p _ _ _ _ Gp Xc) as [(g & sn' & T1 & Q1 & C1)|(a' & T1 & _)]; rewrite Pi in *; rewrite T1 in Hi.
    - destruct Hi as [Hi|[]]. inversion Hi; subst. auto.
    - destruct Hi. }
  destruct Case as (T1 & Q1 & C1 & C2 & C3 & C4).
  assert (T2 : tasks_of id (ta ++ tb) = []).
  { rewrite Ts in T1. unfold tasks_of in *. rewrite filter_app in *. cbn [filter snd] in T1. unfold id in T1 at 2.
    rewrite Nat.eqb_refl in T1. destruct (filter (fun t => sn_id (snd t) =? id) ta) as [|x l]; [|destruct l; discriminate T1].
    cbn [app] in *. injection T1 as T1. exact T1. }
  assert (T3 : forall i, i <> id -> tasks_of i (ta ++ tb) = tasks_of i (s_tasks s)).
  { intros i Ne. rewrite Ts. unfold tasks_of. rewrite !filter_app. cbn [filter snd]. fold id.
    apply not_eq_sym in Ne. apply Nat.eqb_neq in Ne. now rewrite Ne. }
  unfold notify_compile in E. cbn [a_snap a] in E. fold id in E. rewrite Nn in E. unfold N in C1.
  destruct (Nat.leb_spec (sn_rev sn) (s_notified s (s_gen s) id)) as [X|_]; [lia|].
  inversion E; subst s1 o'; clear E. rewrite app_assoc.
  pose proof R as (r1 & r2 & r3 & r4 & r5). cbn [set_tasks s_gen s_ninst s_primary s_dedicates s_dead] in r1, r2, r3, r4, r5.
  set (s1 := set_queue _ _).
  assert (Pj : projects s1 = projects s) by (unfold projects; cbn; congruence).
  assert (Tk : s_tasks s1 = ta ++ tb) by (cbn; congruence).
  assert (Qu : s_queue s1 = s_queue s ++ [a]) by (cbn; congruence).
  assert (Ge : s_gen s1 = s_gen s) by exact r1.
  assert (NE : forall i, N s1 i = if i =? id then sn_rev sn else N s i).
  { intro i. unfold N. rewrite Ge. cbn. destruct (Nat.eqb_spec i id) as [->|Ne]; [apply upd2_eq|]. now rewrite upd2_neq. }
  assert (Qo : forall i, queue_of i (s_queue s1) = queue_of i (s_queue s) ++ if i =? id then [a] else []).
  { intro i. rewrite Qu. unfold queue_of. rewrite filter_app. cbn [filter a_snap a]. fold id. now rewrite (Nat.eqb_sym id i). }
  assert (LGo : forall i, i <> id -> last_good i ((o ++ oa) ++ [ONotify a]) None = last_good i o None).
  { intros i Ne. rewrite !last_good_app. cbn. fold id. apply not_eq_sym in Ne. pose proof Ne as Ne'. apply Nat.eqb_neq in Ne'. rewrite Ne'.
    apply last_good_about with id; auto. }
  assert (LGi : last_good id ((o ++ oa) ++ [ONotify a]) None = match a_doc a with Some _ => a_doc a | None => last_good id o None end).
  { rewrite !last_good_app. cbn [last_good]. cbn [a_snap a]. fold id. rewrite Nat.eqb_refl, Lg. reflexivity. }
  assert (NC : forall i r, ~ In (OChange i r) (oa ++ [ONotify a])).
  { intros i r X. apply in_app_or in X. destruct X as [X|[X|[]]]; [|discriminate].
    destruct (Nat.eq_dec i id) as [->|Ne]; [exact (NoCh _ X)|]. exact (about_change id i oa r Ab (not_eq_sym Ne) X). }
  constructor.
  - cbn. rewrite r5. exact (I_dead _ _ _ I).
  - cbn. rewrite r3. exact (I_prim _ _ _ I).
  - rewrite Pj. exact (I_nd _ _ _ I).
  - rewrite Pj. rewrite Forall_forall. intros q Hq. pose proof (I_g _ _ _ I) as G. rewrite Forall_forall in G. specialize (G q Hq).
    rewrite <- app_assoc.
    destruct (Nat.eq_dec (p_id q) id) as [Eq|Ne].
    + assert (Hx : x_compiling q = true) by (eapply in_flight_compiling; eauto; now rewrite Eq).
      assert (Hq' : q = p).
      { pose proof (I_nd _ _ _ I) as Nd. clear - Nd Hq Hp Eq Pi.
        induction (projects s) as [|z l IH]; [destruct Hq|]. cbn in Nd. inversion Nd; subst.
        destruct Hq as [->|Hq], Hp as [->|Hp]; auto.
        - exfalso. apply H1. rewrite Eq, <- Pi. now apply in_map.
        - exfalso. apply H1. rewrite Pi, <- Eq. now apply in_map. }
      subst q. destruct G. constructor; rewrite ?Pi, ?NE, ?Nat.eqb_refl, ?Tk, ?Qo; rewrite ?Pi in *; auto.
      * unfold N in *. lia.
      * unfold N in *. lia.
      * intros b Hb. destruct (g_l0 b Hb). split; auto. unfold N in *. lia.
      * congruence.
      * intros _. right. exists a. rewrite Q1, T2, Nat.eqb_refl. split; [reflexivity|]. split; [reflexivity|]. split; [reflexivity|].
        split; [unfold N in *; lia|]. split; [unfold N in *; lia|]. split; [exact C3|].
        intro P. rewrite app_assoc, LGi. destruct (C4 P) as [_ ->]. reflexivity.
      * intro Y. apply settled_app; auto.
      * apply bounded_app; auto.
    + assert (Neb : p_id q =? id = false) by now apply Nat.eqb_neq.
      destruct G. constructor; rewrite ?NE, ?Neb, ?Tk, ?Qo, ?Neb, ?app_nil_r, ?T3 by auto; auto.
      * intro Y. destruct (g_i0 Y) as (A & B & C & D). repeat split; auto. intro P. rewrite app_assoc, LGo; auto.
      * intro Y. rewrite app_assoc, LGo; auto.
      * intro Y. apply settled_app; auto.
      * apply bounded_app; auto.
  - unfold gens. rewrite Tk, Ge. pose proof (I_gens _ _ _ I) as G. unfold gens in G. rewrite Ts in G. apply Forall_app in G. destruct G as [G1 G2].
    apply Forall_app. split; [exact G1|now inversion G2].
  - intros i Nk. assert (Ne : i <> id) by (intro X; subst; apply Nk; unfold known; now rewrite Pj).
    assert (Neb : i =? id = false) by now apply Nat.eqb_neq.
    destruct (I_unk _ _ _ I i) as (a1 & a2 & a3 & a4 & a5); [unfold known in *; now rewrite <- Pj|].
    rewrite Tk, Qo, NE, Neb, app_nil_r, T3 by auto. split; [exact a1|]. split; [exact a2|]. split; [exact a3|]. split; [|rewrite LGo; auto].
    intros x y rev Ex. rewrite <- app_assoc in Ex. destruct (app_split _ _ _ _ _ _ Ex) as [[b0 [X ->]]|[a0 [_ X]]].
    + apply in_or_app. left. exact (a4 _ _ _ X).
    + exfalso. apply (NC i rev). rewrite X. apply in_or_app. right. now left.
  - intros g i Hlt. rewrite Ge in Hlt. cbn. rewrite upd2_gen by lia. exact (I_fut _ _ _ I g i Hlt).
  - intros P o1 b o2 Eo Hb. destruct (app_split _ _ _ _ _ _ Eo) as [[b0 [X ->]]|[a0 [-> X]]].
    + apply (docs_app o oa) with (o2 := b0); auto; [exact (I_doc _ _ _ I P)|]. intros z Hz. rewrite Forall_forall in Ab. exact (Ab _ Hz).
    + destruct a0 as [|y a0]; cbn in X; inversion X; [|destruct a0; discriminate]. subst b. rewrite app_nil_r.
      unfold success_doc. rewrite Hb. cbn [a a_snap]. fold id. rewrite last_good_app, Lg. destruct (C4 P) as [-> ->]. reflexivity.
Qed.

Lemma Inv_query : forall s o s1 o', Inv false s o -> step s Query = (s1, o') -> Inv false s1 (o ++ o').
Proof.
  intros s o s1 o' I E. unfold step in E. rewrite (I_dead _ _ _ I) in E. inversion E; subst; clear E. rewrite app_nil_r.
  destruct (snapshot (s_primary s)) as [p1 sn] eqn:Sn. cbn [fst].
  assert (P : p1 = s_primary s \/ p1 = set_snap (s_primary s) (make_snap (s_primary s))).
  { unfold snapshot in Sn. destruct (p_snap (s_primary s)) as [z|]; [destruct (_ =? _)|]; inversion Sn; auto. }
  destruct I. constructor; auto.
  - destruct P as [->| ->]; exact I_prim0.
  - destruct P as [->| ->]; exact I_nd0.
  - unfold projects in *. inversion I_g0 as [|? ? G1 G2]; subst. cbn.
    assert (C : same_core s (set_primary s p1)) by repeat split.
    constructor; [|eapply Forall_impl; [|exact G2]; intros z Gz; exact (good_core _ _ _ _ _ Gz C)].
    apply good_core with (s := s); [|exact C].
    destruct P as [->| ->]; [exact G1|]. destruct G1. constructor; auto.
    intros z X. cbn in X. inversion X; subst. cbn. repeat split; auto. discriminate.
  - intros id Nk. apply I_unk0. intro X. apply Nk. destruct P as [->| ->]; exact X.
Qed.

Lemma deliver_good : forall pl p s o a q, good pl p s o -> s_queue s = a :: q -> sn_id (a_snap a) = p_id p ->
  exists p1 p2, let s0 := set_queue s q in
    ext_compiled a p s0 = (p1, s0, []) /\ p_id p1 = p_id p /\ process_compile a p1 s0 = (p2, s0, [OCommit (p_id p) (sn_rev (a_snap a))]) /\
    p_id p2 = p_id p /\ good pl p2 s0 (o ++ [OCommit (p_id p) (sn_rev (a_snap a))]).
Proof.
  intros pl p s o a q G Q Ia.
  assert (Fl : in_flight s (p_id p)) by (right; exists a; rewrite Q; split; [now left|exact Ia]).
  assert (Xc : x_compiling p = true) by (eapply in_flight_compiling; eauto).
  assert (Qo : queue_of (p_id p) (s_queue s) = a :: queue_of (p_id p) q).
  { rewrite Q. unfold queue_of. cbn. rewrite Ia, Nat.eqb_refl. reflexivity. }
  destruct (g_p _ _ _ _ G Xc) as [(g & sn & _ & B & _)|(a' & A & B & C & D & F & K & M)]; [congruence|].
  rewrite Qo in B. inversion B. subst a'.
  destruct (emit_pending_noop (set_last p a) (set_queue s q)) as (pe & em & Em).
  { cbn. intros b X. inversion X; subst. split; [exact Ia|]. unfold N in *. cbn. lia. }
  exists (set_reasons (set_last p a) (p_reason (set_last p a)) pe em), (set_committed (set_reasons (set_last p a) (p_reason (set_last p a)) pe em) (sn_rev (a_snap a)) (a_doc a)).
  cbn zeta. split; [|split; [reflexivity|split; [|split; [reflexivity|]]]].
  - unfold ext_compiled. destruct (Nat.leb_spec (sn_rev (a_snap a)) (x_notified p)) as [X|X]; [lia|]. exact Em.
  - unfold process_compile. cbn [p_committed set_reasons set_last p_id]. destruct (Nat.leb_spec (sn_rev (a_snap a)) (p_committed p)) as [X|X]; [lia|]. reflexivity.
  - assert (NE : N (set_queue s q) (p_id p) = N s (p_id p)) by reflexivity.
    destruct G. constructor; cbn [set_committed set_reasons set_last p_id p_rev p_reason p_snap p_committed p_good x_notified x_compiling x_last]; rewrite ?NE; auto.
    + lia.
    + lia.
    + intros b X. inversion X; subst. split; auto. lia.
    + intros _. cbn [set_queue s_tasks s_queue]. split; [exact A|]. split; [assumption|]. split; [exact K|].
      intro P. rewrite last_good_app. cbn. symmetry. exact (M P).
    + discriminate.
    + intro R. apply settled_app; auto. intros r [X|[]]; discriminate.
    + apply bounded_app; auto. intros r [X|[]]; discriminate.
Qed.

Lemma Inv_deliver_inner : forall pl s o a q s1 o1 r, Inv pl s o -> s_queue s = a :: q -> tell_ext a (set_queue s q) = (s1, o1) ->
  on_project (sn_id (a_snap a)) (process_compile a) s1 = r ->
  exists s2 o2, r = Some (s2, o2) /\ Inv pl s2 (o ++ o1 ++ o2) /\ map p_id (projects s2) = map p_id (projects s).
Proof.
  intros pl s o a q s1 o1 r I Q Et Ep. set (id := sn_id (a_snap a)) in *. set (s0 := set_queue s q) in *.
  assert (Fl : in_flight s id) by (right; exists a; rewrite Q; split; [now left|reflexivity]).
  assert (Kn : known s id) by (eapply in_flight_known; eauto).
  unfold tell_ext in Et. fold id in Et. destruct (on_project id (ext_compiled a) s0) as [[sx ox]|] eqn:E1.
  2: { exfalso. apply on_project_none in E1. apply E1. exact Kn. }
  inversion Et; subst sx ox; clear Et.
  destruct (on_project_some _ _ _ _ _ E1) as (l1 & p & l2 & p1 & sb & P1 & P2 & P3 & P4 & P5 & C1); [intros; eapply ext_rest; eauto|].
  assert (Gp : good pl p s o).
  { pose proof (I_g _ _ _ I) as G. change (projects s0) with (projects s) in P1. rewrite P1 in G. apply Forall_app in G. destruct G as [_ G]. now inversion G. }
  destruct (deliver_good pl p s o a q Gp Q (eq_sym P2)) as (p1' & p2 & X1 & X2 & X3 & X4 & X5). fold s0 in X1, X3, X5.
  rewrite X1 in P4. inversion P4; subst p1' sb o1; clear P4.
  (* the extension step leaves the rest of the state alone *)
  assert (E2 : exists s2 o2, on_project id (process_compile a) s1 = Some (s2, o2)).
  { destruct (on_project id (process_compile a) s1) as [[s2 o2]|] eqn:E2; [eauto|]. exfalso. apply on_project_none in E2. apply E2.
    unfold known. rewrite P5, map_app. apply in_or_app. right. left. now rewrite X2. }
  destruct E2 as (s2 & o2 & E2). rewrite E2 in Ep. subst r. exists s2, o2. split; [reflexivity|].
  destruct (on_project_some _ _ _ _ _ E2) as (m1 & p' & m2 & p2' & sc & R1 & R2 & R3 & R4 & R5 & C2); [intros; eapply pc_rest; eauto|].
  rewrite P5 in R1. assert (P2' : p_id p1 = id) by congruence.
  destruct (unique_split _ _ _ _ _ _ _ R1 P2' R2 P3 R3) as (Y1 & Y2 & Y3). subst m1 p' m2.
  assert (Pc : process_compile a p1 s1 = (p2, s1, [OCommit (p_id p) (sn_rev (a_snap a))])).
  { unfold process_compile in *. destruct (_ <=? _); inversion X3; subst; reflexivity. }
  rewrite Pc in R4. inversion R4; subst p2' sc o2; clear R4.
  assert (M : map p_id (projects s2) = map p_id (projects s)).
  { rewrite R5. change (projects s0) with (projects s) in P1. rewrite P1, !map_app. cbn. now rewrite X4. }
  split; [|exact M]. cbn [app].
  assert (Core : same_core s0 s2).
  { destruct C1 as (c1 & c2 & c3 & c4 & c5 & c6 & c7), C2 as (d1 & d2 & d3 & d4 & d5 & d6 & d7). repeat split; congruence. }
  pose proof Core as (c1 & c2 & c3 & c4 & c5 & c6 & c7).
  assert (L0 : forall i, i <> id -> same_loc s s0 i).
  { intros i Ne. unfold same_loc. split; [reflexivity|]. split; [|reflexivity]. unfold s0. cbn [set_queue s_queue]. rewrite Q. unfold queue_of. cbn.
    fold id. apply not_eq_sym in Ne. apply Nat.eqb_neq in Ne. now rewrite Ne. }
  change (projects s0) with (projects s) in P1.
  apply Inv_extend with (s := s); [exact I|exact c1|exact c7|exact M| | | | |].
  - apply (gens_core s0); [exact (I_gens _ _ _ I)|exact Core].
  - rewrite R5. rewrite Forall_forall. intros z Hz.
    assert (Oth : In z (l1 ++ l2) -> good pl z s2 (o ++ [OCommit (p_id p) (sn_rev (a_snap a))])).
    { intro Hz'. assert (Gz : good pl z s o).
      { pose proof (I_g _ _ _ I) as G. rewrite P1, Forall_forall in G. apply G. apply in_app_or in Hz'. apply in_or_app. cbn. tauto. }
      assert (Ne : p_id p <> p_id z).
      { pose proof (I_nd _ _ _ I) as Nd. rewrite P1, map_app in Nd. cbn in Nd. apply NoDup_remove_2 in Nd.
        intro X. apply Nd. rewrite X, <- map_app. now apply in_map. }
      eapply good_core; [|exact Core]. apply good_other with (s := s) (i := p_id p); auto; [|repeat constructor].
      apply L0. rewrite <- P2. auto. }
    apply in_app_or in Hz. destruct Hz as [Hz|[<-|Hz]]; [apply Oth; apply in_or_app; auto| |apply Oth; apply in_or_app; auto].
    exact (good_core _ _ _ _ _ X5 Core).
  - intros i Nk. eapply same_loc_core; [|exact Core]. apply L0. intro X. subst i. contradiction.
  - intros g i Hg. now rewrite c4.
  - constructor; [|constructor]. exists (p_id p). split; [|reflexivity]. rewrite P2. exact Kn.
Qed.

Lemma Inv_process_inner : forall pl s o i clean r, Inv pl s o -> tame s (Interrupt i clean) -> (pl = true -> plain s (Interrupt i clean)) ->
  process_inner i s = r -> exists s1 o1, r = Some (s1, o1) /\ Inv pl s1 (o ++ o1).
Proof.
  intros pl s o i clean r I T P E.
  assert (All : forall f s1 o1, f_ok always f -> for_all_projects f s = (s1, o1) -> Inv pl s1 (o ++ o1)).
  { intros f s1 o1 F Ef. eapply Inv_for_all; eauto. apply Forall_forall. intros; exact Logic.I. }
  assert (CH : forall (ch : nat -> bool) rs, any rs = true -> f_ok always (fun p => change (ch (p_id p)) rs p)).
  { intros ch rs Hr pl0 p s0 o0 p1 s1 o1 G Gs Pr Ef. exact (change_ok (ch (p_id p)) rs Hr pl0 p s0 o0 p1 s1 o1 G Gs Pr Ef). }
  destruct i as [id|id|id inputs entry|ch|ch|ch|]; cbn [process_inner tame plain] in *.
  - destruct (on_project id (change true reason_entry) s) as [[s1 o1]|] eqn:Eo.
    + exists s1, o1. split; [congruence|].
      eapply (proj1 (Inv_on_project always _ pl s o s1 o1 id (change_ok true reason_entry eq_refl) I (fun _ _ _ => Logic.I) _ Eo)).
    + exfalso. apply on_project_none in Eo. contradiction.
  - destruct (remove_dedicates id s) as [s1 o1] eqn:Er. exists s1, o1. split; [congruence|]. exact (proj1 (Inv_remove _ _ _ _ _ _ I T Er)).
  - destruct T as [K Hm]. destruct (on_project id (change_task inputs entry) s) as [[s1 o1]|] eqn:Eo.
    + exists s1, o1. split; [congruence|].
      refine (proj1 (Inv_on_project _ _ pl s o s1 o1 id (change_task_ok inputs entry Hm) I _ _ Eo)).
      * intros p Hp Hi Hpl He. specialize (P Hpl). destruct entry as [e|]; [|congruence].
        apply not_in_flight_idle with (pl := pl) (s := s) (o := o).
        -- pose proof (I_g _ _ _ I) as G. rewrite Forall_forall in G. exact (G p Hp).
        -- now rewrite Hi.
      * intros. eapply change_task_rest; eauto.
    + exfalso. apply on_project_none in Eo. contradiction.
  - destruct (for_all_projects _ s) as [s1 o1] eqn:Ef. exists s1, o1. split; [congruence|]. refine (All _ _ _ _ Ef). exact (CH ch reason_entry eq_refl).
  - destruct (for_all_projects _ s) as [s1 o1] eqn:Ef. exists s1, o1. split; [congruence|]. refine (All _ _ _ _ Ef). exact (CH ch reason_mem eq_refl).
  - destruct (for_all_projects _ s) as [s1 o1] eqn:Ef. exists s1, o1. split; [congruence|]. refine (All _ _ _ _ Ef). exact (CH ch reason_fs eq_refl).
  - exists s, []. split; [congruence|]. now rewrite app_nil_r.
  Unshelve. intros. eapply change_rest; eauto.
Qed.

Lemma Inv_step : forall pl s o e s1 o', Inv pl s o -> tame s e -> (pl = true -> plain s e) -> step s e = (s1, o') ->
  Inv pl s1 (o ++ o') /\ (schedules s e -> all_rested s1).
Proof.
  intros pl s o e s1 o' I T P E. destruct e as [i clean|clean|n ok| |id entry|entry].
  - unfold step in E. rewrite (I_dead _ _ _ I) in E.
    destruct (Inv_process_inner _ _ _ _ _ _ I T P eq_refl) as (s2 & o2 & Er & J). rewrite Er in E. cbn [then_schedule] in E.
    destruct (on_any_reason clean s2) as [s3 o3] eqn:Eo. inversion E; subst; clear E.
    destruct (Inv_schedule _ _ _ _ _ _ J Eo) as (J2 & Ra & _). rewrite app_assoc. auto.
  - unfold step in E. rewrite (I_dead _ _ _ I) in E. destruct (s_queue s) as [|a q] eqn:Q.
    + inversion E; subst. rewrite app_nil_r. split; [exact I|]. cbn. congruence.
    + destruct (tell_ext a (set_queue s q)) as [s2 o2] eqn:Et.
      destruct (Inv_deliver_inner _ _ _ _ _ _ _ _ I Q Et eq_refl) as (s3 & o3 & Er & J & _). rewrite Er in E. cbn [then_schedule] in E.
      destruct (on_any_reason clean s3) as [s4 o4] eqn:Eo. inversion E; subst; clear E.
      destruct (Inv_schedule _ _ _ _ _ _ J Eo) as (J2 & Ra & _). rewrite <- !app_assoc in J2. auto.
  - split; [eapply Inv_finish; eauto|intros []].
  - split; [|intros []]. destruct pl; [destruct (P eq_refl)|]. eapply Inv_query; eauto.
  - split; [eapply Inv_restart; eauto|intros []].
  - split; [eapply Inv_reload; eauto|intros []].
Qed.

Lemma Inv_init : forall pl entry, Inv pl (init entry) [].
Proof.
  intros pl entry. constructor; try reflexivity.
  - repeat constructor. intros [].
  - constructor; [|constructor]. constructor; cbn; auto; try discriminate.
    + intros _ a b rev E. destruct a; discriminate.
    + intros a b rev E. destruct a; discriminate.
  - constructor.
  - intros id _. repeat split. intros a b rev E. destruct a; discriminate.
  - intros _ o1 a o2 E. destruct o1; discriminate.
Qed.
Lemma Inv_run : forall pl es s o s1 o', Inv pl s o -> tame_run s es -> (pl = true -> plain_run s es) -> run s es = (s1, o') ->
  Inv pl s1 (o ++ o').
Proof.
  induction es as [|e es IH]; intros s o s1 o' I T P E; cbn in E.
  - inversion E; subst. now rewrite app_nil_r.
  - destruct (step s e) as [s2 o2] eqn:Es. destruct (run s2 es) as [s3 o3] eqn:Er. inversion E; subst; clear E.
    cbn in T, P. rewrite Es in T, P. cbn in T, P. destruct T as [T1 T2].
    destruct (Inv_step pl s o e s2 o2 I T1 (fun H => proj1 (P H)) Es) as [J _]. rewrite app_assoc. eapply IH; eauto. intro H. apply P. exact H.
Qed.

Lemma tame_run_app : forall a b s, tame_run s (a ++ b) -> tame_run s a /\ tame_run (fst (run s a)) b.
Proof.
  induction a as [|e a IH]; intros b s H; cbn in *; [auto|]. destruct H as [H1 H2]. destruct (IH _ _ H2) as [A B].
  destruct (step s e) as [s1 o1]. cbn in *. destruct (run s1 a) as [s2 o2]. cbn in *. auto.
Qed.
Lemma run_app : forall a b s, run s (a ++ b) = let (s1, o1) := run s a in let (s2, o2) := run s1 b in (s2, o1 ++ o2).
Proof.
  induction a as [|e a IH]; intros b s; cbn.
  - destruct (run s b). reflexivity.
  - destruct (step s e) as [s1 o1]. rewrite IH. destruct (run s1 a) as [s2 o2]. destruct (run s2 b) as [s3 o3]. now rewrite app_assoc.
Qed.

(** ** Results *)

Lemma no_change_lost : forall entry es e s o,
  tame_run (init entry) (es ++ [e]) -> schedules (fst (run (init entry) es)) e ->
  run (init entry) (es ++ [e]) = (s, o) -> quiescent s ->
  forall p, In p (projects s) -> p_entry p <> 0 -> any (p_reason p) = false /\ settled (p_id p) o.
Proof.
  intros entry es e s o T Sc E [Q1 Q2] p Hp He.
  rewrite run_app in E. destruct (run (init entry) es) as [s1 o1] eqn:E1. cbn [fst] in Sc.
  destruct (tame_run_app _ _ _ T) as [T1 T2]. rewrite E1 in T2. cbn in T2. destruct T2 as [T2 _].
  cbn [run] in E. destruct (step s1 e) as [s2 o2] eqn:Es. rewrite app_nil_r in E. inversion E; subst; clear E.
  assert (I : Inv false s1 o1).
  { change o1 with ([] ++ o1). eapply Inv_run; [apply Inv_init| | |exact E1]; [exact T1|discriminate]. }
  destruct (Inv_step false s1 o1 e s o2 I T2 ltac:(discriminate) Es) as [J R].
  assert (F : ~ in_flight s (p_id p)).
  { apply not_in_flight. rewrite Q1, Q2. auto. }
  pose proof (I_g _ _ _ J) as G. rewrite Forall_forall in G. specialize (G p Hp).
  pose proof (R Sc) as R'. unfold all_rested in R'. rewrite Forall_forall in R'.
  assert (A : any (p_reason p) = false).
  { destruct (R' p Hp) as [X|[X|X]]; [|exact X|contradiction]. rewrite (not_in_flight_idle _ _ _ _ G F) in X. discriminate. }
  split; [exact A|]. exact (g_t _ _ _ _ G A).
Qed.

Lemma compiling_in_flight : forall entry es s o, tame_run (init entry) es -> run (init entry) es = (s, o) ->
  s_dead s = false /\ forall p, In p (projects s) -> (x_compiling p = true <-> in_flight s (p_id p)).
Proof.
  intros entry es s o T E.
  assert (I : Inv false s o).
  { change o with ([] ++ o). eapply Inv_run; [apply Inv_init|exact T|discriminate|exact E]. }
  split; [exact (I_dead _ _ _ I)|]. intros p Hp. pose proof (I_g _ _ _ I) as G. rewrite Forall_forall in G. specialize (G p Hp).
  split; intro H; [|eapply in_flight_compiling; eauto].
  destruct (g_p _ _ _ _ G H) as [(g & sn & A & _)|(a & _ & A & _)].
  - left. exists g, sn. assert (Hi : In (g, sn) (tasks_of (p_id p) (s_tasks s))) by (rewrite A; now left).
    apply filter_In in Hi. destruct Hi as [Hi1 Hi2]. apply Nat.eqb_eq in Hi2. auto.
  - right. exists a. assert (Hi : In a (queue_of (p_id p) (s_queue s))) by (rewrite A; now left).
    apply filter_In in Hi. destruct Hi as [Hi1 Hi2]. apply Nat.eqb_eq in Hi2. auto.
Qed.

Lemma tame_no_panic : forall entry es, tame_run (init entry) es -> s_dead (fst (run (init entry) es)) = false.
Proof.
  intros entry es T. destruct (run (init entry) es) as [s o] eqn:E. exact (proj1 (compiling_in_flight _ _ _ _ T E)).
Qed.

Lemma last_good_kept : forall entry es s o o1 a o2, tame_run (init entry) es -> plain_run (init entry) es ->
  run (init entry) es = (s, o) -> o = o1 ++ ONotify a :: o2 -> a_doc a = None ->
  success_doc a = last_good (sn_id (a_snap a)) o1 None.
Proof.
  intros entry es s o o1 a o2 T P E Eo Hd.
  assert (I : Inv true s o).
  { change o with ([] ++ o). eapply Inv_run; [apply Inv_init|exact T|auto|exact E]. }
  exact (I_doc _ _ _ I eq_refl _ _ _ Eo Hd).
Qed.
