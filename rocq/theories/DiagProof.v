(** Proofs about diagnostics and compile status. *)
From Coq Require Import List Arith Bool Lia Permutation.
From Verif Require Import AssocModel AssocProof DiagModel DiagSpec.
Import ListNotations.

Lemma view_app os o u : view (os ++ o) u = fold_left (fun l o => match o with Publish v g => if v =? u then concat g else l | _ => l end) o (view os u).
Proof. unfold view. apply fold_left_app. Qed.
Lemma latest_snoc rs r id : latest (rs ++ [r]) id = match r with RDiag q _ m => if q =? id then m else latest rs id | _ => latest rs id end.
Proof. unfold latest. rewrite fold_left_app. reflexivity. Qed.
Lemma handles_app a rs qs : handles a (rs ++ qs) = let '(a1, o1) := handles a rs in let '(a2, o2) := handles a1 qs in (a2, o1 ++ o2).
Proof.
  revert a. induction rs as [|r rs IH]; intros a; cbn; [now destruct (handles a qs)|].
  destruct (handle a r) as [a1 o1]. rewrite IH. destruct (handles a1 rs) as [a2 o2]. destruct (handles a2 qs) as [a3 o3]. now rewrite app_assoc.
Qed.
Lemma handles_snoc a rs r : handles a (rs ++ [r]) = let '(a1, o1) := handles a rs in let '(a2, o2) := handle a1 r in (a2, o1 ++ o2).
Proof. rewrite handles_app. destruct (handles a rs) as [a1 o1]. cbn. destruct (handle a1 r). now rewrite app_nil_r. Qed.

(** * Files *)
Definition put (id : nat) (next : option (list nat)) (g : list (nat * list nat)) : list (nat * list nat) :=
  match next with Some l => aset id l g | None => adel id g end.
Lemma put_get id next g k : aget k (put id next g) = if k =? id then next else aget k g.
Proof. destruct next; cbn [put]; [apply aget_aset|rewrite aget_adel]; reflexivity. Qed.
Lemma put_nodup id next g : NoDup (akeys g) -> NoDup (akeys (put id next g)).
Proof. destruct next; cbn [put]; [apply nodup_aset|apply nodup_adel]. Qed.
Definition views (os : list note) (a : actor) : Prop := forall u, Permutation (view os u) (concat (map snd (groups_of u a))).
Lemma groups_set u v g a b c d : groups_of v (mkAct a (aset u g b) c d) = if v =? u then g else groups_of v (mkAct a b c d).
Proof. unfold groups_of. cbn [a_diags]. rewrite aget_aset. now destruct (v =? u). Qed.
Lemma file_spec a id u next a' o : publish_file a id u next = (a', o) ->
  a_aff a' = a_aff a /\ a_status a' = a_status a /\ a_notify a' = a_notify a /\
  (forall v, groups_of v a' = if v =? u then put id next (groups_of u a) else groups_of v a) /\
  (forall os, views os a -> views (os ++ o) a').
Proof.
  unfold publish_file. intros E. injection E as <- <-. cbn [a_aff a_status a_notify].
  assert (G : forall v, groups_of v (mkAct (a_notify a) (aset u (put id next (groups_of u a)) (a_diags a)) (a_aff a) (a_status a)) = if v =? u then put id next (groups_of u a) else groups_of v a).
  { intros v. rewrite groups_set. reflexivity. }
  repeat split; auto. intros os V v. rewrite view_app. cbn [fold_left]. unfold put in G. rewrite G. rewrite (Nat.eqb_sym v u). destruct (u =? v) eqn:E; [|apply V].
  destruct next as [l|].
  - unfold aset, adel. cbn [map snd concat]. rewrite concat_app. cbn [concat]. rewrite app_nil_r. apply Permutation_app_comm.
  - rewrite app_nil_r. apply Permutation_refl.
Qed.
Lemma files_spec id l : forall a a' o, NoDup (akeys l) -> publish_files a id l = (a', o) ->
  a_aff a' = a_aff a /\ a_status a' = a_status a /\ a_notify a' = a_notify a /\
  (forall v, groups_of v a' = match aget v l with Some next => put id next (groups_of v a) | None => groups_of v a end) /\
  (forall os, views os a -> views (os ++ o) a').
Proof.
  induction l as [|[u next] l IH]; intros a a' o N E; cbn [publish_files] in E.
  - injection E as <- <-. repeat split; auto. intros os V. now rewrite app_nil_r.
  - destruct (publish_file a id u next) as [a1 o1] eqn:E1. destruct (publish_files a1 id l) as [a2 o2] eqn:E2. injection E as <- <-.
    inversion N as [|? ? NI N']; subst. destruct (file_spec _ _ _ _ _ _ E1) as (A1 & A2 & A3 & A4 & A5). destruct (IH _ _ _ N' E2) as (B1 & B2 & B3 & B4 & B5).
    repeat split; try congruence.
    + intros v. rewrite B4, A4. cbn [aget]. destruct (v =? u) eqn:V; [|reflexivity]. apply Nat.eqb_eq in V as ->.
      rewrite (proj2 (aget_none _ u l) NI). reflexivity.
    + intros os V. rewrite app_assoc. auto.
Qed.
Lemma files_app id l k : forall a, publish_files a id (l ++ k) = let '(a1, o1) := publish_files a id l in let '(a2, o2) := publish_files a1 id k in (a2, o1 ++ o2).
Proof.
  induction l as [|[u next] l IH]; intros a; cbn [app publish_files]; [now destruct (publish_files a id k)|]. destruct (publish_file a id u next) as [a1 o1]. rewrite IH.
  destruct (publish_files a1 id l) as [a2 o2]. destruct (publish_files a2 id k) as [a3 o3]. now rewrite app_assoc.
Qed.

(** * The actor *)
Record inv (rs : list req) (os : list note) (a : actor) : Prop := {
  i_nodup : forall u, NoDup (akeys (groups_of u a));
  i_get : forall u id, aget id (groups_of u a) = match latest rs id with Some m => aget u m | None => None end;
  i_aff : forall id, aget id (a_aff a) = option_map akeys (latest rs id);
  i_view : views os a;
  i_maps : forall id m, latest rs id = Some m -> NoDup (akeys m) }.
Lemma akeys_map_none us : akeys (map (fun u => (u, @None (list nat))) us) = us.
Proof. unfold akeys. rewrite map_map. cbn. apply map_id. Qed.
Lemma akeys_map_some (m : dmap) : akeys (map (fun x => (fst x, Some (snd x))) m) = akeys m.
Proof. unfold akeys. rewrite map_map. reflexivity. Qed.
Lemma aget_app {A} k (l m : list (nat * A)) : aget k (l ++ m) = match aget k l with Some v => Some v | None => aget k m end.
Proof. induction l as [|[k' v] l IH]; cbn; [reflexivity|]. now destruct (k =? k'). Qed.
Lemma aget_map_some (m : dmap) u : aget u (map (fun x => (fst x, Some (snd x))) m) = match aget u m with Some l => Some (Some l) | None => None end.
Proof. induction m as [|[k v] m IH]; cbn; [reflexivity|]. now destruct (u =? k). Qed.
Lemma aget_map_none us u : aget u (map (fun u => (u, @None (list nat))) us) = if existsb (Nat.eqb u) us then Some None else None.
Proof. induction us as [|k us IH]; cbn; [reflexivity|]. now destruct (u =? k). Qed.
Lemma existsb_in u us : existsb (Nat.eqb u) us = true <-> In u us.
Proof. rewrite existsb_exists. split; [intros (x & I & E); apply Nat.eqb_eq in E; now subst|intros I; exists u; split; [exact I|apply Nat.eqb_refl]]. Qed.
Lemma inv_diag rs os a id rev m a' o : inv rs os a -> req_ok (RDiag id rev m) -> publish a id m = (a', o) -> inv (rs ++ [RDiag id rev m]) (os ++ o) a'.
Proof.
  intros [I1 I2 I3 I4 I5] OK E. unfold publish in E.
  set (us := match aget id (a_aff a) with Some us => us | None => [] end) in *.
  set (gone := filter (fun u => negb (existsb (Nat.eqb u) (next_keys m))) us) in *.
  set (nx := match m with Some m => map (fun x => (fst x, Some (snd x))) m | None => [] end) in *.
  set (a1 := mkAct _ _ _ _) in *.
  assert (E' : publish_files a1 id (map (fun u => (u, None)) gone ++ nx) = (a', o)).
  { rewrite files_app. destruct (publish_files a1 id (map (fun u => (u, None)) gone)) as [x y]. destruct (publish_files x id nx). exact E. }
  assert (US : us = next_keys (latest rs id)). { unfold us. rewrite I3. destruct (latest rs id); reflexivity. }
  assert (NU : NoDup us). { rewrite US. destruct (latest rs id) as [k|] eqn:L; cbn; [now apply (I5 id)|constructor]. }
  assert (KN : akeys nx = next_keys m). { unfold nx. destruct m; [apply akeys_map_some|reflexivity]. }
  assert (ND : NoDup (akeys (map (fun u => (u, None)) gone ++ nx))).
  { unfold akeys. rewrite map_app. fold (akeys (map (fun u => (u, @None (list nat))) gone)). fold (akeys nx). rewrite akeys_map_none, KN.
    assert (NG : NoDup gone) by (apply NoDup_filter; exact NU). assert (NM : NoDup (next_keys m)) by (destruct m; [exact OK|constructor]).
    clear -NG NM. assert (D : forall u, In u gone -> ~ In u (next_keys m)).
    { intros u H. apply filter_In in H as [_ H]. intros K. apply existsb_in in K. rewrite K in H. discriminate. }
    induction gone as [|x l IH]; [exact NM|]. inversion NG; subst. cbn. constructor.
    - intros H. apply in_app_or in H as [H|H]; [contradiction|]. apply (D x); [now left|exact H].
    - apply IH; auto. intros u U. apply D. now right. }
  destruct (files_spec id _ _ _ _ ND E') as (B1 & B2 & B3 & B4 & B5).
  assert (GA : forall v, groups_of v a1 = groups_of v a) by reflexivity.
  assert (X : forall v, aget v (map (fun u => (u, None)) gone ++ nx) =
     match (match m with Some m => aget v m | None => None end) with Some l => Some (Some l) | None => if existsb (Nat.eqb v) us then Some None else None end).
  { intros v. rewrite aget_app, aget_map_none. assert (NXV : aget v nx = match (match m with Some m => aget v m | None => None end) with Some l => Some (Some l) | None => None end).
    { unfold nx. destruct m; [apply aget_map_some|reflexivity]. }
    assert (GV : existsb (Nat.eqb v) gone = existsb (Nat.eqb v) us && negb (existsb (Nat.eqb v) (next_keys m))).
    { apply eq_true_iff_eq. rewrite andb_true_iff, !existsb_in. unfold gone. rewrite filter_In. tauto. }
    assert (KV : existsb (Nat.eqb v) (next_keys m) = match (match m with Some m => aget v m | None => None end) with Some _ => true | None => false end).
    { apply eq_true_iff_eq. rewrite existsb_in. destruct m as [m|]; cbn; [|split; [tauto|discriminate]]. destruct (aget v m) as [l|] eqn:AV; [split; auto; intros _; now apply aget_in_keys in AV|].
      apply aget_none in AV. split; [tauto|discriminate]. }
    rewrite GV, KV, NXV. destruct (match m with Some m => aget v m | None => None end) as [l|]; [now rewrite andb_false_r|]. rewrite andb_true_r. now destruct (existsb (Nat.eqb v) us). }
  assert (GV : forall v, groups_of v a' = match (match m with Some m => aget v m | None => None end) with Some l => put id (Some l) (groups_of v a) | None => if existsb (Nat.eqb v) us then put id None (groups_of v a) else groups_of v a end).
  { intros v. rewrite B4, X, GA. destruct (match m with Some m => aget v m | None => None end); [reflexivity|]. now destruct (existsb (Nat.eqb v) us). }
  constructor.
  - intros u. rewrite GV. destruct (match m with Some m => aget u m | None => None end); [now apply put_nodup|]. destruct (existsb (Nat.eqb u) us); [now apply put_nodup|apply I1].
  - intros u k. rewrite GV, latest_snoc, (Nat.eqb_sym id k). destruct (match m with Some m => aget u m | None => None end) as [l|] eqn:M.
    + rewrite put_get. destruct (k =? id) eqn:K; [now rewrite M|apply I2].
    + destruct (existsb (Nat.eqb u) us) eqn:EX.
      * rewrite put_get. destruct (k =? id); [now rewrite M|apply I2].
      * rewrite I2. destruct (Nat.eqb_spec k id) as [->|]; [|reflexivity]. rewrite M. destruct (latest rs id) as [old|] eqn:L; [|reflexivity].
        apply aget_none. intros H. cbn in US. rewrite <- US in H. apply existsb_in in H. congruence.
  - intros k. rewrite B1, latest_snoc, (Nat.eqb_sym id k). unfold a1. cbn [a_aff]. destruct m as [m|]; [rewrite aget_aset|rewrite aget_adel]; destruct (k =? id); auto.
  - apply B5. exact I4.
  - intros k m'. rewrite latest_snoc. destruct (id =? k); [intros ->; exact OK|apply I5].
Qed.
Lemma inv_handle rs os a r a' o : inv rs os a -> req_ok r -> handle a r = (a', o) -> inv (rs ++ [r]) (os ++ o) a'.
Proof.
  intros I OK E. destruct r as [b|id rev m|id r|id n]; cbn [handle] in E.
  2: { now apply (inv_diag rs os a id rev m). }
  1: injection E as <- <-. 2,3: destruct (a_notify a && (id =? 0)); injection E as <- <-.
  all: destruct I as [I1 I2 I3 I4 I5]; constructor; intros; rewrite ?latest_snoc in *; auto; rewrite ?app_nil_r; auto.
  all: try (intros u; rewrite view_app; apply I4). all: eauto.
Qed.
Lemma inv_handles b rs : Forall req_ok rs -> inv rs (snd (handles (actor0 b) rs)) (fst (handles (actor0 b) rs)).
Proof.
  induction rs as [|r rs IH] using rev_ind; intros F.
  - constructor; intros; cbn; auto; try constructor; try discriminate.
  - apply Forall_app in F as [F1 F2]. inversion F2; subst. specialize (IH F1). rewrite handles_snoc. destruct (handles (actor0 b) rs) as [a o]. cbn [fst snd] in IH.
    destruct (handle a r) as [a2 o2] eqn:E. cbn [fst snd]. now apply (inv_handle rs o a).
Qed.
(** The union over projects. *)
Lemma union_groups g : NoDup (akeys g) -> forall ps, NoDup ps -> (forall k, In k (akeys g) -> In k ps) ->
  Permutation (concat (map snd g)) (flat_map (fun p => match aget p g with Some l => l | None => @nil nat end) ps).
Proof.
  induction g as [|[k v] g IH]; intros N ps NP C.
  - assert (X : forall qs : list nat, flat_map (fun p => match aget p (@nil (nat * list nat)) with Some l => l | None => [] end) qs = []) by (induction qs; auto). rewrite X. constructor.
  - inversion N as [|? ? NI N']; subst. assert (K : In k ps) by (apply C; now left). apply in_split in K as (a & b & ->).
    cbn [map snd concat]. rewrite flat_map_app. cbn [flat_map aget]. rewrite Nat.eqb_refl.
    assert (D : ~ In k (a ++ b)) by (apply NoDup_remove_2 with (1 := NP)).
    assert (F : forall l, ~ In k l -> flat_map (fun p => match (if p =? k then Some v else aget p g) with Some l => l | None => [] end) l = flat_map (fun p => match aget p g with Some l => l | None => [] end) l).
    { induction l as [|x l IHl]; intros H; [reflexivity|]. cbn. rewrite IHl by (intros Q; apply H; now right). destruct (Nat.eqb_spec x k) as [->|]; [exfalso; apply H; now left|reflexivity]. }
    rewrite !F by (intros H; apply D, in_or_app; auto). specialize (IH N' (a ++ b) (NoDup_remove_1 _ _ _ NP)).
    assert (C' : forall q, In q (akeys g) -> In q (a ++ b)).
    { intros q Q. assert (In q (a ++ k :: b)) as H by (apply C; now right). apply in_app_or in H as [H|[->|H]]; [apply in_or_app; auto|contradiction|apply in_or_app; auto]. }
    specialize (IH C'). rewrite flat_map_app in IH. rewrite IH, !app_assoc. apply Permutation_app_tail. apply Permutation_app_comm.
Qed.
Theorem actor_union b rs ps u : Forall req_ok rs -> NoDup ps -> (forall id, latest rs id <> None -> In id ps) ->
  Permutation (view (snd (handles (actor0 b) rs)) u) (flat_map (fun p => of_file (latest rs p) u) ps).
Proof.
  intros F NP C. destruct (inv_handles b rs F) as [I1 I2 I3 I4 I5]. rewrite (I4 u).
  rewrite (union_groups _ (I1 u) ps NP).
  - erewrite flat_map_ext; [apply Permutation_refl|]. intros p. cbn beta. rewrite I2. unfold of_file. now destruct (latest rs p).
  - intros k K. destruct (latest rs k) eqn:L; [apply C; congruence|].
    exfalso. apply aget_none in K; [exact K|]. now rewrite I2, L.
Qed.

(** * The way to the actor *)
Lemma prun_snoc s es e : prun s (es ++ [e]) = let '(s1, o1) := prun s es in let '(s2, o2) := pstep s1 e in (s2, o1 ++ o2).
Proof.
  revert s. induction es as [|x es IH]; intros s; cbn.
  - destruct (pstep s e). now rewrite app_nil_r.
  - destruct (pstep s x) as [s1 o1]. rewrite IH. destruct (prun s1 es) as [s2 o2]. destruct (pstep s2 e). now rewrite app_assoc.
Qed.
Lemma prompt_snoc es e : forall s, prompt s (es ++ [e]) -> prompt s es /\ (forall id, touches e = Some id -> ~ In id (map (fun j => fst (fst j)) (p_jobs (fst (prun s es))))).
Proof.
  induction es as [|x es IH]; intros s H; cbn [app prompt] in *; [destruct H as [H _]; split; [exact Logic.I|exact H]|].
  destruct H as [H1 H2]. destruct (IH _ H2) as [A B]. split; [split; auto|]. cbn [prun]. destruct (pstep s x) as [s1 o1]. cbn [fst] in *. destruct (prun s1 es). exact B.
Qed.
Lemma current_snoc es e id : current (es ++ [e]) id = now_step id (current es id) e.
Proof. unfold current. now rewrite fold_left_app. Qed.
Definition job_ids (s : pipe) : list nat := map (fun j => fst (fst j)) (p_jobs s).
Lemma del_nth_app {A} i : forall (l : list A) x, nth_error l i = Some x -> exists a b, l = a ++ x :: b /\ del_nth i l = a ++ b.
Proof.
  induction i as [|i IH]; intros [|y l] x H; try discriminate; cbn in H.
  - injection H as ->. exists [], l. auto.
  - destruct (IH l x H) as (a & b & -> & E). exists (y :: a), b. cbn. now rewrite E.
Qed.
(** The requests sent so far are those that the actor has handled and those in the channel. *)
Lemma pipe_inv b es : Forall pev_ok es -> let s := fst (prun (pipe0 b) es) in let os := snd (prun (pipe0 b) es) in
  exists rs, handles (actor0 b) rs = (p_actor s, os) /\ Forall req_ok (rs ++ p_chan s) /\
    Forall (fun j => req_ok (RDiag 0 0 (snd j))) (p_jobs s) /\
    (forall id, rev_of id (p_notified s) = n_rev (current es id) /\ rev_of id (p_status s) = n_stat (current es id)) /\
    (prompt (pipe0 b) es -> NoDup (job_ids s) /\
      (forall id rev m, In (id, rev, m) (p_jobs s) -> m = n_diag (current es id)) /\
      (forall id, ~ In id (job_ids s) -> latest (rs ++ p_chan s) id = n_diag (current es id))).
Proof.
  induction es as [|e es IH] using rev_ind; intros F.
  - exists []. cbn. repeat split; auto; try constructor. intros id rev m [].
  - apply Forall_app in F as [F1 F2]. inversion F2 as [|? ? OK _]; subst. specialize (IH F1). cbn zeta in IH |- *.
    rewrite prun_snoc. pose proof (fun P => prompt_snoc es e (pipe0 b) P) as PS.
    destruct (prun (pipe0 b) es) as [s os]. cbn [fst snd] in IH, PS. destruct IH as (rs & H1 & H2 & H3 & H4 & H5).
    destruct e as [id rev m|i|id|id rev r|c|id n|]; cbn [pstep].
    + (* Notify *)
      destruct (H4 id) as [HN _]. destruct (Nat.leb_spec rev (rev_of id (p_notified s))) as [L|L]; cbn [fst snd].
      * exists rs. rewrite app_nil_r. split; [exact H1|]. split; [exact H2|]. split; [exact H3|].
        assert (SAME : forall k, current (es ++ [Notify id rev m]) k = current es k).
        { intros k. rewrite current_snoc. cbn [now_step]. destruct (Nat.eqb_spec id k) as [<-|]; [|reflexivity]. rewrite <- HN. destruct (Nat.ltb_spec (rev_of id (p_notified s)) rev); [lia|reflexivity]. }
        split; [intros k; rewrite SAME; apply H4|]. intros P. destruct (PS P) as [P1 _]. destruct (H5 P1) as (N & J & K). split; [exact N|]. split; intros; rewrite SAME; eauto.
      * exists rs. rewrite app_nil_r. split; [exact H1|]. split; [exact H2|]. split; [apply Forall_app; split; [exact H3|constructor; [exact OK|constructor]]|].
        assert (CUR : forall k, current (es ++ [Notify id rev m]) k = if k =? id then mkNow rev m (n_stat (current es id)) else current es k).
        { intros k. rewrite current_snoc. cbn [now_step]. rewrite (Nat.eqb_sym k id). destruct (Nat.eqb_spec id k) as [<-|]; [|reflexivity]. rewrite <- HN. apply Nat.ltb_lt in L. now rewrite L. }
        cbn [p_notified p_status p_jobs p_chan p_actor]. split.
        { intros k. rewrite CUR. unfold rev_of. rewrite aget_aset. destruct (Nat.eqb_spec k id) as [->|]; [cbn; split; [reflexivity|apply H4]|apply H4]. }
        intros P. destruct (PS P) as [P1 P2]. destruct (H5 P1) as (N & J & K). specialize (P2 id eq_refl).
        unfold job_ids. cbn [p_jobs]. rewrite map_app. cbn [map fst]. split; [|split].
        -- apply (Permutation_NoDup (l := id :: job_ids s)); [|constructor; auto]. apply Permutation_cons_append.
        -- intros k r' m' H. rewrite CUR. apply in_app_or in H as [H|[H|[]]].
           ++ destruct (Nat.eqb_spec k id) as [->|]; [exfalso; apply P2; apply in_map_iff; eexists; split; [|exact H]; reflexivity|eauto].
           ++ injection H as <- <- <-. now rewrite Nat.eqb_refl.
        -- intros k H. rewrite CUR. destruct (Nat.eqb_spec k id) as [->|]; [exfalso; apply H, in_or_app; right; now left|]. apply K. intros Q. apply H, in_or_app. now left.
    + (* Deliver *)
      assert (SAME : forall k, current (es ++ [Deliver i]) k = current es k) by (intros k; rewrite current_snoc; reflexivity).
      destruct (nth_error (p_jobs s) i) as [[[id rev] m]|] eqn:NI; cbn [fst snd].
      * exists rs. rewrite app_nil_r. destruct (del_nth_app i _ _ NI) as (x & y & E1 & E2). cbn [p_notified p_status p_jobs p_chan p_actor].
        rewrite E1 in H3. apply Forall_app in H3 as [H3a H3b]. inversion H3b as [|? ? HM H3c]; subst.
        split; [exact H1|]. split; [rewrite app_assoc; apply Forall_app; split; [exact H2|constructor; [exact HM|constructor]]|]. split; [rewrite E2; now apply Forall_app|].
        split; [intros k; rewrite SAME; apply H4|]. intros P. destruct (PS P) as [P1 _]. destruct (H5 P1) as (N & J & K).
        unfold job_ids in *. cbn [p_jobs]. rewrite E1, map_app in N. cbn [map fst] in N. rewrite E2, map_app. split; [now apply NoDup_remove_1 in N|]. split.
        -- intros k r' m' H. rewrite SAME. apply (J k r'). rewrite E1. apply in_app_or in H as [H|H]; apply in_or_app; [now left|right; now right].
        -- intros k H. rewrite SAME, app_assoc, latest_snoc. destruct (Nat.eqb_spec id k) as [<-|NE]; [apply (J id rev); rewrite E1; apply in_or_app; right; now left|].
           apply K. rewrite E1, map_app. cbn. intros Q. apply H. apply in_app_or in Q as [Q|[Q|Q]]; [apply in_or_app; now left|congruence|apply in_or_app; now right].
      * exists rs. rewrite app_nil_r. split; [exact H1|]. split; [exact H2|]. split; [exact H3|]. split; [intros k; rewrite SAME; apply H4|].
        intros P. destruct (PS P) as [P1 _]. destruct (H5 P1) as (N & J & K). split; [exact N|]. split; intros; rewrite SAME; eauto.
    + (* Removed *)
      exists rs. cbn [fst snd p_notified p_status p_jobs p_chan p_actor]. rewrite app_nil_r.
      assert (CUR : forall k, current (es ++ [Removed id]) k = if k =? id then mkNow 0 None (n_stat (current es id)) else current es k).
      { intros k. rewrite current_snoc. cbn [now_step]. rewrite (Nat.eqb_sym k id). destruct (Nat.eqb_spec id k) as [<-|]; reflexivity. }
      split; [exact H1|]. split; [rewrite app_assoc; apply Forall_app; split; [exact H2|constructor; [exact Logic.I|constructor]]|]. split; [exact H3|]. split.
      { intros k. rewrite CUR. unfold rev_of. rewrite aget_adel. destruct (Nat.eqb_spec k id) as [->|]; [cbn; split; [reflexivity|apply H4]|apply H4]. }
      intros P. destruct (PS P) as [P1 P2]. destruct (H5 P1) as (N & J & K). specialize (P2 id eq_refl). split; [exact N|]. split.
      * intros k r' m' H. rewrite CUR. destruct (Nat.eqb_spec k id) as [->|]; [exfalso; apply P2, in_map_iff; eexists; split; [|exact H]; reflexivity|eauto].
      * intros k H. rewrite CUR, app_assoc, latest_snoc, (Nat.eqb_sym id k). destruct (k =? id); [reflexivity|auto].
    + (* Report *)
      destruct (H4 id) as [_ HN]. destruct (Nat.ltb_spec rev (rev_of id (p_status s))) as [L|L]; cbn [fst snd].
      * exists rs. rewrite app_nil_r. split; [exact H1|]. split; [exact H2|]. split; [exact H3|].
        assert (SAME : forall k, current (es ++ [Report id rev r]) k = current es k).
        { intros k. rewrite current_snoc. cbn [now_step]. destruct (Nat.eqb_spec id k) as [<-|]; [|reflexivity]. rewrite <- HN. destruct (Nat.leb_spec (rev_of id (p_status s)) rev); [lia|reflexivity]. }
        split; [intros k; rewrite SAME; apply H4|]. intros P. destruct (PS P) as [P1 _]. destruct (H5 P1) as (N & J & K). split; [exact N|]. split; intros; rewrite SAME; eauto.
      * exists rs. rewrite app_nil_r. cbn [p_notified p_status p_jobs p_chan p_actor].
        assert (CUR : forall k, current (es ++ [Report id rev r]) k = if k =? id then mkNow (n_rev (current es id)) (match rp_stat r with Suspend => None | _ => n_diag (current es id) end) rev else current es k).
        { intros k. rewrite current_snoc. cbn [now_step]. rewrite (Nat.eqb_sym k id). destruct (Nat.eqb_spec id k) as [<-|]; [|reflexivity]. rewrite <- HN. apply Nat.leb_le in L. now rewrite L. }
        split; [exact H1|]. split.
        { rewrite app_assoc. apply Forall_app; split; [exact H2|]. destruct (rp_stat r); cbn; repeat constructor. }
        split; [exact H3|]. split.
        { intros k. rewrite CUR. unfold rev_of. rewrite aget_aset. destruct (Nat.eqb_spec k id) as [->|]; [cbn; split; [apply H4|reflexivity]|apply H4]. }
        intros P. destruct (PS P) as [P1 P2]. destruct (H5 P1) as (N & J & K). cbn [touches] in P2. split; [exact N|]. split.
        -- intros k r' m' H. rewrite CUR. destruct (Nat.eqb_spec k id) as [->|]; [|eauto]. cbn [n_diag]. destruct (rp_stat r) eqn:RS; try (now apply (J id r')).
           exfalso. apply (P2 id eq_refl), in_map_iff; eexists; split; [|exact H]; reflexivity.
        -- intros k H. rewrite CUR. rewrite !app_assoc, latest_snoc. destruct (rp_stat r) eqn:RS.
           ++ rewrite latest_snoc, (Nat.eqb_sym id k). destruct (k =? id); [reflexivity|auto].
           ++ rewrite app_nil_r, (K k H). destruct (Nat.eqb_spec k id) as [->|]; reflexivity.
           ++ rewrite app_nil_r, (K k H). destruct (Nat.eqb_spec k id) as [->|]; reflexivity.
           ++ rewrite app_nil_r, (K k H). destruct (Nat.eqb_spec k id) as [->|]; reflexivity.
    + exists rs. cbn [fst snd p_notified p_status p_jobs p_chan p_actor]. rewrite app_nil_r.
      assert (SAME : forall k, current (es ++ [Config c]) k = current es k) by (intros k; rewrite current_snoc; reflexivity).
      split; [exact H1|]. split; [rewrite app_assoc; apply Forall_app; split; [exact H2|repeat constructor]|]. split; [exact H3|]. split; [intros k; rewrite SAME; apply H4|].
      intros P. destruct (PS P) as [P1 _]. destruct (H5 P1) as (N & J & K). split; [exact N|]. split; intros; rewrite SAME; rewrite ?app_assoc, ?latest_snoc; eauto.
    + exists rs. cbn [fst snd p_notified p_status p_jobs p_chan p_actor]. rewrite app_nil_r.
      assert (SAME : forall k, current (es ++ [Count id n]) k = current es k) by (intros k; rewrite current_snoc; reflexivity).
      split; [exact H1|]. split; [rewrite app_assoc; apply Forall_app; split; [exact H2|repeat constructor]|]. split; [exact H3|]. split; [intros k; rewrite SAME; apply H4|].
      intros P. destruct (PS P) as [P1 _]. destruct (H5 P1) as (N & J & K). split; [exact N|]. split; intros; rewrite SAME; rewrite ?app_assoc, ?latest_snoc; eauto.
    + (* Recv *)
      assert (SAME : forall k, current (es ++ [Recv]) k = current es k) by (intros k; rewrite current_snoc; reflexivity).
      destruct (p_chan s) as [|r c] eqn:C.
      * exists rs. cbn [fst snd]. rewrite C, app_nil_r. split; [exact H1|]. split; [exact H2|]. split; [exact H3|]. split; [intros k; rewrite SAME; apply H4|].
        intros P. destruct (PS P) as [P1 _]. destruct (H5 P1) as (N & J & K). split; [exact N|]. split; intros; rewrite SAME; eauto.
      * exists (rs ++ [r]). destruct (handle (p_actor s) r) as [a o] eqn:HD. cbn [fst snd p_notified p_status p_jobs p_chan p_actor].
        assert (AS : (rs ++ [r]) ++ c = rs ++ r :: c) by (now rewrite <- app_assoc). rewrite AS.
        split; [rewrite handles_snoc, H1, HD; reflexivity|]. split; [exact H2|]. split; [exact H3|]. split; [intros k; rewrite SAME; apply H4|].
        intros P. destruct (PS P) as [P1 _]. destruct (H5 P1) as (N & J & K). split; [exact N|]. split; intros; rewrite SAME; eauto.
Qed.

Theorem pipe_union b es ps u : Forall pev_ok es -> prompt (pipe0 b) es -> NoDup ps ->
  (forall id, n_diag (current es id) <> None -> In id ps) ->
  p_jobs (fst (prun (pipe0 b) es)) = [] -> p_chan (fst (prun (pipe0 b) es)) = [] ->
  Permutation (view (snd (prun (pipe0 b) es)) u) (flat_map (fun p => of_file (n_diag (current es p)) u) ps).
Proof.
  intros F P NP C J E. destruct (pipe_inv b es F) as (rs & H1 & H2 & _ & _ & H5). destruct (H5 P) as (_ & _ & K). rewrite E, app_nil_r in *.
  assert (L : forall id, latest rs id = n_diag (current es id)). { intros id. apply K. unfold job_ids. rewrite J. intros []. }
  pose proof (actor_union b rs ps u H2 NP) as U. rewrite H1 in U. cbn [snd] in U. rewrite U by (intros id; rewrite L; apply C).
  erewrite flat_map_ext; [apply Permutation_refl|]. intros p. cbn beta. now rewrite L.
Qed.
(** [current] is the newest compilation, unless diagnostics were dropped. *)
Lemma current_newest es id : (forall e, In e es -> touches e = Some id -> exists rev m, e = Notify id rev m) ->
  (forall rev m, In (Notify id rev m) es -> rev <= n_rev (current es id)) /\
  (n_rev (current es id) = 0 -> n_diag (current es id) = None) /\
  (n_rev (current es id) > 0 -> In (Notify id (n_rev (current es id)) (n_diag (current es id))) es).
Proof.
  induction es as [|e es IH] using rev_ind; intros H; [repeat split; cbn; auto; [intros rev m []|lia]|].
  assert (H' : forall e, In e es -> touches e = Some id -> exists rev m, e = Notify id rev m) by (intros x X; apply H, in_or_app; auto).
  specialize (IH H'). destruct IH as (A & B & C). rewrite current_snoc.
  assert (SAME : (forall rev m, e <> Notify id rev m) -> n_rev (now_step id (current es id) e) = n_rev (current es id) /\ n_diag (now_step id (current es id) e) = n_diag (current es id)).
  { intros N. assert (T : touches e <> Some id). { intros T. destruct (H e) as (rev & m & ->); [apply in_or_app; right; now left|exact T|]. now apply (N rev m). }
    destruct e as [q rev m|i|q|q rev r|c|q n|]; cbn [now_step]; auto.
    - destruct (Nat.eqb_spec q id) as [->|]; [now destruct (N rev m)|auto].
    - destruct (Nat.eqb_spec q id) as [->|]; [now destruct T|auto].
    - destruct ((q =? id) && (n_stat (current es id) <=? rev)) eqn:E; [|auto]. apply andb_true_iff in E as [E _]. apply Nat.eqb_eq in E as ->. cbn. split; [reflexivity|].
      cbn in T. destruct (rp_stat r); auto. now destruct T. }
  destruct e as [q rev m|i|q|q rev r|c|q n|].
  2-7: destruct SAME as [S1 S2]; [intros; discriminate|]; rewrite S1, S2; repeat split; auto; [intros r' m' X; apply in_app_or in X as [X|[X|[]]]; [now apply (A _ m')|discriminate]|intros X; apply in_or_app; auto].
  destruct (Nat.eqb_spec q id) as [->|NE].
  - cbn [now_step]. rewrite Nat.eqb_refl. cbn [andb]. destruct (Nat.ltb_spec (n_rev (current es id)) rev) as [L|L]; cbn [n_rev n_diag].
    + repeat split; [|lia|intros _; apply in_or_app; right; now left]. intros r' m' X. apply in_app_or in X as [X|[X|[]]]; [specialize (A _ _ X); lia|injection X as <- <-; lia].
    + repeat split; auto; [|intros X; apply in_or_app; auto]. intros r' m' X. apply in_app_or in X as [X|[X|[]]]; [now apply (A _ m')|injection X as <- <-; exact L].
  - destruct SAME as [S1 S2]; [intros r' m' X; injection X as X _ _; congruence|]. rewrite S1, S2. repeat split; auto; [|intros X; apply in_or_app; auto].
    intros r' m' X. apply in_app_or in X as [X|[X|[]]]; [now apply (A _ m')|injection X as X _ _; congruence].
Qed.

(** * Status *)
Lemma publish_same a id m a' o : publish a id m = (a', o) -> a_status a' = a_status a /\ a_notify a' = a_notify a /\ forall s, ~ In (StatusAll s) o.
Proof.
  assert (X : forall l a a' o, publish_files a id l = (a', o) -> a_status a' = a_status a /\ a_notify a' = a_notify a /\ forall s, ~ In (StatusAll s) o).
  { induction l as [|[u n] l IH]; intros b b' p E; cbn [publish_files] in E; [injection E as <- <-; auto|].
    destruct (publish_file b id u n) as [a1 o1] eqn:E1. destruct (publish_files a1 id l) as [a2 o2] eqn:E2. injection E as <- <-.
    destruct (IH _ _ _ E2) as (A & B & C). unfold publish_file in E1. injection E1 as <- <-. cbn in A, B. repeat split; auto.
    intros s H. apply in_app_or in H as [[H|[]]|H]; [discriminate|now apply (C s)]. }
  unfold publish. destruct (publish_files _ id (map _ _)) as [a2 o2] eqn:E2. destruct (publish_files a2 id _) as [a3 o3] eqn:E3. intros E. injection E as <- <-.
  destruct (X _ _ _ _ E2) as (A & B & C). destruct (X _ _ _ _ E3) as (A' & B' & C'). cbn in A, B. repeat split; try congruence.
  intros s H. apply in_app_or in H as [H|H]; [now apply (C s)|now apply (C' s)].
Qed.
Lemma last_report_snoc rs r : last_report (rs ++ [r]) = match r with RStatus 0 r => Some r | _ => last_report rs end.
Proof. unfold last_report. now rewrite fold_left_app. Qed.
Lemma last_count_snoc rs r : last_count (rs ++ [r]) = match r with RCount 0 n => Some n | _ => last_count rs end.
Proof. unfold last_count. now rewrite fold_left_app. Qed.
Lemma status_inv rs : ~ In (RConfig false) rs -> let a := fst (handles (actor0 true) rs) in a_notify a = true /\ a_status a = status_of (last_report rs) (last_count rs).
Proof.
  induction rs as [|r rs IH] using rev_ind; intros N; [now split|]. assert (N' : ~ In (RConfig false) rs) by (intros H; apply N, in_or_app; auto). specialize (IH N').
  cbn zeta in *. rewrite handles_snoc, last_report_snoc, last_count_snoc. destruct (handles (actor0 true) rs) as [a o]. cbn [fst] in IH. destruct IH as [A B].
  destruct r as [b|id rev m|id r|id n]; cbn [handle].
  - cbn. split; [|exact B]. destruct b; [reflexivity|]. exfalso. apply N, in_or_app. right. now left.
  - destruct (publish a id m) as [a2 o2] eqn:E. destruct (publish_same _ _ _ _ _ E) as (S & T & _). cbn. split; congruence.
  - rewrite A. destruct id as [|id]; cbn; [|auto]. split; [reflexivity|]. rewrite B. unfold status_of. destruct (last_report rs) as [r0|]; destruct (rp_stat r); reflexivity.
  - rewrite A. destruct id as [|id]; cbn; [|auto]. split; [reflexivity|]. rewrite B. unfold status_of. destruct (last_report rs) as [r0|]; reflexivity.
Qed.
Theorem status_right rs r : ~ In (RConfig false) rs ->
  forall s, In (StatusAll s) (snd (handle (fst (handles (actor0 true) rs)) r)) <->
    s = status_of (last_report (rs ++ [r])) (last_count (rs ++ [r])) /\ match r with RStatus 0 _ | RCount 0 _ => True | _ => False end.
Proof.
  intros N s. destruct (status_inv rs N) as [A B]. destruct (handles (actor0 true) rs) as [a o]. cbn [fst] in *. rewrite last_report_snoc, last_count_snoc.
  destruct r as [b|id rev m|id r|id n]; cbn [handle].
  - cbn. tauto.
  - destruct (publish a id m) as [a2 o2] eqn:E. destruct (publish_same _ _ _ _ _ E) as (_ & _ & X). cbn. split; [intros H; now destruct (X s)|tauto].
  - rewrite A. destruct id as [|id]; cbn; [|tauto]. rewrite B. unfold status_of. split.
    + intros [H|[]]. injection H as <-. split; [|auto]. destruct (last_report rs); destruct (rp_stat r); reflexivity.
    + intros [-> _]. left. destruct (last_report rs); destruct (rp_stat r); reflexivity.
  - rewrite A. destruct id as [|id]; cbn; [|tauto]. rewrite B. unfold status_of. split.
    + intros [H|[]]. injection H as <-. split; [|auto]. destruct (last_report rs); reflexivity.
    + intros [-> _]. left. destruct (last_report rs); reflexivity.
Qed.
Lemma told_snoc es : forall pre e, told pre (es ++ [e]) = told pre es ++ tells (pre ++ es) e.
Proof.
  induction es as [|x es IH]; intros pre e; cbn [app told]; [now rewrite !app_nil_r|]. rewrite IH, <- !app_assoc. reflexivity.
Qed.
Theorem told_right b es : Forall pev_ok es -> let s := fst (prun (pipe0 b) es) in
  exists rs, handles (actor0 b) rs = (p_actor s, snd (prun (pipe0 b) es)) /\ filter no_diag (rs ++ p_chan s) = told [] es.
Proof.
  induction es as [|e es IH] using rev_ind; intros F; [exists []; now split|]. apply Forall_app in F as [F _]. destruct (IH F) as (rs & A & B). clear IH.
  destruct (pipe_inv b es F) as (_ & _ & _ & _ & ST & _). cbn zeta in *. rewrite told_snoc. cbn [app]. rewrite prun_snoc. destruct (prun (pipe0 b) es) as [s os]. cbn [fst snd] in *.
  destruct e as [q r m|i|q|q r rp|c|q n|]; cbn [pstep tells].
  - exists rs. destruct (r <=? rev_of q (p_notified s)); cbn [fst snd p_actor p_chan]; rewrite !app_nil_r; auto.
  - exists rs. destruct (nth_error (p_jobs s) i) as [[[q r] m]|]; cbn [fst snd p_actor p_chan]; rewrite !app_nil_r; auto. split; [exact A|]. rewrite app_assoc, filter_app. cbn. now rewrite app_nil_r.
  - exists rs. cbn [fst snd p_actor p_chan]. rewrite !app_nil_r. split; [exact A|]. rewrite app_assoc, filter_app. cbn. now rewrite app_nil_r.
  - exists rs. rewrite <- (proj2 (ST q)). rewrite Nat.leb_antisym. destruct (r <? rev_of q (p_status s)); cbn [fst snd p_actor p_chan negb]; rewrite ?app_nil_r; [auto|]. split; [exact A|].
    rewrite app_assoc, filter_app, B. f_equal. now destruct (rp_stat rp).
  - exists rs. cbn [fst snd p_actor p_chan]. rewrite app_nil_r. split; [exact A|]. rewrite app_assoc, filter_app, B. reflexivity.
  - exists rs. cbn [fst snd p_actor p_chan]. rewrite app_nil_r. split; [exact A|]. rewrite app_assoc, filter_app, B. reflexivity.
  - rewrite app_nil_r. destruct (p_chan s) as [|r c] eqn:C; cbn [fst snd]; [exists rs; rewrite app_nil_r, C; auto|].
    exists (rs ++ [r]). rewrite handles_snoc, A. destruct (handle (p_actor s) r) as [a o]. cbn [fst snd p_actor p_chan]. split; [reflexivity|]. rewrite <- B, <- app_assoc. reflexivity.
Qed.
