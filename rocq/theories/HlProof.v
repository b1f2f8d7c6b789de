From Coq Require Import List Arith Bool Lia.
From Verif Require Import HlModel HlSpec.
Import ListNotations.

Fixpoint node_ind' (P : node -> Prop) (H : forall k a b cs, Forall P cs -> P (Node k a b cs)) (n : node) : P n :=
  match n with
  | Node k a b cs =>
      H k a b cs ((fix go (l : list node) : Forall P l :=
        match l with [] => Forall_nil _ | c :: l' => Forall_cons _ (node_ind' P H c) (go l') end) cs)
  end.

Lemma stops_eq : forall k, stops k = boundary k.
Proof. intros []; reflexivity. Qed.
Lemma leaving_eq : forall k, leaving k = is_jump k.
Proof. intros []; reflexivity. Qed.
Lemma loop_eq : forall k, loop k = is_loop k.
Proof. intros []; reflexivity. Qed.
Lemma word_eq : forall k, word k = is_keyword k.
Proof. intros []; reflexivity. Qed.

(** The search without a worklist. *)
Fixpoint dfs (n : node) : list node :=
  match n with
  | Node k a b cs =>
      if boundary k then [] else if is_jump k then [n]
      else (fix go (l : list node) : list node := match l with [] => [] | c :: l' => go l' ++ dfs c end) cs
  end.

Lemma dfs_eq : forall n, dfs n = if boundary (nkind n) then [] else if is_jump (nkind n) then [n]
  else flat_map dfs (rev (children n)).
Proof.
  intros [k a b cs]. cbn [dfs nkind children]. destruct (boundary k); auto. destruct (is_jump k); auto.
  induction cs as [|c cs IH]; auto. rewrite IH. cbn [rev]. rewrite flat_map_app. cbn. rewrite app_nil_r. auto.
Qed.

Lemma sizes_app : forall a b, sizes (a ++ b) = sizes a + sizes b.
Proof. unfold sizes. induction a as [|x a IH]; intros b; cbn; auto. rewrite IH. lia. Qed.

Lemma sizes_rev : forall a, sizes (rev a) = sizes a.
Proof. induction a as [|x a IH]; cbn [rev]; auto. rewrite sizes_app, IH. unfold sizes; cbn. lia. Qed.

Lemma size_eq : forall n, size n = S (sizes (children n)).
Proof. intros [k a b cs]. reflexivity. Qed.

Lemma check_dfs : forall fuel wl, sizes wl <= fuel -> check fuel wl = flat_map dfs wl.
Proof.
  induction fuel as [|fuel IH]; intros wl H.
  - destruct wl as [|n wl]; auto. unfold sizes in H; cbn in H. rewrite size_eq in H. lia.
  - destruct wl as [|n wl]; auto. cbn [check flat_map].
    assert (HS : S (sizes (children n)) + sizes wl <= S fuel).
    { unfold sizes in *; cbn in *. rewrite size_eq in H. unfold sizes in H. lia. }
    rewrite (dfs_eq n). destruct (boundary (nkind n)); [rewrite IH by lia; auto|].
    destruct (is_jump (nkind n)); [rewrite IH by lia; auto|].
    rewrite IH; [apply flat_map_app|]. rewrite sizes_app, sizes_rev. lia.
Qed.

Definition jumps (l : node) : list node := flat_map dfs (rev (children l)).

Lemma parsed_child : forall t c, parsed t -> In c (children t) -> parsed c.
Proof. intros t c H HI u HU. apply H. eapply below_child; eauto. Qed.

Lemma dfs_inside : forall c n, parsed c -> (In n (dfs c) <->
  boundary (nkind c) = false /\ is_jump (nkind n) = true /\ (n = c \/ inside c n)).
Proof.
  induction c as [k a b cs IH] using node_ind'. intros n HP. rewrite dfs_eq. cbn [nkind children].
  assert (HB : forall x, is_jump x = true -> boundary x = false) by (intros []; cbn; auto; discriminate).
  destruct (boundary k) eqn:EB.
  - split; [intros []|]. intros (H & _); discriminate.
  - destruct (is_jump k) eqn:EJ.
    + split.
      * intros [<-|[]]. auto.
      * intros (_ & HJ & [->|HI]); [left; auto|]. exfalso.
        destruct (HP _ (below_self _)) as (_ & H). specialize (H EJ). cbn [children] in H.
        inversion HI as [t c Hc|t c n' Hc Hb Hn]; subst; cbn [children] in Hc.
        -- destruct (H _ Hc) as (_ & [E|[E|E]]); rewrite E in HJ; discriminate.
        -- destruct (H _ Hc) as (E & _). inversion Hn as [t c' Hc'|t c' n'' Hc']; subst; rewrite E in Hc'; destruct Hc'.
    + rewrite Forall_forall in IH. rewrite in_flat_map. split.
      * intros (c & Hc & Hn). apply in_rev in Hc. apply IH in Hn; auto; [|eapply parsed_child; eauto].
        destruct Hn as (H1 & H2 & H3). repeat split; auto. right. destruct H3 as [->|H3].
        -- apply inside_child. auto.
        -- eapply inside_deep; eauto.
      * intros (_ & HJ & [->|HI]); [cbn in HJ; congruence|].
        inversion HI as [t c Hc|t c n' Hc Hb Hn]; subst; cbn [children] in Hc.
        -- exists n. split; [apply -> in_rev; auto|]. apply IH; auto. eapply parsed_child; eauto.
        -- exists c. split; [apply -> in_rev; auto|]. apply IH; auto. eapply parsed_child; eauto.
Qed.

Lemma jumps_ok : forall l n, parsed l -> (In n (jumps l) <-> jump_of l n).
Proof.
  intros l n HP. unfold jumps, jump_of. rewrite in_flat_map. split.
  - intros (c & Hc & Hn). apply in_rev in Hc. apply dfs_inside in Hn; [|eapply parsed_child; eauto].
    destruct Hn as (H1 & H2 & [->|H3]); split; auto; [apply inside_child|eapply inside_deep]; eauto.
  - intros (HI & HJ). inversion HI as [t c Hc|t c n' Hc Hb Hn]; subst.
    + exists n. split; [apply -> in_rev; auto|]. apply dfs_inside; [eapply parsed_child; eauto|].
      repeat split; auto. destruct (nkind n); cbn in *; auto; discriminate.
    + exists c. split; [apply -> in_rev; auto|]. apply dfs_inside; [eapply parsed_child; eauto|]. auto.
Qed.

Lemma work_loop_eq : forall anc l, find_loop anc = Some l ->
  work_loop anc = Some (match find (fun c => is_keyword (nkind c)) (children l) with Some c => [c] | None => [] end ++ jumps l).
Proof.
  intros anc l H. unfold work_loop. rewrite H. rewrite check_dfs by auto. reflexivity.
Qed.

Lemma find_first : forall l kw, keyword_of l kw -> find (fun c => is_keyword (nkind c)) (children l) = Some kw.
Proof.
  intros l kw (_ & a & b & -> & HK & HA). induction a as [|x a IH]; cbn.
  - rewrite <- word_eq, HK. auto.
  - rewrite <- word_eq, HA by (left; auto). apply IH. intros c Hc. apply HA; right; auto.
Qed.

(** From anywhere between a loop and a node of it, the loop is found. *)
Lemma find_up : forall pre l rest, is_loop (nkind l) = true -> (forall n, In n pre -> boundary (nkind n) = false) ->
  find_loop (pre ++ l :: rest) = Some l.
Proof.
  induction pre as [|x pre IH]; intros l rest HL HB; cbn [app find_loop].
  - destruct (nkind l); cbn in HL; auto; discriminate.
  - specialize (HB x (or_introl eq_refl)) as HX. assert (HI : find_loop (pre ++ l :: rest) = Some l).
    { apply IH; auto. intros n Hn. apply HB; right; auto. }
    destruct (nkind x); cbn in HX; auto; discriminate.
Qed.

Lemma work_trigger : forall n anc, trigger (nkind n) = true -> work (n :: anc) = work_loop (n :: anc).
Proof. intros n anc H. cbn [work]. destruct (nkind n); cbn in H; auto; discriminate. Qed.

Lemma inside_path : forall l n, inside l n -> exists pre, chain (n :: pre ++ [l]) /\
  forall m, In m pre -> boundary (nkind m) = false.
Proof.
  induction 1 as [t c H|t c n H HB HI (pre & HC & HP)].
  - exists []. cbn. split; [auto|]. intros m [].
  - exists (pre ++ [c]). split.
    + clear HP. assert (HH : forall (q : list node) x, chain (x :: q ++ [c]) -> chain (x :: (q ++ [c]) ++ [t])).
      { induction q as [|y q IHq]; intros x HX.
        - cbn in *. tauto.
        - destruct HX as (HX1 & HX2). split; auto. apply IHq. auto. }
      apply HH. auto.
    + intros m Hm. apply in_app_iff in Hm. destruct Hm as [Hm|[<-|[]]]; auto.
Qed.

Lemma path_inside : forall pre n l, chain (n :: pre ++ [l]) -> (forall m, In m pre -> boundary (nkind m) = false) -> inside l n.
Proof.
  induction pre as [|x pre IH]; intros n l HC HB.
  - cbn in HC. apply inside_child. tauto.
  - destruct HC as (H1 & H2). assert (HX : inside l x) by (apply IH; auto; intros m Hm; apply HB; right; auto).
    clear IH H2. specialize (HB x (or_introl eq_refl)).
    induction HX as [t c H|t c m H HB' HI IHI].
    + eapply inside_deep; eauto. apply inside_child; auto.
    + eapply inside_deep; eauto.
Qed.

Lemma find_none_boundary : forall anc, find_loop anc = None <->
  (forall pre l rest, anc = pre ++ l :: rest -> is_loop (nkind l) = true ->
     exists m, In m pre /\ (nkind m = KClosure \/ nkind m = KContextual)).
Proof.
  induction anc as [|x anc IH]; cbn [find_loop].
  - split; auto. intros _ pre l rest E. destruct pre; discriminate.
  - split.
    + intros H pre l rest E HL. destruct pre as [|y pre]; inversion E; subst.
      * destruct (nkind l); cbn in HL; discriminate.
      * destruct (nkind y) eqn:EK; try discriminate;
          try (destruct (proj1 IH H pre l rest eq_refl HL) as (m & Hm & HK); exists m; split; [right; auto|auto]);
          exists y; split; auto; left; auto.
    + intros H.
      assert (HR : nkind x <> KClosure -> nkind x <> KContextual -> find_loop anc = None).
      { intros N1 N2. apply IH. intros pre l rest -> HL. destruct (H (x :: pre) l rest eq_refl HL) as (m & [<-|Hm] & HK).
        - tauto.
        - eauto. }
      destruct (nkind x) eqn:EK; try (apply HR; congruence); auto.
      * destruct (H [] x anc eq_refl) as (m & [] & _). rewrite EK. auto.
      * destruct (H [] x anc eq_refl) as (m & [] & _). rewrite EK. auto.
Qed.

Lemma find_loop_in : forall anc l, find_loop anc = Some l -> In l anc /\ is_loop (nkind l) = true.
Proof.
  induction anc as [|x anc IH]; intros l H; [discriminate|]. cbn [find_loop] in H.
  destruct (nkind x) eqn:E; try discriminate;
    try (destruct (IH l H); split; [right; auto|auto]);
    inversion H; subst; rewrite E; split; auto; left; auto.
Qed.

(** Deciding that a tree is as the parser makes it. *)
Definition okb (t : node) : bool :=
  (negb (is_loop (nkind t)) || existsb (fun c => is_keyword (nkind c)) (children t)) &&
  (negb (is_jump (nkind t)) ||
   forallb (fun c => match children c with [] => true | _ => false end &&
                     match nkind c with KBreak | KContinue | KKeyword => true | _ => false end) (children t)).
Definition parsedb (t : node) : bool := forallb okb (nodes t).

Lemma below_nodes : forall t n, below t n -> In n (nodes t).
Proof.
  induction 1 as [[k a b cs]|[k a b cs] c n Hc H IH]; cbn; auto.
  right. apply in_flat_map. exists c. split; auto.
Qed.

Lemma first_keyword : forall cs, existsb (fun c => is_keyword (nkind c)) cs = true ->
  exists kw a b, cs = a ++ kw :: b /\ is_keyword (nkind kw) = true /\ forall c, In c a -> is_keyword (nkind c) = false.
Proof.
  induction cs as [|c cs IH]; intros H; [discriminate|]. cbn in H. destruct (is_keyword (nkind c)) eqn:E.
  - exists c, [], cs. repeat split; auto. intros x [].
  - destruct (IH H) as (kw & a & b & -> & H1 & H2). exists kw, (c :: a), b. repeat split; auto. intros x [<-|Hx]; auto.
Qed.

Lemma parsedb_ok : forall t, parsedb t = true -> parsed t.
Proof.
  intros t H u HU. apply below_nodes in HU. unfold parsedb in H. rewrite forallb_forall in H. specialize (H u HU).
  unfold okb in H. apply andb_true_iff in H. destruct H as (H1 & H2). split.
  - intros HL. rewrite loop_eq in HL. rewrite HL in H1. cbn in H1. destruct (first_keyword _ H1) as (kw & a & b & H3). exists kw. split; [rewrite loop_eq; auto|]. exists a, b. exact H3.
  - intros HJ c Hc. rewrite leaving_eq in HJ. rewrite HJ in H2. cbn in H2. rewrite forallb_forall in H2. specialize (H2 c Hc).
    apply andb_true_iff in H2. destruct H2 as (H2 & H3). destruct (children c); [|discriminate]. split; auto.
    destruct (nkind c); try discriminate; auto.
Qed.

(** No node is found twice. *)
Lemma dfs_sub : forall n, exists pre, forall m, In m (dfs n) -> In m (nodes n) /\ pre = n.
Proof.
  induction n as [k a b cs IH] using node_ind'. exists (Node k a b cs). intros m. rewrite dfs_eq. cbn [nkind children nodes].
  destruct (boundary k); [intros []|]. destruct (is_jump k).
  - intros [<-|[]]. split; auto. left; auto.
  - rewrite in_flat_map. intros (c & Hc & Hm). apply in_rev in Hc. rewrite Forall_forall in IH.
    destruct (IH c Hc) as (p & Hp). destruct (Hp m Hm) as (HN & _). split; auto. right. apply in_flat_map. eauto.
Qed.

Lemma nodup_app_inv : forall A (a b : list A), NoDup (a ++ b) -> NoDup a /\ NoDup b /\ forall x, In x a -> ~ In x b.
Proof.
  induction a as [|x a IH]; intros b H; cbn in *.
  - repeat split; auto. constructor.
  - inversion H; subst. destruct (IH b H3) as (N1 & N2 & N3). repeat split; auto.
    + constructor; auto. intros HI. apply H2. apply in_or_app; auto.
    + intros y [->|Hy] HB; [apply H2; apply in_or_app; auto|]. apply (N3 y); auto.
Qed.

Lemma nodup_app : forall A (a b : list A), NoDup a -> NoDup b -> (forall x, In x a -> ~ In x b) -> NoDup (a ++ b).
Proof.
  induction a as [|x a IH]; intros b HA HB H; auto. inversion HA; subst. cbn. constructor.
  - intros HI. apply in_app_iff in HI. destruct HI as [HI|HI]; auto. apply (H x); auto. left; auto.
  - apply IH; auto. intros y Hy. apply H; right; auto.
Qed.

Lemma go_nodup : forall cs, Forall (fun c => NoDup (nodes c) -> NoDup (dfs c)) cs -> NoDup (flat_map nodes cs) ->
  NoDup (flat_map dfs (rev cs)).
Proof.
  induction 1 as [|c cs HC HF IH]; intros HN; cbn in *; [constructor|].
  apply nodup_app_inv in HN. destruct HN as (N1 & N2 & N3).
  rewrite flat_map_app. cbn. rewrite app_nil_r. apply nodup_app; auto.
  intros m Hm HX. apply in_flat_map in Hm. destruct Hm as (d & Hd & Hm). apply in_rev in Hd.
  destruct (dfs_sub d) as (pd & Hpd). destruct (dfs_sub c) as (pc & Hpc).
  apply (N3 m); [apply Hpc; auto|]. apply in_flat_map. exists d. split; auto. apply Hpd; auto.
Qed.

Lemma dfs_nodup : forall n, NoDup (nodes n) -> NoDup (dfs n).
Proof.
  induction n as [k a b cs IH] using node_ind'. intros HN. rewrite dfs_eq. cbn [nkind children nodes] in *.
  destruct (boundary k); [constructor|]. destruct (is_jump k); [repeat constructor; auto|].
  inversion HN; subst. apply go_nodup; auto.
Qed.

Lemma jumps_nodup : forall l, NoDup (nodes l) -> NoDup (jumps l).
Proof.
  intros [k a b cs] HN. unfold jumps. cbn [children nodes] in *. inversion HN; subst.
  apply go_nodup; auto. apply Forall_forall. intros c _. apply dfs_nodup.
Qed.
