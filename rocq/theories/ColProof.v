From Coq Require Import String List Arith Bool Lia.
From Verif Require Import ColModel ColSpec.
Import ListNotations.

Lemma same_spec a b : same a b = true <-> a = b.
Proof.
  revert b. induction a as [|x a IH]; intros [|y b]; cbn; try (split; congruence).
  rewrite andb_true_iff, Nat.eqb_eq, IH. split; [intros [-> ->]; reflexivity|intros [=]; now split].
Qed.
Lemma node_ind' (P : node -> Prop) : (forall k t, P (Leaf k t)) -> (forall k cs, Forall P cs -> P (Inner k cs)) -> forall n, P n.
Proof.
  intros L I. fix F 1. intros [k t|k cs]; [apply L|]. apply I. induction cs as [|c cs IH]; constructor; [apply F|exact IH].
Qed.
Lemma is_expr_spec n : regular n -> (is_expr n = true <-> expression n).
Proof.
  intros R. split.
  - intros E. destruct R as [k t A B C|k cs A B C]; destruct k; cbn in E; try discriminate; try congruence; constructor.
  - intros []; reflexivity.
Qed.
Lemma find_leads cs e : Forall regular cs -> (find is_expr cs = Some e <-> leads cs e).
Proof.
  intros F. split.
  - induction F as [|c cs R F IH]; cbn; [discriminate|]. destruct (is_expr c) eqn:E.
    + intros [= <-]. exists [], cs. split; [reflexivity|]. split; [now apply is_expr_spec|constructor].
    + intros H. destruct (IH H) as (pre & post & -> & X & N). exists (c :: pre), post. split; [reflexivity|]. split; [assumption|].
      constructor; [|assumption]. rewrite <- is_expr_spec by assumption. congruence.
  - intros (pre & post & -> & X & N). induction pre as [|c pre IH]; cbn.
    + inversion F; subst. now rewrite (proj2 (is_expr_spec _ H1) X).
    + inversion F; subst. inversion N; subst. destruct (is_expr c) eqn:E; [exfalso; apply H3; now apply is_expr_spec|]. now apply IH.
Qed.
(** The last of a kind. *)
Lemma find_last {A} (f : A -> bool) l x : find f (rev l) = Some x <-> exists pre post, l = pre ++ x :: post /\ f x = true /\ Forall (fun y => f y = false) post.
Proof.
  split.
  - induction l as [|a l IH] using rev_ind; cbn; [discriminate|]. rewrite rev_app_distr. cbn. destruct (f a) eqn:E.
    + intros [= <-]. exists l, []. repeat split; [assumption|constructor].
    + intros H. destruct (IH H) as (pre & post & -> & X & N). exists pre, (post ++ [a]). split; [now rewrite <- app_assoc|]. split; [assumption|].
      apply Forall_app. split; [assumption|now repeat constructor].
  - intros (pre & post & -> & X & N). rewrite rev_app_distr. cbn [rev]. rewrite <- app_assoc. apply Forall_rev in N.
    induction (rev post) as [|a l IH]; cbn [app find]; [now rewrite X|]. inversion N; subst. rewrite H1. now apply IH.
Qed.
Lemma find_none {A} (f : A -> bool) l : find f (rev l) = None <-> Forall (fun y => f y = false) l.
Proof.
  rewrite <- (rev_involutive l) at 2. induction (rev l) as [|a m IH]; cbn; [now split; [constructor|reflexivity]|].
  rewrite Forall_app. destruct (f a) eqn:E.
  - split; [discriminate|]. intros [_ H]. inversion H; congruence.
  - rewrite IH. split; [intros H; split; [exact H|now repeat constructor]|now intros [H _]].
Qed.
Lemma kept_filter cs l : Forall regular cs ->
  (filter (fun m => match nkind m with KNamed | KSpread => true | _ => is_expr m end) cs = l <-> kept cs l).
Proof.
  intros F. assert (A : forall m, regular m -> (match nkind m with KNamed | KSpread => true | _ => is_expr m end = true <-> argument m)).
  { intros m R. unfold argument. rewrite <- is_expr_spec by assumption. unfold is_expr. destruct (nkind m); split; intros; try discriminate; tauto || intuition discriminate. }
  split.
  - intros <-. induction F as [|c cs R F IH]; [constructor|]. cbn [filter]. specialize (A c R).
    destruct (match nkind c with KNamed | KSpread => true | _ => is_expr c end) eqn:E; constructor; try assumption.
    + now apply A.
    + intros X. apply A in X. congruence.
  - intros K. induction K as [|m cs r X K IH|m cs r X K IH]; [reflexivity| |]; inversion F; subst; cbn [filter]; specialize (A m H1).
    + rewrite (proj2 A X). now rewrite IH.
    + destruct (match nkind m with KNamed | KSpread => true | _ => is_expr m end); [exfalso; apply X; now apply A|now apply IH].
Qed.
Definition is_args (m : node) : bool := match nkind m with KArgs => true | _ => false end.
Lemma is_args_spec m : regular m -> (is_args m = true <-> exists a, m = Inner KArgs a).
Proof.
  intros R. split.
  - unfold is_args. destruct R as [k t A B C|k cs A B C]; destruct k; cbn; try discriminate; [congruence|]. intros _. now eexists.
  - intros (a & ->). reflexivity.
Qed.
Lemma no_args post : Forall regular post -> (Forall (fun y => is_args y = false) post <-> forall b, ~ In (Inner KArgs b) post).
Proof.
  intros F. rewrite !Forall_forall in *. split.
  - intros N b I. now specialize (N _ I).
  - intros N x I. destruct (is_args x) eqn:E; [|reflexivity]. apply is_args_spec in E; [|auto]. destruct E as (a & ->). now apply N in I.
Qed.
Lemma items_spec k cs l : regular (Inner k cs) -> (items (Inner k cs) = l <-> arguments cs l).
Proof.
  intros R. inversion R as [|? ? _ _ F]; subst. unfold items, args, arguments. cbn [children]. fold is_args. split.
  - intros H. destruct (find is_args (rev cs)) as [a|] eqn:E.
    + apply find_last in E. destruct E as (pre & post & -> & X & N). apply Forall_app in F. destruct F as [_ F]. inversion F as [|? ? Ra Fp]; subst.
      apply is_args_spec in X; [|assumption]. destruct X as (b & ->). left. exists pre, b, post. split; [reflexivity|]. split; [now apply no_args|].
      inversion Ra; subst. now apply kept_filter.
    + apply find_none in E. right. split; [now apply no_args|now subst].
  - intros [(pre & a & post & -> & N & K)|[N ->]].
    + apply Forall_app in F. destruct F as [_ F]. inversion F as [|? ? Ra Fp]; subst.
      replace (find is_args (rev (pre ++ Inner KArgs a :: post))) with (Some (Inner KArgs a)).
      2: { symmetry. apply find_last. exists pre, post. split; [reflexivity|]. split; [reflexivity|]. now apply no_args. }
      cbn [children]. inversion Ra; subst. now apply kept_filter.
    + replace (find is_args (rev cs)) with (@None node) by (symmetry; apply find_none; now apply no_args). reflexivity.
Qed.
Lemma last_ident_spec fs name : Forall regular fs ->
  ((exists k, last_ident (Inner KFieldAccess fs) = Some (Leaf k name)) <-> exists pre post, fs = pre ++ Leaf KIdent name :: post /\ forall t, ~ In (Leaf KIdent t) post).
Proof.
  intros F. unfold last_ident. cbn [children].
  assert (I : forall l, Forall (fun y => is_ident y = false) l <-> forall t, ~ In (Leaf KIdent t) l).
  { intros l. rewrite Forall_forall. split.
    - intros N t X. now specialize (N _ X).
    - intros N [[] t|] X; try reflexivity. now apply N in X. }
  split.
  - intros (k & H). apply find_last in H. destruct H as (pre & post & -> & X & N). destruct k; try discriminate. exists pre, post. split; [reflexivity|]. now apply I.
  - intros (pre & post & -> & N). exists KIdent. apply find_last. exists pre, post. split; [reflexivity|]. split; [reflexivity|]. now apply I.
Qed.

Section W.
Variables (hex : text -> option rgba) (ev : node -> option rgba).
Notation work := (work hex ev).
Notation on_call := (on_call hex ev).
Notation on_name := (on_name hex ev).

Definition go := fix go o cs := match cs with [] => [] | c :: r => work o c ++ go (o + len c) r end.
Lemma work_inner o k cs : work o (Inner k cs) = if skipped (Inner k cs) then [] else (match k with KFuncCall => on_call o (Inner k cs) | _ => [] end) ++ go o cs.
Proof. reflexivity. Qed.

Lemma on_name_spec o k cs name i : regular (Inner k cs) ->
  (In i (on_name o (Inner k cs) name) <-> exists c l, i = mkInfo o (o + len (Inner k cs)) c /\ arguments cs l /\
    ((name = lit "rgb" /\ exists t, l = [Leaf KStr t] /\ hex t = Some c) \/
     (name = lit "rgb" /\ 2 <= length l /\ ev (Inner k cs) = Some c) \/
     (In name [lit "luma"; lit "oklab"; lit "oklch"; lit "linear-rgb"; lit "cmyk"; lit "hsl"; lit "hsv"] /\ ev (Inner k cs) = Some c))).
Proof.
  intros R. set (n := Inner k cs) in *. unfold ColModel.on_name. destruct (same name (lit "rgb")) eqn:S.
  - apply same_spec in S. subst name. unfold on_rgb. pose proof (proj1 (items_spec k cs _ R) eq_refl) as A. fold n in A.
    assert (U : forall l, arguments cs l -> l = items n) by (intros l X; symmetry; now apply (items_spec k cs l R)).
    assert (NI : ~ In (lit "rgb") [lit "luma"; lit "oklab"; lit "oklch"; lit "linear-rgb"; lit "cmyk"; lit "hsl"; lit "hsv"]) by (vm_compute; intuition discriminate).
    split.
    + intros H. destruct (items n) as [|x [|y l]] eqn:E; [destruct H| |].
      * assert (exists t, x = Leaf KStr t) as (t & ->) by (destruct x as [[]|]; cbn in H; try contradiction; now eexists).
        destruct (hex t) as [c|] eqn:HC; cbn in H; [|contradiction]. destruct H as [<-|[]].
        exists c, [Leaf KStr t]. split; [reflexivity|]. split; [assumption|]. left. split; [reflexivity|]. now exists t.
      * assert (H' : In i (on_const_call ev o n)) by (destruct x as [[]|]; exact H).
        unfold on_const_call in H'. destruct (ev n) as [c|] eqn:V; [|destruct H']. destruct H' as [<-|[]].
        exists c, (x :: y :: l). split; [reflexivity|]. split; [assumption|]. right. left. repeat split. cbn. lia.
    + intros (c & l & -> & B & D). apply U in B. rewrite <- B. destruct D as [(_ & t & -> & H)|[(_ & H & V)|[H _]]].
      * rewrite H. now left.
      * destruct l as [|x [|y l]]; cbn in H; try lia. assert (X : on_const_call ev o n = [mkInfo o (o + len n) c]) by (unfold on_const_call; now rewrite V).
        destruct x as [[]|]; rewrite X; now left.
      * contradiction.
  - assert (NE : name <> lit "rgb") by (intros ->; rewrite (proj2 (same_spec _ _) eq_refl) in S; discriminate).
    destruct (existsb (same name) _) eqn:X.
    + apply existsb_exists in X. destruct X as (y & I & Y). apply same_spec in Y. subst y. unfold on_const_call. split.
      * destruct (ev n) as [c|] eqn:V; [|intros []]. intros [<-|[]]. exists c, (items n). split; [reflexivity|]. split; [now apply (items_spec k cs _ R)|]. right. right. now split.
      * intros (c & l & -> & _ & [[? _]|[[? _]|[_ V]]]); try contradiction. rewrite V. now left.
    + split; [intros []|]. intros (c & l & _ & _ & [[? _]|[[? _]|[I _]]]); try contradiction.
      enough (existsb (same name) [lit "luma"; lit "oklab"; lit "oklch"; lit "linear-rgb"; lit "cmyk"; lit "hsl"; lit "hsv"] = true) by congruence.
      apply existsb_exists. exists name. split; [assumption|now apply same_spec].
Qed.
Lemma on_call_spec o cs i : regular (Inner KFuncCall cs) ->
  (In i (on_call o (Inner KFuncCall cs)) <-> exists c, i = mkInfo o (o + len (Inner KFuncCall cs)) c /\ stands hex ev (Inner KFuncCall cs) c).
Proof.
  intros R. set (n := Inner KFuncCall cs) in *. assert (F : Forall regular cs) by (now inversion R).
  assert (S : forall name, called cs name -> In i (on_name o n name) -> exists c, i = mkInfo o (o + len n) c /\ stands hex ev n c).
  { intros name C H. apply (on_name_spec o KFuncCall cs name i R) in H. destruct H as (c & l & -> & A & D). exists c. split; [reflexivity|]. exists cs, name, l. now repeat split. }
  assert (FR : forall e, leads cs e -> regular e).
  { intros e (pre & post & -> & _). apply Forall_app in F. destruct F as [_ F]. now inversion F. }
  split.
  - unfold ColModel.on_call, first_expr. change (children n) with cs. intros H. destruct (find is_expr cs) as [e|] eqn:E; [|destruct H].
    apply find_leads in E; [|assumption]. pose proof (FR e E) as Re. destruct e as [k t|k fs].
    + destruct k; cbn in H; try contradiction. apply (S t); [now left|exact H].
    + destruct k; try contradiction. cbn [children] in H. destruct (find is_expr fs) as [t|] eqn:T; [|destruct H].
      assert (Ff : Forall regular fs) by (now inversion Re).
      apply find_leads in T; [|assumption]. destruct t as [[] t|]; try contradiction. destruct (same t (lit "color")) eqn:Q; [|destruct H]. apply same_spec in Q. subst t.
      destruct (last_ident (Inner KFieldAccess fs)) as [[k name|]|] eqn:LI; try contradiction. apply (S name); [|exact H]. right. exists fs.
      split; [assumption|]. split; [assumption|]. apply last_ident_spec; [assumption|now exists k].
  - intros (c & -> & cs' & name & l & EQ & C & A & D). injection EQ as <-.
    assert (H : In (mkInfo o (o + len n) c) (on_name o n name)) by (apply (on_name_spec o KFuncCall cs name _ R); exists c, l; now repeat split).
    unfold ColModel.on_call, first_expr. change (children n) with cs. destruct C as [C|(fs & C & T & P)].
    + apply find_leads in C; [|assumption]. now rewrite C.
    + pose proof (FR _ C) as Re. apply find_leads in C; [|assumption]. rewrite C. cbn [children]. assert (Ff : Forall regular fs) by (now inversion Re).
      apply find_leads in T; [|assumption]. rewrite T. rewrite (proj2 (same_spec _ _) eq_refl). apply last_ident_spec in P; [|assumption]. destruct P as (k & ->). exact H.
Qed.
Lemma go_spec o cs i : In i (go o cs) <-> exists pre c post, cs = pre ++ c :: post /\ In i (work (o + list_sum (map len pre)) c).
Proof.
  revert o. induction cs as [|c cs IH]; intros o; cbn.
  - split; [intros []|]. intros ([|? ?] & ? & ? & H & _); discriminate.
  - rewrite in_app_iff. split.
    + intros [H|H]; [exists [], c, cs; cbn; rewrite Nat.add_0_r; now split|]. apply IH in H. destruct H as (pre & d & post & -> & H).
      exists (c :: pre), d, post. split; [reflexivity|]. cbn. now rewrite Nat.add_assoc.
    + intros ([|p pre] & d & post & E & H); cbn in E; injection E as -> ->; [cbn in H; rewrite Nat.add_0_r in H; now left|].
      right. apply IH. exists pre, d, post. split; [reflexivity|]. cbn in H. now rewrite Nat.add_assoc in H.
Qed.
Lemma skipped_inner k cs : skipped (Inner k cs) = false <-> k <> KTrivia /\ k <> KKeyword /\ k <> KError.
Proof. unfold skipped. cbn. destruct k; split; intros H; repeat split; try discriminate; try reflexivity; destruct H as (A & B & C); congruence. Qed.
Lemma work_spec n : regular n -> forall o i, In i (work o n) <->
  exists o' m c, below o n o' m /\ stands hex ev m c /\ i = mkInfo o' (o' + len m) c.
Proof.
  induction n as [k t|k cs IH] using node_ind'; intros R o i.
  - split.
    + intros H. exfalso. cbn in H. inversion R; subst. destruct (skipped (Leaf k t)); [destruct H|]. destruct k; cbn in H; try contradiction; congruence.
    + intros (o' & m & c & B & (cs & ? & ? & -> & _) & _). inversion B.
  - rewrite work_inner. assert (F : Forall regular cs) by (now inversion R). rewrite Forall_forall in IH, F. split.
    + intros H. destruct (skipped (Inner k cs)) eqn:SK; [destruct H|]. apply in_app_or in H. destruct H as [H|H].
      * destruct k; try contradiction. apply on_call_spec in H; [|assumption]. destruct H as (c & -> & S). exists o, (Inner KFuncCall cs), c. now repeat split; [constructor|].
      * apply go_spec in H. destruct H as (pre & d & post & -> & H).
        assert (I : In d (pre ++ d :: post)) by (apply in_or_app; right; now left).
        apply IH in H; [|assumption|now apply F]. destruct H as (o' & m & c & B & S & ->). exists o', m, c. split; [|now split].
        apply skipped_inner in SK. destruct SK as (A1 & A2 & A3). now constructor.
    + intros (o' & m & c & B & S & ->). inversion B as [|? ? pre d post ? ? A1 A2 A3 B' E]; subst.
      * destruct S as (cs' & name & l & E & S). injection E as -> ->. cbn [skipped nkind]. apply in_or_app. left. apply on_call_spec; [assumption|].
        exists c. split; [reflexivity|]. now exists cs', name, l.
      * rewrite (proj2 (skipped_inner k _)) by now repeat split. apply in_or_app. right. apply go_spec. exists pre, d, post. split; [reflexivity|].
        assert (I : In d (pre ++ d :: post)) by (apply in_or_app; right; now left). apply IH; [assumption|now apply F|]. now exists o', m, c.
Qed.

(** The order. *)
Lemma below_range o n o' m : below o n o' m -> o <= o' /\ o' + len m <= o + len n.
Proof.
  intros B. induction B as [|o k pre c post o' m _ _ _ B IH]; [lia|]. cbn [len]. rewrite map_app, list_sum_app. cbn. lia.
Qed.
Lemma range n o i : regular n -> In i (work o n) -> o <= i_start i /\ i_end i <= o + len n /\ i_start i < i_end i.
Proof.
  intros R H. apply work_spec in H; [|assumption]. destruct H as (o' & m & c & B & S & ->). cbn [i_start i_end]. apply below_range in B.
  enough (0 < len m) by lia. destruct S as (cs & name & l & -> & C & _ & D).
  assert (N : 0 < length name).
  { destruct D as [(-> & _)|[(-> & _)|[I _]]]; [cbn; lia|cbn; lia|]. repeat (destruct I as [<-|I]; [cbn; lia|]). destruct I. }
  destruct C as [(pre & post & -> & _)|(fs & (pre & post & -> & _) & (p & q & -> & _) & _)].
  - cbn [len]. rewrite map_app, list_sum_app. cbn. lia.
  - cbn [len]. rewrite map_app, list_sum_app. cbn. rewrite map_app, list_sum_app. cbn. lia.
Qed.
Lemma sum_in c cs : In c cs -> len c <= list_sum (map len cs).
Proof. intros I. apply in_split in I. destruct I as (a & b & ->). rewrite map_app, list_sum_app. cbn. lia. Qed.
(** A node within one of two children is smaller by the other. *)
Lemma two pre e post pre' d post' : pre ++ e :: post = pre' ++ d :: post' -> d = e \/ len d + len e <= list_sum (map len (pre ++ e :: post)).
Proof.
  revert pre'. induction pre as [|p pre IH]; intros [|p' pre'] E; cbn in E; injection E as E0 E.
  - now left.
  - right. subst. cbn. rewrite map_app, list_sum_app. cbn. lia.
  - right. subst. cbn. rewrite map_app, list_sum_app. cbn. lia.
  - destruct (IH pre' E) as [H|H]; [now left|right; unfold list_sum in *; cbn in *; lia].
Qed.
Lemma below_inner o k fs o' m : below o (Inner k fs) o' m -> m <> Inner k fs -> exists pre d post q, fs = pre ++ d :: post /\ below q d o' m.
Proof. intros B N. inversion B; subst; [congruence|]. repeat eexists. eassumption. Qed.
Lemma smaller cs m c o o' pre d post : stands hex ev (Inner KFuncCall cs) c -> cs = pre ++ d :: post ->
  below o d o' m -> (exists ms, m = Inner KFuncCall ms) -> len m < len (Inner KFuncCall cs).
Proof.
  intros (cs' & name & l & E & C & _ & D) EQ B (ms & ->). injection E as <-. cbn [len].
  assert (N : 0 < length name).
  { destruct D as [(-> & _)|[(-> & _)|[I _]]]; [cbn; lia|cbn; lia|]. repeat (destruct I as [<-|I]; [cbn; lia|]). destruct I. }
  pose proof (below_range _ _ _ _ B) as RB. cbn [len] in RB.
  destruct C as [(p & q & E & _)|(fs & (p & q & E & _) & (p' & q' & E' & _) & _)].
  - rewrite E in EQ. destruct (two _ _ _ _ _ _ EQ) as [->|H]; [inversion B|]. rewrite E. cbn [len] in H. lia.
  - assert (L : 5 <= len (Inner KFieldAccess fs)) by (subst fs; cbn [len]; rewrite map_app, list_sum_app; cbn; lia).
    rewrite E in EQ |- *. destruct (two _ _ _ _ _ _ EQ) as [->|H]; [|cbn [len] in *; lia].
    destruct (below_inner _ _ _ _ _ B) as (pre2 & d2 & post2 & q2 & E2 & B2); [discriminate|].
    pose proof E' as E3. rewrite E2 in E3. destruct (two _ _ _ _ _ _ (eq_sym E3)) as [->|H2]. { inversion B2. }
    rewrite <- E' in H2. apply below_range in B2. pose proof (sum_in (Inner KFieldAccess fs) (p ++ Inner KFieldAccess fs :: q)) as SI.
    cbn [len] in *. cbn [length lit] in H2. assert (In (Inner KFieldAccess fs) (p ++ Inner KFieldAccess fs :: q)) by (apply in_or_app; right; now left). specialize (SI H). lia.
Qed.
Lemma ordered n : regular n -> forall o, ForallOrdPairs precedes (work o n).
Proof.
  induction n as [k t|k cs IH] using node_ind'; intros R o.
  - cbn. destruct (skipped (Leaf k t)); [constructor|]. inversion R; subst. destruct k; cbn; try constructor; congruence.
  - rewrite work_inner. destruct (skipped (Inner k cs)) eqn:SK; [constructor|].
    assert (F : Forall regular cs) by (now inversion R).
    assert (G : forall o, ForallOrdPairs precedes (go o cs)).
    { clear R SK. induction F as [|c cs Rc F IHc]; intros q; cbn; [constructor|]. inversion IH; subst. specialize (H1 Rc q).
      assert (X : forall i j, In i (work q c) -> In j (go (q + len c) cs) -> precedes i j).
      { intros i j I J. apply range in I; [|assumption]. apply go_spec in J. destruct J as (pre & d & post & -> & J).
        apply range in J; [|rewrite Forall_forall in F; apply F, in_or_app; right; now left]. left. lia. }
      specialize (IHc H2 (q + len c)). induction H1 as [|i l A B IHl]; [exact IHc|]. cbn. constructor.
      - apply Forall_app. split; [assumption|]. apply Forall_forall. intros j J. apply X; [now left|assumption].
      - apply IHl. intros a b I J. apply X; [now right|assumption]. }
    destruct k; cbn [app]; try apply G.
    assert (P : forall i j, In i (on_call o (Inner KFuncCall cs)) -> In j (go o cs) -> precedes i j).
    { intros i j I J. apply on_call_spec in I; [|assumption]. destruct I as (c & -> & S). apply go_spec in J. destruct J as (pre & d & post & E & J).
      apply work_spec in J; [|rewrite Forall_forall in F; apply F; subst; apply in_or_app; right; now left]. destruct J as (o' & m & c' & B & S' & ->).
      assert (M : exists ms, m = Inner KFuncCall ms) by (destruct S' as (ms & ? & ? & -> & _); now exists ms).
      pose proof (smaller _ _ _ _ _ _ _ _ S E B M) as L. apply below_range in B. right. cbn [i_start i_end].
      assert (T : len (Inner KFuncCall cs) = list_sum (map len pre) + (len d + list_sum (map len post))) by (subst cs; cbn [len]; rewrite map_app, list_sum_app; reflexivity).
      lia. }
    assert (L : exists x, on_call o (Inner KFuncCall cs) = x /\ (x = [] \/ exists i, x = [i])).
    { eexists. split; [reflexivity|]. unfold ColModel.on_call, ColModel.on_name, on_rgb, on_const_call.
      repeat match goal with |- context [match ?x with _ => _ end] => destruct x; try (now left); try (right; now eexists) end. }
    destruct L as (x & E & [->|(i & ->)]); rewrite E in *; cbn [app]; [apply G|]. constructor; [|apply G].
    apply Forall_forall. intros j J. apply P; [now left|assumption].
Qed.
End W.
