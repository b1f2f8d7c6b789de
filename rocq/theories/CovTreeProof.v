(** The new text is that of a tree of the program with the calls that count. *)
From Coq Require Import String Ascii List Arith Bool Lia.
From Verif Require Import CovModel CovSpec CovProof.
Import ListNotations.
Local Open Scope nat_scope.
Local Open Scope list_scope.

Scheme tree_mind := Minimality for tree Sort Prop
  with code_mind := Minimality for code Sort Prop
  with markup_mind := Minimality for markup Sort Prop.
Combined Scheme trees_mind from tree_mind, code_mind, markup_mind.

(** ** Texts and marks *)
Definition tx (r : list piece * list (nat * mkind)) : list nat := flat_map text_of_piece (fst r).

Definition vs (l : list node) (i : nat) := seq_with (visit Visit) l i.

Lemma seq_app : forall A (f : A -> nat -> list piece * list (nat * mkind)) a b i,
  tx (seq_with f (a ++ b) i) = tx (seq_with f a i) ++ tx (seq_with f b (i + length (snd (seq_with f a i)))) /\
  snd (seq_with f (a ++ b) i) = snd (seq_with f a i) ++ snd (seq_with f b (i + length (snd (seq_with f a i)))).
Proof.
  intros A f a. induction a as [|c a IH]; intros b i.
  - cbn. rewrite Nat.add_0_r. split; reflexivity.
  - cbn [app]. rewrite (seq_with_eq A f (c :: a ++ b)), (seq_with_eq A f (c :: a)). unfold tx. cbn [fst snd].
    rewrite !flat_map_app, app_length, Nat.add_assoc.
    destruct (IH b (i + length (snd (f c i)))) as [I1 I2]. unfold tx in I1. rewrite I1, I2.
    rewrite <- !app_assoc. split; reflexivity.
Qed.

Lemma seq_cons : forall A (f : A -> nat -> list piece * list (nat * mkind)) c l i,
  tx (seq_with f (c :: l) i) = tx (f c i) ++ tx (seq_with f l (i + length (snd (f c i)))) /\
  snd (seq_with f (c :: l) i) = snd (f c i) ++ snd (seq_with f l (i + length (snd (f c i)))).
Proof.
  intros. rewrite (seq_with_eq A f (c :: l)). unfold tx. cbn [fst snd]. rewrite flat_map_app. split; reflexivity.
Qed.

Lemma seq_ext : forall A (f g : A -> nat -> list piece * list (nat * mkind)) l,
  (forall c, In c l -> forall i, f c i = g c i) -> forall i, seq_with f l i = seq_with g l i.
Proof.
  intros A f g l. induction l as [|c l IH]; intros H i; [reflexivity|].
  rewrite (seq_with_eq A f), (seq_with_eq A g). rewrite H by (left; reflexivity). rewrite IH; [reflexivity|].
  intros. apply H. right. assumption.
Qed.

(** Nodes without marks in which nothing is added. *)
Definition inert (n : node) : Prop := forall i, tx (visit Visit n i) = src n /\ snd (visit Visit n i) = [].

Lemma inert_leaf : forall k sp t, k <> KBlock -> k <> KContext -> inert (Node k sp t []).
Proof.
  intros k sp t H1 H2 i. unfold tx. rewrite visit_eq. destruct k; try congruence; cbn; destruct t; cbn; rewrite ?app_nil_r; split; reflexivity.
Qed.

Lemma inert_seq : forall l i, Forall inert l -> tx (vs l i) = flat_map src l /\ snd (vs l i) = [].
Proof.
  intros l. induction l as [|c l IH]; intros i H; [split; reflexivity|]. inversion H; subst.
  unfold vs. destruct (seq_cons node (visit Visit) c l i) as [-> ->]. destruct (H2 i) as [-> ->].
  cbn [length app]. rewrite Nat.add_0_r. destruct (IH i H3) as [I1 I2]. unfold vs in *. rewrite I1, I2. split; reflexivity.
Qed.

Lemma inert_white : forall w, white w -> Forall inert w.
Proof.
  intros w H. eapply Forall_impl; [|exact H]. intros n (sp & t & -> & _). apply inert_leaf; discriminate.
Qed.

Lemma inert_node : forall sp l, Forall inert l -> inert (Node KToken sp [] l).
Proof.
  intros sp l H i. rewrite visit_eq. cbn [vplain].
  rewrite (seq_ext _ _ (visit Visit)) by reflexivity.
  destruct (inert_seq l i H) as [H1 H2]. unfold vs, tx in *.
  destruct (seq_with (visit Visit) l i) as [p m]. cbn [fst snd own ntext app src] in *. split; assumption.
Qed.

(** The children of a node, as a body and not as a body. *)
Definition kids (md : option (nat * nat)) (n : node) (i : nat) : list piece * list (nat * mkind) :=
  match md with
  | None => seq_with (fun c i => visit (child_mode (nkind n) (children n) c) c i) (children n) i
  | Some _ => seq_with (visit Visit) (children n) i
  end.

Definition zeros (n : node) : Prop :=
  nspan n = 0 /\ first_span (children n) = 0 /\ last_span (children n) = 0.

Definition innerQ (e : expr) (n : node) : Prop :=
  spans_ok n -> forall md i, exists n',
    tree (fst (innerT T md e i)) n' /\ zeros n' /\
    src n' = ntext n ++ tx (kids md n i) /\ snd (innerT T md e i) = snd (kids md n i).

Definition md_ok (md : option (nat * nat)) (n : node) : Prop :=
  md = None \/ md = Some (first_span (children n), last_span (children n)).

Definition mode_of (md : option (nat * nat)) : mode := match md with None => Visit | Some _ => Block end.

Definition TQ (e : expr) (n : node) : Prop :=
  spans_ok n -> forall md i, md_ok md n -> exists n',
    tree (fst (T md e i)) n' /\ zeros n' /\
    src n' = tx (visit (mode_of md) n i) /\ snd (T md e i) = snd (visit (mode_of md) n i).

Lemma tree_kind : forall e n, tree e n -> is_expr n = true /\ nkind n <> KContext /\
  (nkind n = KBlock <-> is_block e).
Proof. intros e n H. inversion H; subst; repeat split; try discriminate; cbn; try tauto; intro; try discriminate; try contradiction. Qed.

Lemma own_tx : forall n, flat_map text_of_piece (own n) = ntext n.
Proof. intros [k sp [|c t] cs]; cbn; [|rewrite app_nil_r]; reflexivity. Qed.

(** Around a block. *)
Definition pcnode (i : nat) : node :=
  Node KExpr 0 [] [Node KExpr 0 (codes "__cov_pc") []; Node KToken 0 [] [leaf 0 (codes "("); Node KExpr 0 (dec (S i) i) []; leaf 0 (codes ")")]].

Lemma pcnode_tree : forall i, tree (EPc i) (pcnode i).
Proof. intro i. apply tree_pc. apply dec_step. lia. Qed.

Definition wrapped (i : nat) (n : node) (j : nat) : node :=
  Node KBlock 0 []
    [leaf 0 (codes "{");
     Node KToken 0 [] [leaf 0 [10]; pcnode i; leaf 0 [59; 10]; n; leaf 0 [10]; pcnode j; leaf 0 [59; 10]];
     leaf 0 (codes "}")].

Lemma white_one : forall t, t <> [] -> Forall whitec t -> white [leaf 0 t].
Proof. intros t H1 H2. constructor; [|constructor]. exists 0, t. auto. Qed.

Lemma white10 : white [leaf 0 [10]].
Proof. apply white_one; [discriminate|]. constructor; [cbn; tauto|constructor]. Qed.
Lemma white59 : white [leaf 0 [59; 10]].
Proof. apply white_one; [discriminate|]. constructor; [cbn; tauto|constructor; [cbn; tauto|constructor]]. Qed.

Lemma wrapped_tree : forall i n j e, tree e n -> tree (EBlock 0 0 [EPc i; e; EPc j]) (wrapped i n j).
Proof.
  intros i n j e H. apply tree_block.
  apply (code_cons [leaf 0 [10]] (EPc i) (pcnode i)); [apply white10|apply pcnode_tree| |right].
  - apply (code_cons [leaf 0 [59; 10]] e n); [apply white59|exact H| |right].
    + apply (code_cons [leaf 0 [10]] (EPc j) (pcnode j)); [apply white10|apply pcnode_tree| |left; reflexivity].
      apply code_nil, white59.
    + exists 0, 10, [], [pcnode j; leaf 0 [59; 10]]. auto.
  - exists 0, 59, [10], [n; leaf 0 [10]; pcnode j; leaf 0 [59; 10]]. auto.
Qed.

Lemma wrapped_src : forall i n j,
  src (wrapped i n j) = codes "{" ++ [10] ++ text_of_piece (Pc i) ++ src n ++ [10] ++ text_of_piece (Pc j) ++ codes "}".
Proof.
  intros i n j. cbn [wrapped src flat_map app leaf pcnode text_of_piece].
  rewrite !app_nil_r. repeat (cbn [app] || rewrite <- app_assoc || rewrite app_nil_r). reflexivity.
Qed.

Lemma T_of_inner : forall e n, tree e n -> innerQ e n -> TQ e n.
Proof.
  intros e n Ht HQ Hs md i Hmd. destruct (tree_kind e n Ht) as (Hx & Hc & Hb).
  assert (HW : forall o c, blocky md e = Some (o, c) -> o = first_span (children n) /\ c = last_span (children n) ->
    visit (mode_of md) n i = vblock n i -> kids md n (S i) = vs (children n) (S i) ->
    exists n', tree (fst (T md e i)) n' /\ zeros n' /\
    src n' = tx (visit (mode_of md) n i) /\ snd (T md e i) = snd (visit (mode_of md) n i)).
  { intros o c Hbl [Ho Hcl] Hv Hk. destruct (HQ Hs md (S i)) as (n' & H1 & H2 & H3 & H4).
    exists (wrapped i n' (S i + length (snd (innerT T md e (S i))))).
    rewrite T_eq, Hbl. destruct (innerT T md e (S i)) as [e1 m1] eqn:E1. cbn [wrap fst snd] in *.
    split; [apply wrapped_tree; exact H1|]. split; [repeat split|].
    rewrite Hv. unfold vblock. rewrite Hk in H3, H4. unfold vs, tx in *.
    destruct (seq_with (visit Visit) (children n) (S i)) as [p m]. cbn [fst snd] in *. subst m1.
    split; [|rewrite Ho, Hcl; reflexivity].
    rewrite wrapped_src, H3. rewrite !flat_map_app, own_tx. cbn [flat_map text_of_piece].
    rewrite !app_nil_r. repeat (cbn [app] || rewrite <- app_assoc). reflexivity. }
  destruct (blocky md e) as [[o c]|] eqn:Eb.
  - assert (Hbb : nkind n = KBlock \/ nkind n <> KBlock) by (destruct (nkind n); (left; reflexivity) || (right; discriminate)).
    destruct Hbb as [Hk|Hk].
    + apply (HW o c eq_refl).
      * inversion Ht; subst; try discriminate. cbn in Eb. injection Eb as <- <-. split; reflexivity.
      * destruct md; cbn [mode_of]; rewrite visit_eq; [reflexivity|]. destruct n as [k sp t cs]. cbn in Hk. subst k. reflexivity.
      * destruct md; [reflexivity|]. cbn [kids]. rewrite Hk. apply seq_ext. reflexivity.
    + assert (Hnb : ~ is_block e) by (intro; apply Hk, Hb; assumption).
      assert (Hmd' : md = Some (o, c)). { destruct e; try exact Eb. exfalso. apply Hnb. exact I. }
      subst md. destruct Hmd as [Hmd|Hmd]; [discriminate|]. injection Hmd as Ho Hcl.
      apply (HW o c eq_refl); [split; assumption| |reflexivity]. cbn [mode_of]. rewrite visit_eq. reflexivity.
  - assert (Hnb : ~ is_block e). { intro H. destruct e; try contradiction. discriminate. }
    assert (Hmd' : md = None). { destruct e; try exact Eb. exfalso. apply Hnb. exact I. }
    subst md. destruct (HQ Hs None i) as (n' & H1 & H2 & H3 & H4). exists n'.
    rewrite T_eq, Eb. cbn [mode_of]. rewrite visit_eq.
    assert (Hv : tx (vplain n i) = ntext n ++ tx (kids None n i) /\ snd (vplain n i) = snd (kids None n i)).
    { destruct n as [k sp t cs]. unfold kids. cbn [nkind children ntext] in *.
      destruct k; try congruence; try (exfalso; apply Hnb, Hb; reflexivity); cbn [vplain];
        (match goal with |- context [seq_with ?f cs i] => destruct (seq_with f cs i) as [p m] end; unfold tx; cbn [fst snd];
         rewrite flat_map_app, own_tx; cbn [ntext]; split; reflexivity). }
    destruct Hv as [Hv1 Hv2]. rewrite Hv1, Hv2. auto.
Qed.

(** ** Spans *)
Lemma spans_all : forall l,
  (fix go l := match l with [] => True | c :: l' => spans_ok c /\ go l' end) l <-> Forall spans_ok l.
Proof.
  induction l as [|c l IH]; split; intro H; auto.
  - constructor; [apply H|apply IH, H].
  - inversion H; subst. split; [assumption|]. apply IH. assumption.
Qed.

Lemma spans_node : forall k sp t cs, spans_ok (Node k sp t cs) -> NoDup (map nspan cs) /\ Forall spans_ok cs.
Proof. intros k sp t cs (_ & H1 & H2). split; [exact H1|]. apply spans_all, H2. Qed.

Lemma span_pos : forall n, spans_ok n -> nspan n <> 0.
Proof. intros [k sp t cs] (H & _). exact H. Qed.

(** ** Bodies are found *)
Lemma exprs_app : forall a b, exprs (a ++ b) = exprs a ++ exprs b.
Proof. intros. unfold exprs. apply filter_app. Qed.

Lemma last_expr_last : forall pre b, is_expr b = true -> last_expr (pre ++ [b]) = Some b.
Proof.
  intros pre b H. unfold last_expr. rewrite exprs_app. cbn [exprs filter]. rewrite H.
  change (filter is_expr []) with (@nil node). rewrite rev_app_distr. reflexivity.
Qed.

Lemma nodup_ne : forall (pre : list node) b post c, NoDup (map nspan (pre ++ b :: post)) -> In c (pre ++ post) -> nspan c <> nspan b.
Proof.
  intros pre b post c H Hin E. rewrite map_app in H. cbn [map] in H. apply NoDup_remove_2 in H. apply H.
  rewrite <- map_app, <- E. apply in_map. exact Hin.
Qed.

Lemma kids_last : forall md k sp pre b i, (k = KWhile \/ k = KFor \/ k = KClosure) -> is_expr b = true ->
  NoDup (map nspan (pre ++ [b])) -> Forall spans_ok (pre ++ [b]) ->
  let n := Node k sp [] (pre ++ [b]) in
  let r := visit (match md with None => Block | Some _ => Visit end) b (i + length (snd (vs pre i))) in
  tx (kids md n i) = tx (vs pre i) ++ tx r /\ snd (kids md n i) = snd (vs pre i) ++ snd r.
Proof.
  intros md k sp pre b i Hk Hb Hn Hs n r.
  assert (H1 : forall f, f = (fun c i => visit (match md with None => child_mode k (pre ++ [b]) c | Some _ => Visit end) c i) ->
     tx (seq_with f (pre ++ [b]) i) = tx (vs pre i) ++ tx r /\ snd (seq_with f (pre ++ [b]) i) = snd (vs pre i) ++ snd r).
  { intros f Ef. destruct (seq_app node f pre [b] i) as [-> ->].
    assert (Hp : seq_with f pre i = vs pre i).
    { apply seq_ext. intros c Hin j. subst f. destruct md; [reflexivity|]. f_equal.
      unfold child_mode. rewrite last_expr_last by exact Hb. cbn [span_opt].
      assert (Hne : nspan c <> nspan b). { eapply nodup_ne; [exact Hn|]. rewrite app_nil_r. exact Hin. }
      assert (Hp0 : nspan c <> 0). { apply span_pos. rewrite Forall_forall in Hs. apply Hs. apply in_or_app. left. exact Hin. }
      replace (nspan b =? nspan c) with false by (symmetry; apply Nat.eqb_neq; auto).
      replace (0 =? nspan c) with false by (symmetry; apply Nat.eqb_neq; auto).
      destruct Hk as [->|[->| ->]]; reflexivity. }
    rewrite Hp. destruct (seq_cons node f b [] (i + length (snd (vs pre i)))) as [-> ->].
    change (tx (seq_with f [] _)) with (@nil nat). change (snd (seq_with f [] _)) with (@nil (nat * mkind)).
    rewrite !app_nil_r.
    assert (Hr : f b (i + length (snd (vs pre i))) = r).
    { subst f r. destruct md; [reflexivity|]. cbv beta. f_equal.
      unfold child_mode. rewrite last_expr_last by exact Hb. cbn [span_opt]. rewrite Nat.eqb_refl.
      destruct Hk as [->|[->| ->]]; reflexivity. }
    rewrite Hr. split; reflexivity. }
  unfold kids, n. cbn [nkind children]. destruct md; exact (H1 _ eq_refl).
Qed.

Lemma white_exprs : forall w, white w -> exprs w = [].
Proof.
  intros w H. induction H as [|n w (sp & t & -> & _) H IH]; [reflexivity|]. cbn. exact IH.
Qed.

Lemma kids_if1 : forall md sp pre q b i, is_expr b = true -> exprs pre = [q] ->
  NoDup (map nspan (pre ++ [b])) -> Forall spans_ok (pre ++ [b]) ->
  let n := Node KIf sp [] (pre ++ [b]) in
  let r := visit (match md with None => Block | Some _ => Visit end) b (i + length (snd (vs pre i))) in
  tx (kids md n i) = tx (vs pre i) ++ tx r /\ snd (kids md n i) = snd (vs pre i) ++ snd r.
Proof.
  intros md sp pre q b i Hb Hq Hn Hs n r.
  assert (He : exprs (pre ++ [b]) = [q; b]).
  { rewrite exprs_app, Hq. cbn. rewrite Hb. reflexivity. }
  assert (H1 : forall f, f = (fun c i => visit (match md with None => child_mode KIf (pre ++ [b]) c | Some _ => Visit end) c i) ->
     tx (seq_with f (pre ++ [b]) i) = tx (vs pre i) ++ tx r /\ snd (seq_with f (pre ++ [b]) i) = snd (vs pre i) ++ snd r).
  { intros f Ef. destruct (seq_app node f pre [b] i) as [-> ->].
    assert (Hp : seq_with f pre i = vs pre i).
    { apply seq_ext. intros c Hin j. subst f. destruct md; [reflexivity|]. f_equal.
      unfold child_mode. rewrite He. cbn [nth_error span_opt].
      assert (Hne : nspan c <> nspan b). { eapply nodup_ne; [exact Hn|]. rewrite app_nil_r. exact Hin. }
      assert (Hp0 : nspan c <> 0). { apply span_pos. rewrite Forall_forall in Hs. apply Hs. apply in_or_app. left. exact Hin. }
      replace (nspan b =? nspan c) with false by (symmetry; apply Nat.eqb_neq; auto).
      replace (0 =? nspan c) with false by (symmetry; apply Nat.eqb_neq; auto). reflexivity. }
    rewrite Hp. destruct (seq_cons node f b [] (i + length (snd (vs pre i)))) as [-> ->].
    change (tx (seq_with f [] _)) with (@nil nat). change (snd (seq_with f [] _)) with (@nil (nat * mkind)).
    rewrite !app_nil_r.
    assert (Hr : f b (i + length (snd (vs pre i))) = r).
    { subst f r. destruct md; [reflexivity|]. cbv beta. f_equal.
      unfold child_mode. rewrite He. cbn [nth_error span_opt]. rewrite Nat.eqb_refl. reflexivity. }
    rewrite Hr. split; reflexivity. }
  unfold kids, n. cbn [nkind children]. destruct md; exact (H1 _ eq_refl).
Qed.

Lemma kids_if2 : forall md sp pre q a mid b i, is_expr a = true -> is_expr b = true -> exprs pre = [q] -> exprs mid = [] ->
  NoDup (map nspan (pre ++ a :: mid ++ [b])) -> Forall spans_ok (pre ++ a :: mid ++ [b]) ->
  let n := Node KIf sp [] (pre ++ a :: mid ++ [b]) in
  let v := visit (match md with None => Block | Some _ => Visit end) in
  let r := v a (i + length (snd (vs pre i))) in
  let j := i + length (snd (vs pre i)) + length (snd r) in
  let r2 := v b (j + length (snd (vs mid j))) in
  tx (kids md n i) = tx (vs pre i) ++ tx r ++ tx (vs mid j) ++ tx r2 /\
  snd (kids md n i) = snd (vs pre i) ++ snd r ++ snd (vs mid j) ++ snd r2.
Proof.
  intros md sp pre q a mid b i Ha Hb Hq Hm Hn Hs n v r j r2.
  assert (He : exprs (pre ++ a :: mid ++ [b]) = [q; a; b]).
  { rewrite exprs_app, Hq. cbn [exprs filter]. rewrite Ha. fold (exprs (mid ++ [b])). rewrite exprs_app, Hm. cbn. rewrite Hb. reflexivity. }
  assert (HV : forall c, In c (pre ++ mid) -> child_mode KIf (pre ++ a :: mid ++ [b]) c = Visit).
  { intros c Hin. unfold child_mode. rewrite He. cbn [nth_error span_opt].
    assert (Hna : nspan c <> nspan a).
    { eapply nodup_ne; [exact Hn|]. rewrite app_assoc. apply in_or_app. left. exact Hin. }
    assert (Hnb : nspan c <> nspan b).
    { apply (nodup_ne (pre ++ a :: mid) b []).
      - rewrite <- app_assoc. exact Hn.
      - rewrite app_nil_r. apply in_app_or in Hin. apply in_or_app. destruct Hin; [left|right; right]; assumption. }
    replace (nspan a =? nspan c) with false by (symmetry; apply Nat.eqb_neq; auto).
    replace (nspan b =? nspan c) with false by (symmetry; apply Nat.eqb_neq; auto). reflexivity. }
  assert (H1 : forall f, f = (fun c i => visit (match md with None => child_mode KIf (pre ++ a :: mid ++ [b]) c | Some _ => Visit end) c i) ->
     tx (seq_with f (pre ++ a :: mid ++ [b]) i) = tx (vs pre i) ++ tx r ++ tx (vs mid j) ++ tx r2 /\
     snd (seq_with f (pre ++ a :: mid ++ [b]) i) = snd (vs pre i) ++ snd r ++ snd (vs mid j) ++ snd r2).
  { intros f Ef. destruct (seq_app node f pre (a :: mid ++ [b]) i) as [-> ->].
    assert (Hp : seq_with f pre i = vs pre i).
    { apply seq_ext. intros c Hin k. subst f. destruct md; [reflexivity|]. f_equal. apply HV. apply in_or_app. left. exact Hin. }
    rewrite Hp. destruct (seq_cons node f a (mid ++ [b]) (i + length (snd (vs pre i)))) as [-> ->].
    assert (Hr : f a (i + length (snd (vs pre i))) = r).
    { subst f r v. destruct md; [reflexivity|]. cbv beta. f_equal.
      unfold child_mode. rewrite He. cbn [nth_error span_opt]. rewrite Nat.eqb_refl. reflexivity. }
    rewrite Hr. fold j. destruct (seq_app node f mid [b] j) as [-> ->].
    assert (Hp2 : seq_with f mid j = vs mid j).
    { apply seq_ext. intros c Hin k. subst f. destruct md; [reflexivity|]. f_equal. apply HV. apply in_or_app. right. exact Hin. }
    rewrite Hp2. destruct (seq_cons node f b [] (j + length (snd (vs mid j)))) as [-> ->].
    change (tx (seq_with f [] _)) with (@nil nat). change (snd (seq_with f [] _)) with (@nil (nat * mkind)).
    rewrite !app_nil_r.
    assert (Hr2 : f b (j + length (snd (vs mid j))) = r2).
    { subst f r2 v. destruct md; [reflexivity|]. cbv beta. f_equal.
      unfold child_mode. rewrite He. cbn [nth_error span_opt]. rewrite Nat.eqb_refl, orb_true_r. reflexivity. }
    rewrite Hr2. split; reflexivity. }
  unfold kids, n. cbn [nkind children]. destruct md; exact (H1 _ eq_refl).
Qed.

Lemma kids_plain : forall md k sp t cs i, (k = KExpr \/ k = KBlock \/ k = KToken) -> kids md (Node k sp t cs) i = vs cs i.
Proof.
  intros md k sp t cs i H. destruct md; [reflexivity|]. unfold kids. cbn [nkind children]. apply seq_ext.
  intros c _ j. destruct H as [->|[->| ->]]; reflexivity.
Qed.

(** Sequences, put together. *)
Lemma vs_app : forall a b i,
  tx (vs (a ++ b) i) = tx (vs a i) ++ tx (vs b (i + length (snd (vs a i)))) /\
  snd (vs (a ++ b) i) = snd (vs a i) ++ snd (vs b (i + length (snd (vs a i)))).
Proof. intros. apply seq_app. Qed.
Lemma vs_cons : forall c l i,
  tx (vs (c :: l) i) = tx (visit Visit c i) ++ tx (vs l (i + length (snd (visit Visit c i)))) /\
  snd (vs (c :: l) i) = snd (visit Visit c i) ++ snd (vs l (i + length (snd (visit Visit c i)))).
Proof. intros. apply seq_cons. Qed.
Lemma vs_inert : forall a b i, Forall inert a ->
  tx (vs (a ++ b) i) = flat_map src a ++ tx (vs b i) /\ snd (vs (a ++ b) i) = snd (vs b i).
Proof.
  intros a b i H. destruct (vs_app a b i) as [-> ->]. destruct (inert_seq a i H) as [-> ->].
  cbn [length app]. rewrite Nat.add_0_r. split; reflexivity.
Qed.
Lemma vs_inert1 : forall c b i, inert c ->
  tx (vs (c :: b) i) = src c ++ tx (vs b i) /\ snd (vs (c :: b) i) = snd (vs b i).
Proof.
  intros c b i H. destruct (vs_cons c b i) as [-> ->]. destruct (H i) as [-> ->].
  cbn [length app]. rewrite Nat.add_0_r. split; reflexivity.
Qed.
Lemma vs_nil : forall i, tx (vs [] i) = [] /\ snd (vs [] i) = [].
Proof. intros. split; reflexivity. Qed.

Lemma vs_inert_end : forall c l i, Forall inert l ->
  tx (vs (c :: l) i) = tx (visit Visit c i) ++ flat_map src l /\ snd (vs (c :: l) i) = snd (visit Visit c i).
Proof.
  intros c l i H. destruct (vs_cons c l i) as [-> ->].
  destruct (inert_seq l (i + length (snd (visit Visit c i))) H) as [-> ->]. rewrite app_nil_r. split; reflexivity.
Qed.

Lemma T_blockish : forall md e i, blockish e -> blockish (fst (T md e i)).
Proof.
  intros md e i H. rewrite T_eq. destruct (blocky md e) as [[o c]|].
  - destruct (innerT T md e (S i)). exact I.
  - destruct e; try contradiction; cbn [innerT]; destruct (seqT (T None) es i); exact I.
Qed.

Lemma T_branch : forall md e i, branch e -> branch (fst (T md e i)).
Proof.
  intros md e i H. rewrite T_eq. destruct (blocky md e) as [[o c]|].
  - destruct (innerT T md e (S i)). exact I.
  - destruct e; try contradiction; cbn [innerT];
      repeat match goal with |- context [T ?a ?b ?k] => destruct (T a b k) end;
      try (destruct (seqT (T None) es i)); exact I.
Qed.

Definition codeQ (es : list expr) (l : list node) : Prop :=
  Forall spans_ok l -> forall i, exists l',
    code (fst (seqT (T None) es i)) l' /\ (ends l -> ends l') /\
    flat_map src l' = tx (vs l i) /\ snd (seqT (T None) es i) = snd (vs l i).
Definition markupQ (es : list expr) (l : list node) : Prop :=
  Forall spans_ok l -> forall i, exists l',
    markup (fst (seqT (T None) es i)) l' /\
    flat_map src l' = tx (vs l i) /\ snd (seqT (T None) es i) = snd (vs l i).

Lemma last_span_app : forall c a b, last_span (c :: a ++ [b]) = nspan b.
Proof. intros. unfold last_span. rewrite rev_app_distr. reflexivity. Qed.

Ltac inert_leaf_tac := apply inert_leaf; discriminate.
Ltac txt := repeat (cbn [src flat_map app leaf] || rewrite flat_map_app || rewrite <- app_assoc || rewrite app_nil_r).

Lemma seqT_cons : forall e es i,
  fst (seqT (T None) (e :: es) i) = fst (T None e i) :: fst (seqT (T None) es (i + length (snd (T None e i)))) /\
  snd (seqT (T None) (e :: es) i) = snd (T None e i) ++ snd (seqT (T None) es (i + length (snd (T None e i)))).
Proof.
  intros e es i. cbn [seqT]. fold (seqT (T None)). destruct (T None e i) as [e1 m1]. cbn [fst snd].
  destruct (seqT (T None) es (i + length m1)). split; reflexivity.
Qed.

Lemma trees_all :
  (forall e n, tree e n -> tree e n /\ innerQ e n) /\ (forall es l, code es l -> codeQ es l) /\ (forall es l, markup es l -> markupQ es l).
Proof.
  apply trees_mind.
  - intros t sp Ht. split; [constructor; exact Ht|]. intros Hs md i. exists (Node KExpr 0 t []).
    rewrite kids_plain by tauto. cbn. rewrite app_nil_r. repeat split. constructor. exact Ht.
  - intros x a n sp s0 s1 s2 w1 w2 w3 Hx _ [Ht HQ] H1 H1' H2 H3. split; [constructor; assumption|]. intros Hs md i.
    apply spans_node in Hs. destruct Hs as [_ Hs].
    assert (Hsn : spans_ok n). { rewrite Forall_forall in Hs. apply Hs. right. apply in_or_app. right. right. apply in_or_app. right. right. apply in_or_app. right. left. reflexivity. }
    destruct (T_of_inner _ _ Ht HQ Hsn None i (or_introl eq_refl)) as (n' & T1 & (Z1 & Z2 & Z3) & T2 & T3).
    rewrite kids_plain by tauto. cbn [innerT ntext app].
    destruct (T None a i) as [a' m1]. cbn [fst snd mode_of] in *.
    exists (Node KExpr 0 [] (leaf 0 (codes "let") :: w1 ++ Node KExpr s1 x [] :: w2 ++ leaf s2 (codes "=") :: w3 ++ [n'])).
    destruct (vs_inert1 (leaf s0 (codes "let")) (w1 ++ Node KExpr s1 x [] :: w2 ++ leaf s2 (codes "=") :: w3 ++ [n]) i) as [-> ->]; [inert_leaf_tac|].
    destruct (vs_inert w1 (Node KExpr s1 x [] :: w2 ++ leaf s2 (codes "=") :: w3 ++ [n]) i) as [-> ->]; [apply inert_white; assumption|].
    destruct (vs_inert1 (Node KExpr s1 x []) (w2 ++ leaf s2 (codes "=") :: w3 ++ [n]) i) as [-> ->]; [inert_leaf_tac|].
    destruct (vs_inert w2 (leaf s2 (codes "=") :: w3 ++ [n]) i) as [-> ->]; [apply inert_white; assumption|].
    destruct (vs_inert1 (leaf s2 (codes "=")) (w3 ++ [n]) i) as [-> ->]; [inert_leaf_tac|].
    destruct (vs_inert w3 [n] i) as [-> ->]; [apply inert_white; assumption|].
    destruct (vs_inert_end n [] i) as [-> ->]; [constructor|].
    split; [constructor; assumption|]. split.
    { repeat split. cbn [children].
      replace (w1 ++ Node KExpr s1 x [] :: w2 ++ leaf s2 (codes "=") :: w3 ++ [n']) with ((w1 ++ Node KExpr s1 x [] :: w2 ++ leaf s2 (codes "=") :: w3) ++ [n']) by (txt; reflexivity).
      rewrite last_span_app. exact Z1. }
    split; [|exact T3]. txt. rewrite T2. reflexivity.
  - intros x a n sp s1 s2 w2 w3 Hx _ [Ht HQ] H2 H3. split; [constructor; assumption|]. intros Hs md i.
    apply spans_node in Hs. destruct Hs as [_ Hs].
    assert (Hsn : spans_ok n). { rewrite Forall_forall in Hs. apply Hs. right. apply in_or_app. right. right. apply in_or_app. right. left. reflexivity. }
    destruct (T_of_inner _ _ Ht HQ Hsn None i (or_introl eq_refl)) as (n' & T1 & (Z1 & Z2 & Z3) & T2 & T3).
    rewrite kids_plain by tauto. cbn [innerT ntext app].
    destruct (T None a i) as [a' m1]. cbn [fst snd mode_of] in *.
    exists (Node KExpr 0 [] (Node KExpr 0 x [] :: w2 ++ leaf s2 (codes "=") :: w3 ++ [n'])).
    destruct (vs_inert1 (Node KExpr s1 x []) (w2 ++ leaf s2 (codes "=") :: w3 ++ [n]) i) as [-> ->]; [inert_leaf_tac|].
    destruct (vs_inert w2 (leaf s2 (codes "=") :: w3 ++ [n]) i) as [-> ->]; [apply inert_white; assumption|].
    destruct (vs_inert1 (leaf s2 (codes "=")) (w3 ++ [n]) i) as [-> ->]; [inert_leaf_tac|].
    destruct (vs_inert w3 [n] i) as [-> ->]; [apply inert_white; assumption|].
    destruct (vs_inert_end n [] i) as [-> ->]; [constructor|].
    split; [constructor; assumption|]. split.
    { repeat split. cbn [children].
      replace (w2 ++ leaf s2 (codes "=") :: w3 ++ [n']) with ((w2 ++ leaf s2 (codes "=") :: w3) ++ [n']) by (txt; reflexivity).
      rewrite last_span_app. exact Z1. }
    split; [|exact T3]. txt. rewrite T2. reflexivity.
  - intros o a b na nb sp s w1 w2 Ho _ [Hta HQa] _ [Htb HQb] H1 H2. split; [constructor; assumption|]. intros Hs md i.
    apply spans_node in Hs. destruct Hs as [_ Hs].
    assert (Hsa : spans_ok na) by (inversion Hs; assumption).
    assert (Hsb : spans_ok nb). { rewrite Forall_forall in Hs. apply Hs. right. apply in_or_app. right. right. apply in_or_app. right. left. reflexivity. }
    destruct (T_of_inner _ _ Hta HQa Hsa None i (or_introl eq_refl)) as (na' & A1 & (A2 & _) & A3 & A4).
    destruct (T_of_inner _ _ Htb HQb Hsb None (i + length (snd (T None a i))) (or_introl eq_refl)) as (nb' & B1 & (B2 & _) & B3 & B4).
    rewrite kids_plain by tauto. cbn [innerT ntext app].
    destruct (T None a i) as [a' m1]. cbn [fst snd mode_of] in *. destruct (T None b (i + length m1)) as [b' m2]. cbn [fst snd] in *.
    exists (Node KExpr 0 [] (na' :: w1 ++ leaf s o :: w2 ++ [nb'])).
    destruct (vs_cons na (w1 ++ leaf s o :: w2 ++ [nb]) i) as [-> ->]. rewrite <- A4.
    destruct (vs_inert w1 (leaf s o :: w2 ++ [nb]) (i + length m1)) as [-> ->]; [apply inert_white; assumption|].
    destruct (vs_inert1 (leaf s o) (w2 ++ [nb]) (i + length m1)) as [-> ->]; [inert_leaf_tac|].
    destruct (vs_inert w2 [nb] (i + length m1)) as [-> ->]; [apply inert_white; assumption|].
    destruct (vs_inert_end nb [] (i + length m1)) as [-> ->]; [constructor|].
    split; [constructor; assumption|]. split.
    { repeat split; [exact A2|]. cbn [children].
      replace (w1 ++ leaf s o :: w2 ++ [nb']) with ((w1 ++ leaf s o :: w2) ++ [nb']) by (txt; reflexivity).
      rewrite last_span_app. exact B2. }
    split; [|rewrite B4; reflexivity]. txt. rewrite A3, B3. reflexivity.
  - intros f a nf na sp s s1 s2 _ [Htf HQf] _ [Hta HQa]. split; [constructor; assumption|]. intros Hs md i.
    apply spans_node in Hs. destruct Hs as [_ Hs].
    assert (Hsf : spans_ok nf) by (inversion Hs; assumption).
    assert (Hsa : spans_ok na).
    { inversion Hs as [|? ? _ Hs1]; subst. inversion Hs1 as [|? ? Hs2 _]; subst. apply spans_node in Hs2. destruct Hs2 as [_ Hs2].
      inversion Hs2 as [|? ? _ Hs3]; subst. inversion Hs3; assumption. }
    destruct (T_of_inner _ _ Htf HQf Hsf None i (or_introl eq_refl)) as (nf' & F1 & (F2 & _) & F3 & F4).
    destruct (T_of_inner _ _ Hta HQa Hsa None (i + length (snd (T None f i))) (or_introl eq_refl)) as (na' & A1 & (A2 & _) & A3 & A4).
    rewrite kids_plain by tauto. cbn [innerT ntext app].
    destruct (T None f i) as [f' m1]. cbn [fst snd mode_of] in *. destruct (T None a (i + length m1)) as [a' m2]. cbn [fst snd] in *.
    exists (Node KExpr 0 [] [nf'; Node KToken 0 [] [leaf s1 (codes "("); na'; leaf s2 (codes ")")]]).
    destruct (vs_cons nf [Node KToken s [] [leaf s1 (codes "("); na; leaf s2 (codes ")")]] i) as [-> ->]. rewrite <- F4.
    destruct (vs_inert_end (Node KToken s [] [leaf s1 (codes "("); na; leaf s2 (codes ")")]) [] (i + length m1)) as [-> ->]; [constructor|].
    assert (Hv : tx (visit Visit (Node KToken s [] [leaf s1 (codes "("); na; leaf s2 (codes ")")]) (i + length m1)) =
                 tx (vs [leaf s1 (codes "("); na; leaf s2 (codes ")")] (i + length m1)) /\
                 snd (visit Visit (Node KToken s [] [leaf s1 (codes "("); na; leaf s2 (codes ")")]) (i + length m1)) =
                 snd (vs [leaf s1 (codes "("); na; leaf s2 (codes ")")] (i + length m1))).
    { rewrite visit_eq. cbn [vplain]. rewrite (seq_ext _ _ (visit Visit)) by reflexivity. fold (vs [leaf s1 (codes "("); na; leaf s2 (codes ")")] (i + length m1)).
      destruct (vs [leaf s1 (codes "("); na; leaf s2 (codes ")")] (i + length m1)). split; reflexivity. }
    destruct Hv as [-> ->].
    destruct (vs_inert1 (leaf s1 (codes "(")) [na; leaf s2 (codes ")")] (i + length m1)) as [-> ->]; [inert_leaf_tac|].
    destruct (vs_inert_end na [leaf s2 (codes ")")] (i + length m1)) as [-> ->]; [constructor; [inert_leaf_tac|constructor]|].
    split; [constructor; assumption|]. split.
    { repeat split. exact F2. }
    split; [|rewrite A4; reflexivity]. txt. rewrite F3, A3. reflexivity.
  - intros sp s. split; [constructor|]. intros Hs md i. exists (Node KExpr 0 [] [leaf 0 (codes "return")]).
    rewrite kids_plain by tauto. split; [constructor|]. repeat split.
  - intros a n sp s w _ [Ht HQ] H1 H2. split; [constructor; assumption|]. intros Hs md i.
    apply spans_node in Hs. destruct Hs as [_ Hs].
    assert (Hsn : spans_ok n). { rewrite Forall_forall in Hs. apply Hs. right. apply in_or_app. right. left. reflexivity. }
    destruct (T_of_inner _ _ Ht HQ Hsn None i (or_introl eq_refl)) as (n' & T1 & (Z1 & Z2 & Z3) & T2 & T3).
    rewrite kids_plain by tauto. cbn [innerT ntext app].
    destruct (T None a i) as [a' m1]. cbn [fst snd mode_of] in *.
    exists (Node KExpr 0 [] (leaf 0 (codes "return") :: w ++ [n'])).
    destruct (vs_inert1 (leaf s (codes "return")) (w ++ [n]) i) as [-> ->]; [inert_leaf_tac|].
    destruct (vs_inert w [n] i) as [-> ->]; [apply inert_white; assumption|].
    destruct (vs_inert_end n [] i) as [-> ->]; [constructor|].
    split; [constructor; assumption|]. split.
    { repeat split. cbn [children]. rewrite last_span_app. exact Z1. }
    split; [|exact T3]. txt. rewrite T2. reflexivity.
  - intros sp s. split; [constructor|]. intros Hs md i. exists (Node KExpr 0 [] [leaf 0 (codes "break")]).
    rewrite kids_plain by tauto. split; [constructor|]. repeat split.
  - intros sp s. split; [constructor|]. intros Hs md i. exists (Node KExpr 0 [] [leaf 0 (codes "continue")]).
    rewrite kids_plain by tauto. split; [constructor|]. repeat split.
  - intros o c es l sp s Hc HQ. split; [constructor; assumption|]. intros Hs md i.
    apply spans_node in Hs. destruct Hs as [_ Hs].
    assert (Hsl : Forall spans_ok l).
    { inversion Hs as [|? ? _ Hs1]; subst. inversion Hs1 as [|? ? Hs2 _]; subst. apply spans_node in Hs2. apply Hs2. }
    destruct (HQ Hsl i) as (l' & C1 & _ & C2 & C3).
    rewrite kids_plain by tauto. cbn [innerT ntext app]. destruct (seqT (T None) es i) as [es' m1]. cbn [fst snd] in *.
    exists (Node KBlock 0 [] [leaf 0 (codes "{"); Node KToken 0 [] l'; leaf 0 (codes "}")]).
    destruct (vs_inert1 (leaf o (codes "{")) [Node KToken s [] l; leaf c (codes "}")] i) as [-> ->]; [inert_leaf_tac|].
    destruct (vs_inert_end (Node KToken s [] l) [leaf c (codes "}")] i) as [-> ->]; [constructor; [inert_leaf_tac|constructor]|].
    assert (Hv : tx (visit Visit (Node KToken s [] l) i) = tx (vs l i) /\ snd (visit Visit (Node KToken s [] l) i) = snd (vs l i)).
    { rewrite visit_eq. cbn [vplain]. rewrite (seq_ext _ _ (visit Visit)) by reflexivity. fold (vs l i).
      destruct (vs l i). split; reflexivity. }
    destruct Hv as [-> ->].
    split; [constructor; assumption|]. split; [repeat split|]. split; [|exact C3]. txt. rewrite C2. reflexivity.
  - intros es l sp s s1 s2 Hc HQ. split; [constructor; assumption|]. intros Hs md i.
    apply spans_node in Hs. destruct Hs as [_ Hs].
    assert (Hsl : Forall spans_ok l).
    { inversion Hs as [|? ? _ Hs1]; subst. inversion Hs1 as [|? ? Hs2 _]; subst. apply spans_node in Hs2. apply Hs2. }
    destruct (HQ Hsl i) as (l' & C1 & C2 & C3).
    rewrite kids_plain by tauto. cbn [innerT ntext app]. destruct (seqT (T None) es i) as [es' m1]. cbn [fst snd] in *.
    exists (Node KExpr 0 [] [leaf 0 (codes "["); Node KToken 0 [] l'; leaf 0 (codes "]")]).
    destruct (vs_inert1 (leaf s1 (codes "[")) [Node KToken s [] l; leaf s2 (codes "]")] i) as [-> ->]; [inert_leaf_tac|].
    destruct (vs_inert_end (Node KToken s [] l) [leaf s2 (codes "]")] i) as [-> ->]; [constructor; [inert_leaf_tac|constructor]|].
    assert (Hv : tx (visit Visit (Node KToken s [] l) i) = tx (vs l i) /\ snd (visit Visit (Node KToken s [] l) i) = snd (vs l i)).
    { rewrite visit_eq. cbn [vplain]. rewrite (seq_ext _ _ (visit Visit)) by reflexivity. fold (vs l i).
      destruct (vs l i). split; reflexivity. }
    destruct Hv as [-> ->].
    split; [constructor; assumption|]. split; [repeat split|]. split; [|exact C3]. txt. rewrite C2. reflexivity.
  - intros q a nq na sp s w1 w2 _ [Htq HQq] _ [Hta HQa] Hba H1 H1' H2. split; [constructor; assumption|]. intros Hs md i.
    apply spans_node in Hs. destruct Hs as [Hn Hs].
    assert (Hsq : spans_ok nq). { rewrite Forall_forall in Hs. apply Hs. right. apply in_or_app. right. left. reflexivity. }
    assert (Hsa : spans_ok na). { rewrite Forall_forall in Hs. apply Hs. right. apply in_or_app. right. right. apply in_or_app. right. left. reflexivity. }
    destruct (T_of_inner _ _ Htq HQq Hsq None i (or_introl eq_refl)) as (nq' & Q1 & (Q2 & _) & Q3 & Q4).
    set (bm := match md with None => Some (first_span (children na), last_span (children na)) | Some _ => None end).
    assert (Hbm : md_ok bm na) by (destruct md; [left|right]; reflexivity).
    destruct (T_of_inner _ _ Hta HQa Hsa bm (i + length (snd (T None q i))) Hbm) as (na' & A1 & (A2 & A2' & A2'') & A3 & A4).
    pose proof (T_blockish bm a (i + length (snd (T None q i))) Hba) as Hba'.
    cbn [innerT ntext]. fold bm. rewrite app_nil_l.
    destruct (T None q i) as [q' m1]. cbn [fst snd mode_of] in *. destruct (T bm a (i + length m1)) as [a' m2]. cbn [fst snd] in *.
    exists (Node KIf 0 [] (leaf 0 (codes "if") :: w1 ++ nq' :: w2 ++ [na'])).
    replace (leaf s (codes "if") :: w1 ++ nq :: w2 ++ [na]) with ((leaf s (codes "if") :: w1 ++ nq :: w2) ++ [na]) in * by (txt; reflexivity).
    assert (Hpre : tx (vs (leaf s (codes "if") :: w1 ++ nq :: w2) i) = codes "if" ++ flat_map src w1 ++ src nq' ++ flat_map src w2 /\
                   snd (vs (leaf s (codes "if") :: w1 ++ nq :: w2) i) = m1).
    { destruct (vs_inert1 (leaf s (codes "if")) (w1 ++ nq :: w2) i) as [-> ->]; [inert_leaf_tac|].
      destruct (vs_inert w1 (nq :: w2) i) as [-> ->]; [apply inert_white; assumption|].
      destruct (vs_inert_end nq w2 i) as [-> ->]; [apply inert_white; assumption|]. rewrite Q3, Q4. split; reflexivity. }
    destruct (kids_if1 md sp (leaf s (codes "if") :: w1 ++ nq :: w2) nq na i) as [K1 K2]; try assumption.
    { apply (tree_kind _ _ Hta). }
    { cbn [exprs filter is_expr nkind leaf]. fold (exprs (w1 ++ nq :: w2)). rewrite exprs_app, (white_exprs w1 H1). cbn [exprs filter app].
      destruct (tree_kind _ _ Htq) as [-> _]. fold (exprs w2). rewrite (white_exprs w2 H2). reflexivity. }
    rewrite K1, K2. destruct Hpre as [P1 P2]. rewrite P1, P2.
    replace (match md with None => Block | Some _ => Visit end) with (mode_of bm) by (subst bm; destruct md; reflexivity).
    rewrite <- A3, <- A4.
    split. { pose proof (tree_if1 q' a' nq' na' 0 0 w1 w2) as Hc. rewrite A2', A2'' in Hc. apply Hc; assumption. }
    split.
    { repeat split. cbn [children]. replace (w1 ++ nq' :: w2 ++ [na']) with ((w1 ++ nq' :: w2) ++ [na']) by (txt; reflexivity).
      rewrite last_span_app. exact A2. }
    split; [|reflexivity]. txt. reflexivity.
  - intros q a b nq na nb sp s s' w1 w2 w3 w4 _ [Htq HQq] _ [Hta HQa] Hba _ [Htb HQb] Hbb H1 H1' H2 H3 H4 H4'. split; [constructor; assumption|]. intros Hs md i.
    apply spans_node in Hs. destruct Hs as [Hn Hs].
    assert (Hsq : spans_ok nq). { rewrite Forall_forall in Hs. apply Hs. right. apply in_or_app. right. left. reflexivity. }
    assert (Hsa : spans_ok na). { rewrite Forall_forall in Hs. apply Hs. right. apply in_or_app. right. right. apply in_or_app. right. left. reflexivity. }
    assert (Hsb : spans_ok nb). { rewrite Forall_forall in Hs. apply Hs. right. apply in_or_app. right. right. apply in_or_app. right. right. apply in_or_app. right. right. apply in_or_app. right. left. reflexivity. }
    destruct (T_of_inner _ _ Htq HQq Hsq None i (or_introl eq_refl)) as (nq' & Q1 & (Q2 & _) & Q3 & Q4).
    set (bm := match md with None => Some (first_span (children na), last_span (children na)) | Some _ => None end).
    set (bm2 := match md with None => Some (first_span (children nb), last_span (children nb)) | Some _ => None end).
    assert (Hbm : md_ok bm na) by (destruct md; [left|right]; reflexivity).
    assert (Hbm2 : md_ok bm2 nb) by (destruct md; [left|right]; reflexivity).
    destruct (T_of_inner _ _ Hta HQa Hsa bm (i + length (snd (T None q i))) Hbm) as (na' & A1 & (A2 & A2' & A2'') & A3 & A4).
    destruct (T_of_inner _ _ Htb HQb Hsb bm2 (i + length (snd (T None q i)) + length (snd (T bm a (i + length (snd (T None q i)))))) Hbm2) as (nb' & B1 & (B2 & B2' & B2'') & B3 & B4).
    pose proof (T_blockish bm a (i + length (snd (T None q i))) Hba) as Hba'.
    pose proof (T_branch bm2 b (i + length (snd (T None q i)) + length (snd (T bm a (i + length (snd (T None q i)))))) Hbb) as Hbb'.
    cbn [innerT ntext]. fold bm. fold bm2. rewrite app_nil_l.
    destruct (T None q i) as [q' m1]. cbn [fst snd mode_of] in *. destruct (T bm a (i + length m1)) as [a' m2]. cbn [fst snd] in *.
    destruct (T bm2 b (i + length m1 + length m2)) as [b' m3]. cbn [fst snd] in *.
    exists (Node KIf 0 [] (leaf 0 (codes "if") :: w1 ++ nq' :: w2 ++ na' :: w3 ++ leaf 0 (codes "else") :: w4 ++ [nb'])).
    replace (leaf s (codes "if") :: w1 ++ nq :: w2 ++ na :: w3 ++ leaf s' (codes "else") :: w4 ++ [nb])
      with ((leaf s (codes "if") :: w1 ++ nq :: w2) ++ na :: (w3 ++ leaf s' (codes "else") :: w4) ++ [nb]) in * by (txt; reflexivity).
    assert (Hpre : tx (vs (leaf s (codes "if") :: w1 ++ nq :: w2) i) = codes "if" ++ flat_map src w1 ++ src nq' ++ flat_map src w2 /\
                   snd (vs (leaf s (codes "if") :: w1 ++ nq :: w2) i) = m1).
    { destruct (vs_inert1 (leaf s (codes "if")) (w1 ++ nq :: w2) i) as [-> ->]; [inert_leaf_tac|].
      destruct (vs_inert w1 (nq :: w2) i) as [-> ->]; [apply inert_white; assumption|].
      destruct (vs_inert_end nq w2 i) as [-> ->]; [apply inert_white; assumption|]. rewrite Q3, Q4. split; reflexivity. }
    assert (Hmid : forall j, tx (vs (w3 ++ leaf s' (codes "else") :: w4) j) = flat_map src w3 ++ codes "else" ++ flat_map src w4 /\
                   snd (vs (w3 ++ leaf s' (codes "else") :: w4) j) = []).
    { intro j. destruct (vs_inert w3 (leaf s' (codes "else") :: w4) j) as [-> ->]; [apply inert_white; assumption|].
      destruct (vs_inert1 (leaf s' (codes "else")) w4 j) as [-> ->]; [inert_leaf_tac|].
      destruct (inert_seq w4 j (inert_white w4 H4)) as [-> ->]. split; reflexivity. }
    destruct (kids_if2 md sp (leaf s (codes "if") :: w1 ++ nq :: w2) nq na (w3 ++ leaf s' (codes "else") :: w4) nb i) as [K1 K2]; try assumption.
    { apply (tree_kind _ _ Hta). } { apply (tree_kind _ _ Htb). }
    { cbn [exprs filter is_expr nkind leaf]. fold (exprs (w1 ++ nq :: w2)). rewrite exprs_app, (white_exprs w1 H1). cbn [exprs filter app].
      destruct (tree_kind _ _ Htq) as [-> _]. fold (exprs w2). rewrite (white_exprs w2 H2). reflexivity. }
    { rewrite exprs_app, (white_exprs w3 H3). cbn [exprs filter app is_expr nkind leaf]. fold (exprs w4). apply white_exprs; assumption. }
    rewrite K1, K2. destruct Hpre as [P1 P2]. rewrite P1, P2.
    replace (match md with None => Block | Some _ => Visit end) with (mode_of bm) by (subst bm; destruct md; reflexivity).
    rewrite <- A3, <- A4. destruct (Hmid (i + length m1 + length m2)) as [-> ->].
    replace (mode_of bm) with (mode_of bm2) by (subst bm bm2; destruct md; reflexivity).
    cbn [length]. rewrite Nat.add_0_r. rewrite <- B3, <- B4.
    split. { pose proof (tree_if2 q' a' b' nq' na' nb' 0 0 0 w1 w2 w3 w4) as Hc. rewrite A2', A2'', B2', B2'' in Hc. apply Hc; assumption. }
    split.
    { repeat split. cbn [children].
      replace (w1 ++ nq' :: w2 ++ na' :: w3 ++ leaf 0 (codes "else") :: w4 ++ [nb']) with ((w1 ++ nq' :: w2 ++ na' :: w3 ++ leaf 0 (codes "else") :: w4) ++ [nb']) by (txt; reflexivity).
      rewrite last_span_app. exact B2. }
    split; [|reflexivity]. txt. reflexivity.
  - intros q a nq na sp s w1 w2 _ [Htq HQq] _ [Hta HQa] Hba H1 H1' H2. split; [constructor; assumption|]. intros Hs md i.
    apply spans_node in Hs. destruct Hs as [Hn Hs].
    assert (Hsq : spans_ok nq). { rewrite Forall_forall in Hs. apply Hs. right. apply in_or_app. right. left. reflexivity. }
    assert (Hsa : spans_ok na). { rewrite Forall_forall in Hs. apply Hs. right. apply in_or_app. right. right. apply in_or_app. right. left. reflexivity. }
    destruct (T_of_inner _ _ Htq HQq Hsq None i (or_introl eq_refl)) as (nq' & Q1 & (Q2 & _) & Q3 & Q4).
    set (bm := match md with None => Some (first_span (children na), last_span (children na)) | Some _ => None end).
    assert (Hbm : md_ok bm na) by (destruct md; [left|right]; reflexivity).
    destruct (T_of_inner _ _ Hta HQa Hsa bm (i + length (snd (T None q i))) Hbm) as (na' & A1 & (A2 & A2' & A2'') & A3 & A4).
    pose proof (T_blockish bm a (i + length (snd (T None q i))) Hba) as Hba'.
    cbn [innerT ntext]. fold bm. rewrite app_nil_l.
    destruct (T None q i) as [q' m1]. cbn [fst snd mode_of] in *. destruct (T bm a (i + length m1)) as [a' m2]. cbn [fst snd] in *.
    exists (Node KWhile 0 [] (leaf 0 (codes "while") :: w1 ++ nq' :: w2 ++ [na'])).
    replace (leaf s (codes "while") :: w1 ++ nq :: w2 ++ [na]) with ((leaf s (codes "while") :: w1 ++ nq :: w2) ++ [na]) in * by (txt; reflexivity).
    assert (Hpre : tx (vs (leaf s (codes "while") :: w1 ++ nq :: w2) i) = codes "while" ++ flat_map src w1 ++ src nq' ++ flat_map src w2 /\
                   snd (vs (leaf s (codes "while") :: w1 ++ nq :: w2) i) = m1).
    { destruct (vs_inert1 (leaf s (codes "while")) (w1 ++ nq :: w2) i) as [-> ->]; [inert_leaf_tac|].
      destruct (vs_inert w1 (nq :: w2) i) as [-> ->]; [apply inert_white; assumption|].
      destruct (vs_inert_end nq w2 i) as [-> ->]; [apply inert_white; assumption|]. rewrite Q3, Q4. split; reflexivity. }
    destruct (kids_last md KWhile sp (leaf s (codes "while") :: w1 ++ nq :: w2) na i) as [K1 K2]; try assumption; [tauto| |].
    { apply (tree_kind _ _ Hta). }
    rewrite K1, K2. destruct Hpre as [P1 P2]. rewrite P1, P2.
    replace (match md with None => Block | Some _ => Visit end) with (mode_of bm) by (subst bm; destruct md; reflexivity).
    rewrite <- A3, <- A4.
    split. { pose proof (tree_while q' a' nq' na' 0 0 w1 w2) as Hc. rewrite A2', A2'' in Hc. apply Hc; assumption. }
    split.
    { repeat split. cbn [children]. replace (w1 ++ nq' :: w2 ++ [na']) with ((w1 ++ nq' :: w2) ++ [na']) by (txt; reflexivity).
      rewrite last_span_app. exact A2. }
    split; [|reflexivity]. txt. reflexivity.
  - intros x q a nq na sp s s1 s2 w1 w2 w3 w4 Hx _ [Htq HQq] _ [Hta HQa] Hba H1 H1' H2 H2' H3 H3' H4. split; [constructor; assumption|]. intros Hs md i.
    apply spans_node in Hs. destruct Hs as [Hn Hs].
    assert (Hsq : spans_ok nq). { rewrite Forall_forall in Hs. apply Hs. right. apply in_or_app. right. right. apply in_or_app. right. right. apply in_or_app. right. left. reflexivity. }
    assert (Hsa : spans_ok na). { rewrite Forall_forall in Hs. apply Hs. right. apply in_or_app. right. right. apply in_or_app. right. right. apply in_or_app. right. right. apply in_or_app. right. left. reflexivity. }
    destruct (T_of_inner _ _ Htq HQq Hsq None i (or_introl eq_refl)) as (nq' & Q1 & (Q2 & _) & Q3 & Q4).
    set (bm := match md with None => Some (first_span (children na), last_span (children na)) | Some _ => None end).
    assert (Hbm : md_ok bm na) by (destruct md; [left|right]; reflexivity).
    destruct (T_of_inner _ _ Hta HQa Hsa bm (i + length (snd (T None q i))) Hbm) as (na' & A1 & (A2 & A2' & A2'') & A3 & A4).
    pose proof (T_blockish bm a (i + length (snd (T None q i))) Hba) as Hba'.
    cbn [innerT ntext]. fold bm. rewrite app_nil_l.
    destruct (T None q i) as [q' m1]. cbn [fst snd mode_of] in *. destruct (T bm a (i + length m1)) as [a' m2]. cbn [fst snd] in *.
    exists (Node KFor 0 [] (leaf 0 (codes "for") :: w1 ++ Node KExpr s1 x [] :: w2 ++ leaf s2 (codes "in") :: w3 ++ nq' :: w4 ++ [na'])).
    replace (leaf s (codes "for") :: w1 ++ Node KExpr s1 x [] :: w2 ++ leaf s2 (codes "in") :: w3 ++ nq :: w4 ++ [na])
      with ((leaf s (codes "for") :: w1 ++ Node KExpr s1 x [] :: w2 ++ leaf s2 (codes "in") :: w3 ++ nq :: w4) ++ [na]) in * by (txt; reflexivity).
    assert (Hpre : tx (vs (leaf s (codes "for") :: w1 ++ Node KExpr s1 x [] :: w2 ++ leaf s2 (codes "in") :: w3 ++ nq :: w4) i) =
                     codes "for" ++ flat_map src w1 ++ x ++ flat_map src w2 ++ codes "in" ++ flat_map src w3 ++ src nq' ++ flat_map src w4 /\
                   snd (vs (leaf s (codes "for") :: w1 ++ Node KExpr s1 x [] :: w2 ++ leaf s2 (codes "in") :: w3 ++ nq :: w4) i) = m1).
    { destruct (vs_inert1 (leaf s (codes "for")) (w1 ++ Node KExpr s1 x [] :: w2 ++ leaf s2 (codes "in") :: w3 ++ nq :: w4) i) as [-> ->]; [inert_leaf_tac|].
      destruct (vs_inert w1 (Node KExpr s1 x [] :: w2 ++ leaf s2 (codes "in") :: w3 ++ nq :: w4) i) as [-> ->]; [apply inert_white; assumption|].
      destruct (vs_inert1 (Node KExpr s1 x []) (w2 ++ leaf s2 (codes "in") :: w3 ++ nq :: w4) i) as [-> ->]; [inert_leaf_tac|].
      destruct (vs_inert w2 (leaf s2 (codes "in") :: w3 ++ nq :: w4) i) as [-> ->]; [apply inert_white; assumption|].
      destruct (vs_inert1 (leaf s2 (codes "in")) (w3 ++ nq :: w4) i) as [-> ->]; [inert_leaf_tac|].
      destruct (vs_inert w3 (nq :: w4) i) as [-> ->]; [apply inert_white; assumption|].
      destruct (vs_inert_end nq w4 i) as [-> ->]; [apply inert_white; assumption|]. rewrite Q3, Q4.
      cbn [src flat_map leaf]. rewrite !app_nil_r. split; reflexivity. }
    destruct (kids_last md KFor sp (leaf s (codes "for") :: w1 ++ Node KExpr s1 x [] :: w2 ++ leaf s2 (codes "in") :: w3 ++ nq :: w4) na i) as [K1 K2]; try assumption; [tauto| |].
    { apply (tree_kind _ _ Hta). }
    rewrite K1, K2. destruct Hpre as [P1 P2]. rewrite P1, P2.
    replace (match md with None => Block | Some _ => Visit end) with (mode_of bm) by (subst bm; destruct md; reflexivity).
    rewrite <- A3, <- A4.
    split. { pose proof (tree_for x q' a' nq' na' 0 0 s1 s2 w1 w2 w3 w4) as Hc. rewrite A2', A2'' in Hc. apply Hc; assumption. }
    split.
    { repeat split. cbn [children].
      replace (w1 ++ Node KExpr s1 x [] :: w2 ++ leaf s2 (codes "in") :: w3 ++ nq' :: w4 ++ [na']) with ((w1 ++ Node KExpr s1 x [] :: w2 ++ leaf s2 (codes "in") :: w3 ++ nq' :: w4) ++ [na']) by (txt; reflexivity).
      rewrite last_span_app. exact A2. }
    split; [|reflexivity]. txt. reflexivity.
  - intros x a na sp s s1 s2 w1 w2 Hx _ [Hta HQa] H1 H2. split; [constructor; assumption|]. intros Hs md i.
    apply spans_node in Hs. destruct Hs as [Hn Hs].
    assert (Hsa : spans_ok na). { rewrite Forall_forall in Hs. apply Hs. right. apply in_or_app. right. right. apply in_or_app. right. left. reflexivity. }
    set (bm := match md with None => Some (first_span (children na), last_span (children na)) | Some _ => None end).
    assert (Hbm : md_ok bm na) by (destruct md; [left|right]; reflexivity).
    destruct (T_of_inner _ _ Hta HQa Hsa bm i Hbm) as (na' & A1 & (A2 & A2' & A2'') & A3 & A4).
    cbn [innerT ntext]. fold bm. rewrite app_nil_l. destruct (T bm a i) as [a' m2]. cbn [fst snd] in *.
    exists (Node KClosure 0 [] (Node KToken 0 [] [Node KExpr s1 x []] :: w1 ++ leaf s2 (codes "=>") :: w2 ++ [na'])).
    replace (Node KToken s [] [Node KExpr s1 x []] :: w1 ++ leaf s2 (codes "=>") :: w2 ++ [na])
      with ((Node KToken s [] [Node KExpr s1 x []] :: w1 ++ leaf s2 (codes "=>") :: w2) ++ [na]) in * by (txt; reflexivity).
    assert (Hpre : tx (vs (Node KToken s [] [Node KExpr s1 x []] :: w1 ++ leaf s2 (codes "=>") :: w2) i) = x ++ flat_map src w1 ++ codes "=>" ++ flat_map src w2 /\
                   snd (vs (Node KToken s [] [Node KExpr s1 x []] :: w1 ++ leaf s2 (codes "=>") :: w2) i) = []).
    { destruct (vs_inert1 (Node KToken s [] [Node KExpr s1 x []]) (w1 ++ leaf s2 (codes "=>") :: w2) i) as [-> ->].
      { apply inert_node. constructor; [inert_leaf_tac|constructor]. }
      destruct (vs_inert w1 (leaf s2 (codes "=>") :: w2) i) as [-> ->]; [apply inert_white; assumption|].
      destruct (vs_inert1 (leaf s2 (codes "=>")) w2 i) as [-> ->]; [inert_leaf_tac|].
      destruct (inert_seq w2 i (inert_white w2 H2)) as [-> ->]. cbn [src flat_map leaf]. rewrite !app_nil_r. split; reflexivity. }
    destruct (kids_last md KClosure sp (Node KToken s [] [Node KExpr s1 x []] :: w1 ++ leaf s2 (codes "=>") :: w2) na i) as [K1 K2]; try assumption; [tauto| |].
    { apply (tree_kind _ _ Hta). }
    rewrite K1, K2. destruct Hpre as [P1 P2]. rewrite P1, P2. cbn [length app]. rewrite Nat.add_0_r.
    replace (match md with None => Block | Some _ => Visit end) with (mode_of bm) by (subst bm; destruct md; reflexivity).
    rewrite <- A3, <- A4.
    split. { pose proof (tree_clo x a' na' 0 0 s1 s2 w1 w2) as Hc. rewrite A2', A2'' in Hc. apply Hc; assumption. }
    split.
    { repeat split. cbn [children].
      replace (w1 ++ leaf s2 (codes "=>") :: w2 ++ [na']) with ((w1 ++ leaf s2 (codes "=>") :: w2) ++ [na']) by (txt; reflexivity).
      rewrite last_span_app. exact A2. }
    split; [|reflexivity]. txt. reflexivity.
  - intros j d sp s s0 s1 s2 s3 Hd. split; [constructor; assumption|]. intros Hs md i.
    exists (Node KExpr 0 [] [Node KExpr 0 (codes "__cov_pc") []; Node KToken 0 [] [leaf s1 (codes "("); Node KExpr s2 d []; leaf s3 (codes ")")]]).
    rewrite kids_plain by tauto.
    assert (Hi : Forall inert [Node KExpr s0 (codes "__cov_pc") []; Node KToken s [] [leaf s1 (codes "("); Node KExpr s2 d []; leaf s3 (codes ")")]]).
    { constructor; [inert_leaf_tac|]. constructor; [|constructor]. apply inert_node. repeat (constructor; [inert_leaf_tac|]). constructor. }
    destruct (inert_seq _ i Hi) as [-> ->].
    split; [constructor; assumption|]. split; [repeat split|]. split; reflexivity.
  - intros w Hw Hs i. exists w. destruct (inert_seq w i (inert_white w Hw)) as [-> ->].
    split; [constructor; exact Hw|]. auto.
  - intros w e n es l Hw _ [Ht HQ] Hc HQl He Hs i.
    apply Forall_app in Hs. destruct Hs as [_ Hs]. inversion Hs; subst.
    destruct (T_of_inner _ _ Ht HQ H1 None i (or_introl eq_refl)) as (n' & T1 & _ & T2 & T3).
    destruct (HQl H2 (i + length (snd (T None e i)))) as (l' & C1 & C2 & C3 & C4).
    exists (w ++ n' :: l'). destruct (seqT_cons e es i) as [-> ->].
    destruct (vs_inert w (n :: l) i) as [-> ->]; [apply inert_white; assumption|].
    destruct (vs_cons n l i) as [-> ->]. cbn [mode_of] in *. rewrite <- T3.
    split.
    { constructor; auto. destruct He as [->|He]; [left; reflexivity|right; auto]. }
    split.
    { intros (sp & c & t & l0 & E & Hcc). destruct w as [|w0 w].
      - cbn [app] in E. injection E as E _. subst n. destruct (tree_kind _ _ Ht) as [Hx _]. discriminate.
      - cbn [app] in *. injection E as E1 E2. subst w0. exists sp, c, t, (w ++ n' :: l'). auto. }
    split; [|rewrite C4; reflexivity]. rewrite flat_map_app. cbn [flat_map]. rewrite T2, C3. reflexivity.
  - intros Hs i. exists []. split; [constructor|split; reflexivity].
  - intros t sp es l Ht _ HQ Hs i. inversion Hs; subst. destruct (HQ H2 i) as (l' & C1 & C2 & C3).
    exists (Node KExpr sp t [] :: l'). destruct (seqT_cons (EText t) es i) as [-> ->].
    change (T None (EText t) i) with (EText t, @nil (nat * mkind)). cbn [fst snd length]. rewrite Nat.add_0_r.
    destruct (vs_inert1 (Node KExpr sp t []) l i) as [-> ->]; [inert_leaf_tac|].
    split; [constructor; assumption|]. split; [|exact C3]. cbn [flat_map]. rewrite C2. reflexivity.
  - intros s e n sp t es l _ [Ht HQ] _ HQl Hs i.
    inversion Hs as [|? ? _ Hs1]; subst. inversion Hs1 as [|? ? Hsn Hs2]; subst. inversion Hs2 as [|? ? _ Hsl]; subst.
    destruct (T_of_inner _ _ Ht HQ Hsn None i (or_introl eq_refl)) as (n' & T1 & _ & T2 & T3).
    destruct (HQl Hsl (i + length (snd (T None e i)))) as (l' & C1 & C3 & C4).
    exists (leaf s (codes "#") :: n' :: leaf sp (codes ";" ++ t) :: l'). destruct (seqT_cons e es i) as [-> ->].
    destruct (vs_inert1 (leaf s (codes "#")) (n :: leaf sp (codes ";" ++ t) :: l) i) as [-> ->]; [inert_leaf_tac|].
    destruct (vs_cons n (leaf sp (codes ";" ++ t) :: l) i) as [-> ->]. cbn [mode_of] in *. rewrite <- T3.
    destruct (vs_inert1 (leaf sp (codes ";" ++ t)) l (i + length (snd (T None e i)))) as [-> ->]; [inert_leaf_tac|].
    split; [constructor; assumption|]. split; [|rewrite C4; reflexivity].
    cbn [flat_map]. rewrite T2, C3. reflexivity.
Qed.

Lemma program_text : forall es n, program es n -> spans_ok n ->
  exists es' n', program es' n' /\ seqT (T None) es 0 = (es', snd (instrument n)) /\ src n' = fst (instrument n).
Proof.
  intros es n (sp & l & -> & Hm) Hs. apply spans_node in Hs. destruct Hs as [_ Hs].
  destruct trees_all as (_ & _ & HM). destruct (HM _ _ Hm Hs 0) as (l' & M1 & M2 & M3).
  exists (fst (seqT (T None) es 0)), (Node KToken 0 [] l').
  assert (Hv : fst (instrument (Node KToken sp [] l)) = tx (vs l 0) /\ snd (instrument (Node KToken sp [] l)) = snd (vs l 0)).
  { unfold instrument. rewrite visit_eq. cbn [vplain]. rewrite (seq_ext _ _ (visit Visit)) by reflexivity. fold (vs l 0).
    destruct (vs l 0). split; reflexivity. }
  destruct Hv as [Hv1 Hv2]. rewrite Hv1, Hv2.
  split; [exists 0, l'; split; [reflexivity|exact M1]|].
  split; [rewrite <- M3; apply surjective_pairing|]. cbn [src app]. exact M2.
Qed.
