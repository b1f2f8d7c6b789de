(** Proofs about the symbols of a workspace (C172). *)
From Coq Require Import List Arith Bool Lia.
From Verif Require Import LexModel LexSpec LexProof SymModel SymSpec.
Import ListNotations.

Lemma each_none {A} (f : A -> option (list symbol)) l : each f l = None <-> exists x, In x l /\ f x = None.
Proof.
  induction l as [|x r IH]; cbn [each].
  - split; [discriminate|intros (? & [] & _)].
  - destruct (f x) as [a|] eqn:E.
    + destruct (each f r) as [b|] eqn:R.
      * split; [discriminate|]. intros (y & [<-|H] & F); [congruence|]. exfalso. assert (D : Some b = None) by (apply IH; eauto). discriminate.
      * split; [|reflexivity]. intros _. destruct (proj1 IH eq_refl) as (y & H & F). exists y. split; [now right|exact F].
    + split; [|reflexivity]. intros _. exists x. split; [now left|exact E].
Qed.
Lemma each_some {A} (f : A -> option (list symbol)) l b : each f l = Some b -> exists ls, b = concat ls /\ Forall2 (fun x a => f x = Some a) l ls.
Proof.
  revert b. induction l as [|x r IH]; cbn [each]; intros b H.
  - injection H as <-. exists []. now split.
  - destruct (f x) as [a|] eqn:E; [|discriminate]. destruct (each f r) as [c|]; [|discriminate]. injection H as <-.
    destruct (IH c eq_refl) as (ls & -> & F). exists (a :: ls). split; [reflexivity|]. constructor; assumption.
Qed.
Lemma shown_is k : is_symbol k = true <-> shown k.
Proof. destruct k; cbn; split; intros H; try discriminate; try destruct H; exact I || reflexivity. Qed.
Lemma each_in {A} (f : A -> option (list symbol)) l b s : each f l = Some b -> In s b <-> exists x a, In x l /\ f x = Some a /\ In s a.
Proof.
  intros H. destruct (each_some f l b H) as (ls & -> & F). clear H. split.
  - intros H. apply in_concat in H as (a & Ha & Hs). induction F as [|x a' l ls E F IH]; [destruct Ha|].
    destruct Ha as [<-|Ha]; [exists x, a'; repeat split; [now left|assumption..]|].
    destruct (IH Ha) as (y & b & Hy & Eb & Hb). exists y, b. repeat split; [now right|assumption..].
  - intros (x & a & Hx & E & Hs). apply in_concat. exists a. split; [|exact Hs].
    induction F as [|y a' l ls E' F IH]; [destruct Hx|]. destruct Hx as [->|Hx]; [left; congruence|right; auto].
Qed.
Lemma one_none q u i : one q u i = None <-> asked q (i_name i) /\ ~ shown (i_kind i).
Proof.
  unfold one. rewrite <- shown_is. destruct q as [c|]; cbn [asked].
  - destruct (c (i_name i)); cbn [negb]; [|split; [discriminate|intros [D _]; discriminate]].
    destruct (is_symbol (i_kind i)); split; intros H; [discriminate|destruct H as [_ H]; now destruct H|split; [reflexivity|discriminate]|reflexivity].
  - destruct (is_symbol (i_kind i)); split; intros H; [discriminate|destruct H as [_ H]; now destruct H|split; [exact I|discriminate]|reflexivity].
Qed.
Lemma one_in q u i a s : one q u i = Some a -> In s a <-> (asked q (i_name i) /\ shown (i_kind i) /\ s = mkSymbol (i_name i) (i_kind i) u (i_range i)).
Proof.
  unfold one. intros H. rewrite <- shown_is.
  assert (D : (match q with Some contains => negb (contains (i_name i)) | None => false end = true /\ ~ asked q (i_name i)) \/
              (match q with Some contains => negb (contains (i_name i)) | None => false end = false /\ asked q (i_name i))).
  { destruct q as [c|]; cbn; [destruct (c (i_name i)); cbn; [right|left]; split; congruence|right; split; [reflexivity|exact I]]. }
  destruct D as [[E N]|[E N]]; rewrite E in H.
  - injection H as <-. split; [intros []|tauto].
  - destruct (is_symbol (i_kind i)); [|discriminate]. injection H as <-. cbn. split; [intros [<-|[]]; auto|intros (_ & _ & ->); now left].
Qed.
Lemma two_in i h : In i (two h) <-> exists d, d < 2 /\ at_depth d i h.
Proof.
  destruct h as [j cs]. cbn [two In]. split.
  - intros [<-|H]; [exists 0; split; [lia|constructor]|]. apply in_map_iff in H as ([k ks] & E & H). subst k.
    exists 1. split; [lia|]. econstructor; [exact H|constructor].
  - intros (d & L & H). inversion H as [? ?|d' ? ? ? g G H']; subst; [now left|]. right.
    assert (d' = 0) by lia. subst. inversion H'; subst. apply in_map_iff. eexists. split; [|exact G]. reflexivity.
Qed.
Lemma flat_two i hs : In i (flat_map two hs) <-> exists h d, In h hs /\ d < 2 /\ at_depth d i h.
Proof.
  rewrite in_flat_map. split.
  - intros (h & H & T). apply two_in in T as (d & T). exists h, d. tauto.
  - intros (h & d & H & T). exists h. split; [exact H|]. apply two_in. exists d. exact T.
Qed.
Lemma panics q fs : workspace_symbols q fs = None <->
  exists f, In f fs /\ f_source f <> None /\ (f_uri f = None \/ exists d i, d < 2 /\ item_of f d i /\ asked q (i_name i) /\ ~ shown (i_kind i)).
Proof.
  unfold workspace_symbols. rewrite each_none. split; intros (f & Hf & H); exists f; (split; [exact Hf|]); unfold of_file in *.
  - destruct (f_source f) as [root|] eqn:S; [|discriminate]. split; [discriminate|]. destruct (f_uri f) as [u|]; [|now left]. right.
    destruct (hierarchy_total Symbol root) as (hs & E & _). rewrite E in H. unfold filter_document_symbols in H. apply each_none in H as (i & Hi & H).
    apply one_none in H. apply flat_two in Hi as (h & d & Hh & L & A). exists d, i. split; [exact L|]. split; [|exact H]. exists root, hs, h. auto.
  - destruct H as (S & H). destruct (f_source f) as [root|] eqn:R; [|congruence]. destruct (f_uri f) as [u|]; [|reflexivity].
    destruct H as [H|(d & i & L & (root' & hs & h & R' & E & Hh & A) & H)]; [discriminate|]. rewrite R in R'. injection R' as <-. rewrite E.
    apply each_none. exists i. split; [apply flat_two; exists h, d; auto|]. now apply one_none.
Qed.
Lemma answer q fs l s : workspace_symbols q fs = Some l ->
  In s l <-> exists f d i, In f fs /\ d < 2 /\ item_of f d i /\ asked q (i_name i) /\ shown (i_kind i) /\ seen f i s.
Proof.
  intros H. unfold workspace_symbols in H. rewrite (each_in _ _ _ s H). split.
  - intros (f & a & Hf & E & Hs). unfold of_file in E. destruct (f_source f) as [root|] eqn:S; [|injection E as <-; destruct Hs].
    destruct (f_uri f) as [u|] eqn:U; [|discriminate]. destruct (get_lexical_hierarchy Symbol root) as [hs|] eqn:G; [|discriminate].
    unfold filter_document_symbols in E. apply (each_in _ _ _ s E) in Hs as (i & b & Hi & O & Hb).
    apply (one_in _ _ _ _ _ O) in Hb as (A & K & ->). apply flat_two in Hi as (h & d & Hh & L & D).
    exists f, d, i. split; [exact Hf|]. split; [exact L|]. split; [exists root, hs, h; auto|]. split; [exact A|]. split; [exact K|].
    repeat split; try reflexivity. exact U.
  - intros (f & d & i & Hf & L & (root & hs & h & S & G & Hh & D) & A & K & (N1 & N2 & N3 & U)).
    destruct (of_file q f) as [a|] eqn:E.
    2:{ exfalso. assert (X : each (of_file q) fs = None) by (apply each_none; eauto). congruence. }
    exists f, a. split; [exact Hf|]. split; [exact E|]. unfold of_file in E. rewrite S, U, G in E. unfold filter_document_symbols in E.
    apply (each_in _ _ _ s E). assert (Hi : In i (flat_map two hs)) by (apply flat_two; exists h, d; auto).
    destruct (one q (s_uri s) i) as [b|] eqn:O; [|apply one_none in O; tauto].
    exists i, b. split; [exact Hi|]. split; [exact O|]. apply (one_in _ _ _ _ _ O). split; [exact A|]. split; [exact K|].
    destruct s; cbn in *; subst; reflexivity.
Qed.
(** What is found and is no symbol has no name. *)
Definition fine (i : info) : Prop := shown (i_kind i) \/ i_name i = 0.
Lemma fine_get m par c n i : get_ident m par c n = Some i -> fine i.
Proof.
  unfold fine. destruct n as [name r|k r e p cs]; cbn [get_ident]; [destruct m, c; intros H; try discriminate; injection H as <-; left; exact I|].
  destruct k; try discriminate.
  all: repeat match goal with |- context [match ?x with _ => _ end] => destruct x; try discriminate end.
  all: intros H; injection H as <-; (left; exact I) || (right; reflexivity).
Qed.
Lemma fine_nodes l : forall nl cr, Forall (fun x => Forall fine (snd x)) l -> Forall fine (found_nodes l nl cr).
Proof.
  assert (G : forall cr, Forall fine (group cr)) by (intros [r|]; repeat constructor; now right).
  induction l as [|[n f] l IH]; cbn [found_nodes]; intros nl cr F; [constructor|]. inversion F as [|x y Hx Hy]; subst.
  destruct (sort_of n).
  - destruct (2 <=? nl + newlines); [apply Forall_app; split; auto|auto].
  - auto.
  - apply Forall_app. split; [apply G|]. apply Forall_app. split; [destruct (is_plain n); [constructor|exact Hx]|auto].
Qed.
Definition fine_found (x : LexSpec.found) : Prop := forall c, Forall fine (snd x c).
Lemma fine_find l (p : node -> bool) c : Forall fine_found l -> Forall fine (found_opt (find (fun x => p (fst x)) l) c).
Proof.
  intros F. destruct (find (fun x => p (fst x)) l) as [[n f]|] eqn:E; cbn; [|constructor]. apply find_some in E as [E _].
  rewrite Forall_forall in F. exact (F _ E c).
Qed.
Lemma fine_first l a : Forall fine_found l -> Forall fine (found_first l a).
Proof.
  intros F. unfold found_first. destruct (find (fun x => is_expr (fst x)) l) as [[n f]|] eqn:E; [|constructor].
  destruct (match a with Some o => fst (range_of n) <=? o | None => false end); [constructor|]. apply find_some in E as [E _].
  rewrite Forall_forall in F. exact (F _ E CRef).
Qed.
Lemma fine_skip (p : LexSpec.found -> bool) l : Forall fine_found l -> Forall fine_found (skip_while p l).
Proof. induction 1 as [|x l H F IH]; cbn; [constructor|]. destruct (p x); [exact IH|constructor; assumption]. Qed.
Lemma fine_finds m n : forall par c, Forall fine (finds m par n c).
Proof.
  induction n as [a r|k r e p cs IH] using node_ind2; intros par c; cbn [finds].
  - destruct (get_ident m par c (Ident a r)) as [i|] eqn:E; [|constructor]. constructor; [exact (fine_get _ _ _ _ _ E)|constructor].
  - set (rs := map (fun x => (x, finds m (Some k) x)) cs).
    assert (R : Forall fine_found rs). { apply Forall_forall. intros x H. apply in_map_iff in H as (y & <- & H). rewrite Forall_forall in IH. intros c0. apply (IH y H). }
    assert (RR : Forall fine_found (rev rs)). { apply Forall_forall. intros x H. apply in_rev in H. rewrite Forall_forall in R. auto. }
    assert (N : Forall fine (found_nodes (map (fun x => (fst x, snd x (enter k c))) rs) 0 None)).
    { apply fine_nodes. apply Forall_forall. intros x H. apply in_map_iff in H as (y & <- & H). rewrite Forall_forall in R. apply (R y H). }
    destruct (get_ident m par c (Node k r e p cs)) as [i|] eqn:E.
    { constructor; [exact (fine_get _ _ _ _ _ E)|]. destruct k; try exact N; constructor. }
    destruct k; try exact N; try (cbn [is_plain]; constructor).
    + destruct (match find (fun x => is_pat (fst x)) rs with Some x => is_closure (fst x) | None => false end); [now apply fine_find|].
      apply Forall_app. split; [now apply fine_find|now apply fine_first].
    + destruct (find (fun x => is_expr (fst x)) (rev rs)) as [[n f]|] eqn:F.
      * constructor; [left; exact I|]. apply find_some in F as [F _]. rewrite Forall_forall in RR. exact (RR _ F CRef).
      * destruct (match cs with Ident name r' :: _ => match m with Symbol => Some (name, r') | Braced => None end | _ => None end) as [[? ?]|]; repeat constructor; now left.
    + apply Forall_app. split; [apply fine_find; now apply fine_skip|]. apply Forall_app. split; [now apply fine_find|now apply fine_first].
    + now apply fine_first.
    + apply Forall_app. split; [now apply fine_first|]. destruct (enter KNamed c); try constructor. now apply fine_find.
Qed.
Lemma depth_infos d i h : at_depth d i h -> In i (infos h).
Proof. induction 1 as [i cs|d i j cs h H D IH]; cbn [infos]; [now left|]. right. apply in_flat_map. eauto. Qed.
Lemma item_found f d i : item_of f d i -> exists root, f_source f = Some root /\ In i (finds Symbol None root CRef).
Proof.
  intros (root & hs & h & S & G & Hh & D). exists root. split; [exact S|]. destruct (hierarchy_total Symbol root) as (hs' & G' & E & _).
  rewrite G in G'. injection G' as <-. rewrite <- E. apply in_flat_map. exists h. split; [exact Hh|]. exact (depth_infos _ _ _ D).
Qed.
Lemma named c fs : c 0 = false -> Forall addressed fs -> exists l, workspace_symbols (Some c) fs = Some l.
Proof.
  intros C A. destruct (workspace_symbols (Some c) fs) as [l|] eqn:E; [eauto|]. exfalso. apply panics in E as (f & Hf & S & H).
  rewrite Forall_forall in A. destruct H as [H|(d & i & L & I & Q & K)]; [exact (A f Hf S H)|].
  destruct (item_found _ _ _ I) as (root & _ & F). pose proof (fine_finds Symbol root None CRef) as W. rewrite Forall_forall in W.
  destruct (W i F) as [W'|W']; [exact (K W')|]. cbn in Q. rewrite W' in Q. congruence.
Qed.
(** The order. *)
Definition info_of (s : symbol) : info := mkInfo (s_name s) (s_kind s) (s_range s).
Lemma subseq_app {A} (a b c d : list A) : subseq a b -> subseq c d -> subseq (a ++ c) (b ++ d).
Proof. induction 1; cbn; intros; [assumption|constructor; auto|constructor; auto]. Qed.
Lemma subseq_trans {A} (a b c : list A) : subseq a b -> subseq b c -> subseq a c.
Proof.
  intros H K. revert a H. induction K as [|x b c K IH|x b c K IH]; intros a H; [exact H| |constructor; auto].
  inversion H; subst; constructor; auto.
Qed.
Lemma subseq_nil {A} (a : list A) : subseq [] a.
Proof. induction a; constructor; assumption. Qed.
Lemma subseq_refl {A} (a : list A) : subseq a a.
Proof. induction a; constructor; assumption. Qed.
Lemma two_sub h : subseq (two h) (infos h).
Proof.
  destruct h as [i cs]. cbn [two infos]. constructor. induction cs as [|[j ds] cs IH]; cbn [map flat_map infos]; [constructor|].
  cbn [app]. constructor. change (map (fun c => match c with Hier j0 _ => j0 end) cs) with ([] ++ map (fun c => match c with Hier j0 _ => j0 end) cs).
  apply subseq_app; [apply subseq_nil|exact IH].
Qed.
Lemma flat_sub hs : subseq (flat_map two hs) (flat_map infos hs).
Proof. induction hs as [|h hs IH]; cbn; [constructor|]. apply subseq_app; [apply two_sub|exact IH]. Qed.
Lemma each_sub q u is_ l : each (one q u) is_ = Some l -> subseq (map info_of l) is_.
Proof.
  revert l. induction is_ as [|i r IH]; cbn [each]; intros l H; [injection H as <-; constructor|].
  destruct (one q u i) as [a|] eqn:O; [|discriminate]. destruct (each (one q u) r) as [b|]; [|discriminate]. injection H as <-.
  rewrite map_app. change (i :: r) with ([i] ++ r). apply subseq_app; [|now apply IH]. unfold one in O.
  destruct (match q with Some contains => negb (contains (i_name i)) | None => false end); [injection O as <-; apply subseq_nil|].
  destruct (is_symbol (i_kind i)); [|discriminate]. injection O as <-. cbn. destruct i; constructor; constructor.
Qed.
Lemma ordered q fs l : workspace_symbols q fs = Some l -> exists ls, l = concat ls /\
  Forall2 (fun f a => match f_source f with None => a = [] | Some root => subseq (map (fun s => mkInfo (s_name s) (s_kind s) (s_range s)) a) (finds Symbol None root CRef) /\ Forall (fun s => f_uri f = Some (s_uri s)) a end) fs ls.
Proof.
  intros H. destruct (each_some _ _ _ H) as (ls & -> & F). exists ls. split; [reflexivity|]. clear H.
  induction F as [|f a fs ls E F IH]; constructor; [|exact IH]. clear IH F. unfold of_file in E. destruct (f_source f) as [root|]; [|now injection E as <-].
  destruct (f_uri f) as [u|]; [|discriminate]. destruct (hierarchy_total Symbol root) as (hs & G & W & _). rewrite G in E.
  unfold filter_document_symbols in E. split.
  - eapply subseq_trans; [exact (each_sub _ _ _ _ E)|]. rewrite <- W. apply flat_sub.
  - apply Forall_forall. intros s Hs. apply (each_in _ _ _ s E) in Hs as (i & b & _ & O & Hb). apply (one_in _ _ _ _ _ O) in Hb as (_ & _ & ->). reflexivity.
Qed.
