(** Proofs about the runner of tests. *)
From Coq Require Import String.
From Coq Require Import List Arith NArith Bool Lia Permutation.
From Verif Require Import LocModel LocProof TstModel TstSpec.
Import ListNotations.
Local Open Scope nat_scope.

Lemma fpath_eqb_ok a b : fpath_eqb a b = true <-> a = b.
Proof. unfold fpath_eqb. destruct a as [k n], b as [k' n']. cbn. rewrite andb_true_iff, Bool.eqb_true_iff, eqb_ok. split; [intros (-> & ->); auto|intros E; injection E; auto]. Qed.
Lemma fpath_eqb_refl a : fpath_eqb a a = true.
Proof. apply fpath_eqb_ok. auto. Qed.
Lemma read_remove p q f : read q (remove p f) = if fpath_eqb p q then None else read q f.
Proof.
  unfold read, remove. induction f as [|[x d] f IH]; cbn [filter find fst]; [destruct (fpath_eqb p q); auto|]. destruct (fpath_eqb x p) eqn:E; cbn [negb find fst].
  - apply fpath_eqb_ok in E. subst. destruct (fpath_eqb p q) eqn:Q; auto.
  - destruct (fpath_eqb x q) eqn:Q; [|auto]. apply fpath_eqb_ok in Q. subst. destruct (fpath_eqb p q) eqn:P; [|auto]. apply fpath_eqb_ok in P. subst. rewrite fpath_eqb_refl in E. discriminate.
Qed.
Lemma read_write p q d f : read q (write p d f) = if fpath_eqb p q then Some d else read q f.
Proof.
  unfold write. pose proof (read_remove p q f) as R. unfold read in *. cbn [find fst]. destruct (fpath_eqb p q); auto.
Qed.

(** * Names *)

Lemma before_dot_none s : ~ In 46%N s -> before_dot s = None.
Proof. induction s as [|c s IH]; intros H; [auto|]. cbn. rewrite IH by (intros Hi; apply H; right; auto). destruct (N.eqb_spec c 46) as [->|]; [exfalso; apply H; left; auto|auto]. Qed.
Lemma before_dot_last a s : ~ In 46%N s -> before_dot (a ++ 46%N :: s) = Some a.
Proof. intros H. induction a as [|c a IH]; cbn [app before_dot]; [rewrite before_dot_none by auto; auto|rewrite IH; auto]. Qed.
Lemma stem_nonempty s : s <> [] -> stem s <> [].
Proof. unfold stem. destruct (before_dot s) as [[|c a]|]; [auto|discriminate|auto]. Qed.
Lemma stem_extend s e : stem s <> [] -> ~ In 46%N e -> stem (stem s ++ 46%N :: e) = stem s.
Proof. intros H He. unfold stem at 1. rewrite before_dot_last by auto. destruct (stem s); [contradiction|auto]. Qed.
Lemma stem_plain s : ~ In 46%N s -> stem s = s.
Proof. intros H. unfold stem. rewrite before_dot_none by auto. auto. Qed.
Lemma ext_dot html : ~ In 46%N (ext html).
Proof. destruct html; cbv; intros H; repeat (destruct H as [H|H]; [discriminate|]); auto. Qed.
Lemma ref_name html n : ref_path html n = (html, stem n ++ 46%N :: ext html).
Proof. reflexivity. Qed.
Lemma tmp_name html n : n <> [] -> tmp_path html n = (html, stem n ++ 46%N :: lit "tmp." ++ ext html).
Proof. intros H. unfold tmp_path, with_extension. rewrite ref_name. cbn [snd]. rewrite stem_extend; [reflexivity|apply stem_nonempty; auto|apply ext_dot]. Qed.
Lemma hash_name html n : n <> [] -> hash_path html n = (html, stem n ++ 46%N :: lit "hash").
Proof. intros H. unfold hash_path, with_extension. rewrite ref_name. cbn [snd]. rewrite stem_extend; [reflexivity|apply stem_nonempty; auto|apply ext_dot]. Qed.
Lemma ref_hash html n : n <> [] -> ref_path html n <> hash_path html n.
Proof. intros H. rewrite ref_name, hash_name by auto. intros E. injection E as E. apply app_inv_head in E. destruct html; discriminate. Qed.
Lemma ref_tmp html n : n <> [] -> ref_path html n <> tmp_path html n.
Proof. intros H. rewrite ref_name, tmp_name by auto. intros E. injection E as E. apply app_inv_head in E. destruct html; discriminate. Qed.
Lemma hash_tmp html n : n <> [] -> hash_path html n <> tmp_path html n.
Proof. intros H. rewrite hash_name, tmp_name by auto. intros E. injection E as E. apply app_inv_head in E. destruct html; discriminate. Qed.
(** The files of an example. *)
Definition own (n : text) (p : fpath) : Prop := p = ref_path (fst p) n \/ p = tmp_path (fst p) n \/ p = hash_path (fst p) n.
Lemma own_stem n p : n <> [] -> own n p -> exists s, snd p = stem n ++ 46%N :: s.
Proof. intros Hn [->|[->| ->]]; rewrite ?ref_name, ?(tmp_name _ _ Hn), ?(hash_name _ _ Hn); cbn [snd fst]; eauto. Qed.
Lemma first_dot (a b : text) x y : ~ In 46%N a -> ~ In 46%N b -> a ++ 46%N :: x = b ++ 46%N :: y -> a = b.
Proof.
  revert b. induction a as [|c a IH]; intros [|d b] Ha Hb E; cbn in *; [auto| | |].
  - injection E as <- _. exfalso. apply Hb. auto.
  - injection E as -> _. exfalso. apply Ha. auto.
  - injection E as -> E. f_equal. apply IH; auto.
Qed.
Lemma own_apart n m p : plain_name n -> plain_name m -> own n p -> own m p -> n = m.
Proof.
  intros (N1 & N2) (M1 & M2) Hn Hm. destruct (own_stem _ _ N1 Hn) as (s & E). destruct (own_stem _ _ M1 Hm) as (s' & E'). rewrite E in E'. rewrite !stem_plain in E' by auto. eapply first_dot; eauto.
Qed.

(** * One reference *)

Definition equal_of (hash : text -> text) (html : bool) (n data : text) (f : files) : option bool :=
  match read (hash_path html n) f with Some h => Some (eqb h (hash data)) | None => None end.
Definition after (update : bool) (hash : text -> text) (n data : text) (html : bool) (f : files) (p : fpath) : option text :=
  match update, equal_of hash html n data f with
  | false, Some false => if fpath_eqb (tmp_path html n) p then Some data else read p f
  | _, Some true => if fpath_eqb (tmp_path html n) p then None else read p f
  | _, _ => if fpath_eqb (hash_path html n) p then Some (hash data) else if fpath_eqb (ref_path html n) p then Some data else if fpath_eqb (tmp_path html n) p then None else read p f
  end.
Lemma update_read u hash n data html r p : read p (fs (update_example u hash n data html r)) = after u hash n data html (fs r) p.
Proof.
  unfold update_example, after, equal_of. destruct (read (hash_path html n) (fs r)) as [h|]; [destruct (eqb h (hash data))|]; destruct u; cbn [fs set_fs mismatch mark_failed]; rewrite ?read_write, ?read_remove; auto.
Qed.
Lemma after_frame u hash n data html f p : ~ own n p \/ fst p <> html -> after u hash n data html f p = read p f.
Proof.
  intros H. assert (A : fpath_eqb (tmp_path html n) p = false /\ fpath_eqb (hash_path html n) p = false /\ fpath_eqb (ref_path html n) p = false).
  { split; [|split].
    - destruct (fpath_eqb (tmp_path html n) p) eqn:E; [|auto]. apply fpath_eqb_ok in E. exfalso. destruct H as [H|H]; [apply H; right; left; rewrite <- E at 2; cbn; rewrite <- E; auto|subst; auto].
    - destruct (fpath_eqb (hash_path html n) p) eqn:E; [|auto]. apply fpath_eqb_ok in E. exfalso. destruct H as [H|H]; [apply H; right; right; rewrite <- E at 2; cbn; rewrite <- E; auto|subst; auto].
    - destruct (fpath_eqb (ref_path html n) p) eqn:E; [|auto]. apply fpath_eqb_ok in E. exfalso. destruct H as [H|H]; [apply H; left; rewrite <- E at 2; cbn; rewrite <- E; auto|subst; auto]. }
  destruct A as (A1 & A2 & A3). unfold after. rewrite A1, A2, A3. destruct u, (equal_of hash html n data f) as [[]|]; auto.
Qed.
Lemma update_failed u hash n data html r : failed (update_example u hash n data html r) = false <-> failed r = false /\ ref_ok u hash (fs r) html n data.
Proof.
  unfold update_example, ref_ok. destruct (read (hash_path html n) (fs r)) as [h|]; [destruct (eqb h (hash data)) eqn:E|]; destruct u; cbn.
  - split; [intros H; auto|tauto].
  - apply eqb_ok in E. subst. split; [intros H; auto|tauto].
  - split; [intros H; auto|tauto].
  - apply eqb_no in E. split; [discriminate|]. intros (_ & [H|[H|H]]); [discriminate|discriminate|injection H as H; contradiction].
  - split; [intros H; auto|tauto].
  - split; [intros H; auto|tauto].
Qed.
Lemma update_names u hash n data html r : names (update_example u hash n data html r) = names r /\ diags (update_example u hash n data html r) = diags r.
Proof. unfold update_example. destruct (read (hash_path html n) (fs r)) as [h|]; [destruct (eqb h (hash data))|]; destruct u; cbn; auto. Qed.

(** * One example *)

Definition mild_diags (r : runner) : Prop := forall x, In x (concat (diags r)) -> x = false.
Lemma warn_same d r : fs (warn d r) = fs r /\ names (warn d r) = names r /\ failed (warn d r) = failed r /\ log (warn d r) = log r.
Proof. unfold warn. destruct d; cbn; auto. Qed.
Lemma push_mild d r : mild_diags r -> (forall x, In x d -> x = false) -> mild_diags (push_diags d r).
Proof. intros H Hd x Hx. unfold push_diags in Hx. cbn in Hx. rewrite concat_app in Hx. apply in_app_or in Hx. destruct Hx as [Hx|Hx]; [auto|]. cbn in Hx. rewrite app_nil_r in Hx. auto. Qed.
Lemma warn_mild d r : mild_diags r -> (forall x, In x d -> x = false) -> mild_diags (warn d r).
Proof. intros H Hd. unfold warn. destruct d; [auto|]. apply push_mild; auto. Qed.
Lemma html_step u hash e r :
  let '(err, r') := run_html u hash e r in
  names r' = names r /\ (forall p, ~ own (e_name e) p \/ fst p = false -> read p (fs r') = read p (fs r)) /\
  (err = false /\ failed r' = false <-> failed r = false /\ exists data, e_hdoc e = Html data /\ ref_ok u hash (fs r) true (e_name e) data) /\
  (forall data, e_hdoc e = Html data -> (mild_diags r -> mild e -> mild_diags r') /\ forall p, read p (fs r') = after u hash (e_name e) data true (fs r) p).
Proof.
  unfold run_html. destruct (warn_same (e_hwarn e) r) as (W1 & W2 & W3 & W4). destruct (e_hdoc e) as [d|d|data] eqn:E.
  - cbn. rewrite W1, W2, W3. split; [auto|]. split; [auto|]. split; [|intros data H; discriminate]. split; [intros (H & _); discriminate|intros (_ & data & H & _); discriminate].
  - cbn. rewrite W1, W2. split; [auto|]. split; [auto|]. split; [|intros data H; discriminate]. split; [intros (H & _); discriminate|intros (_ & data & H & _); discriminate].
  - destruct (update_names u hash (e_name e) data true (warn (e_hwarn e) r)) as (N1 & N2). rewrite N1, W2. split; [auto|]. split; [|split].
    + intros p Hp. rewrite update_read, W1. apply after_frame. destruct Hp as [Hp|Hp]; [auto|]. right. rewrite Hp. discriminate.
    + rewrite update_failed, W1, W3. split; [intros (_ & H1 & H2); eauto|]. intros (H1 & data' & H2 & H3). injection H2 as ->. auto.
    + intros data' H. injection H as <-. split.
      * intros M (_ & Me). pose proof (warn_mild (e_hwarn e) r M Me) as K. unfold mild_diags in *. rewrite N2. auto.
      * intros p. rewrite update_read, W1. auto.
Qed.
Lemma pages_step u hash e r :
  let '(err, doc, r') := run_pages u hash e r in
  names r' = names r /\ (forall p, ~ own (e_name e) p \/ fst p = true -> read p (fs r') = read p (fs r)) /\
  (err = false /\ failed r' = false <-> failed r = false /\ exists data, e_pages e = Png data /\ ref_ok u hash (fs r) false (e_name e) data) /\
  (forall data, e_pages e = Png data -> doc = true /\ (mild_diags r -> mild e -> mild_diags r') /\ forall p, read p (fs r') = after u hash (e_name e) data false (fs r) p).
Proof.
  unfold run_pages. destruct (warn_same (e_warn e) r) as (W1 & W2 & W3 & W4). destruct (e_pages e) as [d| |data] eqn:E.
  - cbn. rewrite W1, W2, W3. split; [auto|]. split; [auto|]. split; [|intros data H; discriminate]. split; [intros (H & _); discriminate|intros (_ & data & H & _); discriminate].
  - cbn. rewrite W1, W2. split; [auto|]. split; [auto|]. split; [|intros data H; discriminate]. split; [intros (H & _); discriminate|intros (_ & data & H & _); discriminate].
  - destruct (update_names u hash (e_name e) data false (warn (e_warn e) r)) as (N1 & N2). rewrite N1, W2. split; [auto|]. split; [|split].
    + intros p Hp. rewrite update_read, W1. apply after_frame. destruct Hp as [Hp|Hp]; [auto|]. right. rewrite Hp. discriminate.
    + rewrite update_failed, W1, W3. split; [intros (_ & H1 & H2); eauto|]. intros (H1 & data' & H2 & H3). injection H2 as ->. auto.
    + intros data' H. injection H as <-. split; [auto|]. split.
      * intros M (Me & _). pose proof (warn_mild (e_warn e) r M Me) as K. unfold mild_diags in *. rewrite N2. auto.
      * intros p. rewrite update_read, W1. auto.
Qed.
Lemma known_ok n l : existsb (eqb n) l = true <-> In n l.
Proof. rewrite existsb_exists. split; [intros (x & H & E); apply eqb_ok in E; subst; auto|intros H; exists n; split; [auto|apply eqb_refl]]. Qed.
Lemma ref_ok_frame u hash f f' html n data : read (hash_path html n) f' = read (hash_path html n) f -> (ref_ok u hash f' html n data <-> ref_ok u hash f html n data).
Proof. intros H. unfold ref_ok. rewrite H. tauto. Qed.
Lemma after_ext u hash n data html f f' p : read (hash_path html n) f' = read (hash_path html n) f -> read p f' = read p f -> after u hash n data html f' p = after u hash n data html f p.
Proof. intros H H'. unfold after, equal_of. rewrite H, H'. auto. Qed.
Lemma example_frame u hash e r p : ~ own (e_name e) p -> read p (fs (run_example u hash e r)) = read p (fs r).
Proof.
  intros Hp. unfold run_example. destruct (existsb (eqb (e_name e)) (names (running (e_name e) r))); [auto|]. set (r0 := {| fs := _; diags := _; names := _; failed := _; log := _ |}).
  pose proof (pages_step u hash e r0) as P. destruct (run_pages u hash e r0) as [[err doc] r1]. destruct P as (_ & P & _). destruct (doc && e_html e).
  - pose proof (html_step u hash e r1) as Q. destruct (run_html u hash e r1) as [err' r2]. destruct Q as (_ & Q & _). destruct (err || err'); cbn; rewrite Q, P by auto; auto.
  - destruct err; cbn; rewrite P by auto; auto.
Qed.
Lemma example_step u hash e r : ~ In (e_name e) (names r) ->
  (forall m, In m (names (run_example u hash e r)) <-> m = e_name e \/ In m (names r)) /\
  (failed (run_example u hash e r) = false <-> failed r = false /\ example_ok u hash (fs r) e) /\
  (example_ok u hash (fs r) e -> mild_diags r -> mild e -> mild_diags (run_example u hash e r)).
Proof.
  intros Hn. unfold run_example. destruct (existsb (eqb (e_name e)) (names (running (e_name e) r))) eqn:K; [apply known_ok in K; contradiction|].
  set (r0 := {| fs := _; diags := _; names := _; failed := _; log := _ |}).
  pose proof (pages_step u hash e r0) as P. destruct (run_pages u hash e r0) as [[err doc] r1]. destruct P as (P1 & P2 & P3 & P4).
  assert (R : forall p, read p (fs r0) = read p (fs r)) by auto. assert (Rh : read (hash_path true (e_name e)) (fs r1) = read (hash_path true (e_name e)) (fs r)) by (apply P2; auto).
  destruct (doc && e_html e) eqn:D.
  - apply andb_true_iff in D. destruct D as (-> & D). pose proof (html_step u hash e r1) as Q. destruct (run_html u hash e r1) as [err' r2]. destruct Q as (Q1 & Q2 & Q3 & Q4). split; [|split].
    + intros m. destruct (err || err'); cbn; rewrite Q1, P1; cbn; split; intros [H|H]; auto.
    + assert (G : (err || err' = false /\ failed r2 = false) <-> failed r = false /\ example_ok u hash (fs r) e).
      { split.
        - intros (H1 & H2). apply orb_false_iff in H1. destruct H1 as (-> & ->). destruct (proj1 Q3 (conj eq_refl H2)) as (F1 & data & E & O). destruct (proj1 P3 (conj eq_refl F1)) as (F0 & data0 & E0 & O0). split; [auto|]. split; [eauto|]. intros _. exists data. split; [auto|]. apply (ref_ok_frame u hash (fs r1) (fs r)); auto.
        - intros (F & (data0 & E0 & O0) & Hh). destruct (Hh D) as (data & E & O). destruct (proj2 P3) as (-> & F1); [split; [auto|eauto]|]. destruct (proj2 Q3) as (-> & F2); [split; [auto|]; exists data; split; [auto|]; apply (ref_ok_frame u hash (fs r) (fs r1)); auto|]. auto. }
      rewrite <- G. destruct (err || err'); cbn; split; try tauto; try discriminate; intros (H & _); discriminate.
    + intros ((data0 & E0 & O0) & Hh) M Me. destruct (Hh D) as (data & E & O). destruct (P4 _ E0) as (_ & M1 & _). destruct (Q4 _ E) as (M2 & _). assert (M' : mild_diags r2) by auto. destruct (err || err'); exact M'.
  - split; [|split].
    + intros m. destruct err; cbn; rewrite P1; cbn; split; intros [H|H]; auto.
    + assert (G : (err = false /\ failed r1 = false) <-> failed r = false /\ example_ok u hash (fs r) e).
      { rewrite P3. split.
        - intros (F & data & E & O). split; [auto|]. split; [eauto|]. intros Hh. destruct (P4 _ E) as (-> & _). rewrite Hh in D. discriminate.
        - intros (F & H & _). auto. }
      rewrite <- G. destruct err; cbn; split; try tauto; try discriminate; intros (H & _); discriminate.
    + intros ((data0 & E0 & O0) & Hh) M Me. destruct (P4 _ E0) as (_ & M1 & _). assert (M' : mild_diags r1) by auto. destruct err; exact M'.
Qed.

(** * All cases *)

Lemma example_ok_frame u hash f f' e : (forall p, own (e_name e) p -> read p f' = read p f) -> (example_ok u hash f' e <-> example_ok u hash f e).
Proof.
  intros H. assert (A : forall html data, ref_ok u hash f' html (e_name e) data <-> ref_ok u hash f html (e_name e) data) by (intros html data; apply ref_ok_frame; apply H; right; right; auto).
  unfold example_ok. split; intros ((d & E & O) & Hh); (split; [exists d; split; [auto|apply A; auto]|]); intros X; destruct (Hh X) as (d' & E' & O'); exists d'; (split; [auto|apply A; auto]).
Qed.
Definition case_examples (c : case) : list example := match c with Example_ e | Test_ (Shows _ (Some e)) => [e] | _ => [] end.
Lemma case_ok_frame u hash f f' c : (forall e p, In e (case_examples c) -> own (e_name e) p -> read p f' = read p f) -> (case_ok u hash f' c <-> case_ok u hash f c).
Proof. intros H. destruct c as [e|[n res|n res|n [e|]]]; cbn in *; try tauto; apply example_ok_frame; intros p Hp; apply (H e p); auto. Qed.
Lemma case_frame u hash c r p : (forall e, In e (case_examples c) -> ~ own (e_name e) p) -> read p (fs (run_case u hash r c)) = read p (fs r).
Proof.
  intros H. destruct c as [e|[n res|n res|n [e|]]]; cbn in *; [apply example_frame; auto|destruct res; auto|destruct res as [errs|]; [destruct (forallb snd errs); auto|auto]|apply example_frame; auto|auto].
Qed.
Lemma case_step u hash c r : (forall e, In e (case_examples c) -> ~ In (e_name e) (names r) /\ mild e) ->
  (forall m, In m (names (run_case u hash r c)) -> In m (map e_name (case_examples c)) \/ In m (names r)) /\
  (failed (run_case u hash r c) = false <-> failed r = false /\ case_ok u hash (fs r) c) /\
  (case_ok u hash (fs r) c -> mild_diags r -> mild_diags (run_case u hash r c)).
Proof.
  intros H. destruct c as [e|[n res|n res|n [e|]]]; cbn [run_case run_test case_ok case_examples map] in *.
  - destruct (H e (or_introl eq_refl)) as (H1 & H2). destruct (example_step u hash e r H1) as (A & B & C). split; [intros m Hm; apply A in Hm; cbn; destruct Hm; auto|]. split; [auto|]. intros X Y. auto.
  - destruct res as [errs|]; cbn.
    + split; [auto|]. split; [|intros X; discriminate]. split; [discriminate|intros (_ & X); discriminate].
    + split; [auto|]. split; [tauto|]. intros _ X. exact X.
  - destruct res as [errs|]; cbn.
    + destruct (forallb snd errs) eqn:E; cbn.
      * rewrite forallb_forall in E. split; [auto|]. split; [split; [intros F; split; [auto|eauto]|tauto]|]. intros _ X. exact X.
      * split; [auto|]. assert (N : ~ exists errs0, Some errs = Some errs0 /\ forall x : bool * bool, In x errs0 -> snd x = true).
        { intros (errs0 & X & Y). injection X as <-. assert (Z : forallb snd errs = true) by (apply forallb_forall; auto). congruence. }
        split; [split; [discriminate|tauto]|tauto].
    + split; [auto|]. split; [split; [discriminate|intros (_ & errs & X & _); discriminate]|intros (errs & X & _); discriminate].
  - destruct (H e (or_introl eq_refl)) as (H1 & H2). destruct (example_step u hash e r H1) as (A & B & C). split; [intros m Hm; apply A in Hm; cbn; destruct Hm; auto|]. split; [auto|]. intros X Y. auto.
  - split; [auto|]. split; [split; [discriminate|tauto]|tauto].
Qed.
Lemma examples_cons c cs : examples (c :: cs) = case_examples c ++ examples cs.
Proof. reflexivity. Qed.
Lemma nodup_split {A} (a b : list A) : NoDup (a ++ b) -> NoDup b /\ forall x, In x a -> ~ In x b.
Proof.
  induction a as [|x a IH]; cbn; intros H; [split; [auto|intros x []]|]. inversion H as [|y l Hx Hd]; subst. destruct (IH Hd) as (H1 & H2). split; [auto|]. intros y [<-|Hy]; [intros Hb; apply Hx; apply in_or_app; auto|auto].
Qed.
Lemma nodup_head {A} (a b : list A) : NoDup (a ++ b) -> NoDup a.
Proof. induction a as [|x a IH]; cbn; intros H; [constructor|]. inversion H as [|y l Hx Hd]; subst. constructor; [intros Hi; apply Hx; apply in_or_app; auto|auto]. Qed.
Lemma cases_frame u hash cs : forall r p, (forall e, In e (examples cs) -> ~ own (e_name e) p) -> read p (fs (fold_left (run_case u hash) cs r)) = read p (fs r).
Proof.
  induction cs as [|c cs IH]; intros r p H; [auto|]. cbn [fold_left]. rewrite examples_cons in H. rewrite IH by (intros e He; apply H; apply in_or_app; auto). apply case_frame. intros e He. apply H. apply in_or_app. auto.
Qed.
Lemma cases_step u hash cs : forall r, well cs -> (forall e, In e (examples cs) -> ~ In (e_name e) (names r)) ->
  (failed (fold_left (run_case u hash) cs r) = false <-> failed r = false /\ Forall (case_ok u hash (fs r)) cs) /\
  (Forall (case_ok u hash (fs r)) cs -> mild_diags r -> mild_diags (fold_left (run_case u hash) cs r)) /\
  (forall m, In m (names (fold_left (run_case u hash) cs r)) -> In m (map e_name (examples cs)) \/ In m (names r)).
Proof.
  induction cs as [|c cs IH]; intros r (ND & W) Hn; cbn [fold_left].
  - split; [split; [intros H; split; [auto|constructor]|tauto]|]. split; [intros _ X; exact X|auto].
  - rewrite examples_cons in *. rewrite map_app in *. destruct (nodup_split _ _ ND) as (ND' & Hd).
    destruct (case_step u hash c r) as (A & B & C). { intros e He. split; [apply Hn; apply in_or_app; auto|apply W; apply in_or_app; auto]. }
    assert (Hfr : forall c', In c' cs -> (case_ok u hash (fs (run_case u hash r c)) c' <-> case_ok u hash (fs r) c')).
    { intros c' Hc'. apply case_ok_frame. intros e p He Hp. apply case_frame. intros e0 He0 Hp0. assert (Hin : In e (examples cs)) by (apply in_flat_map; exists c'; auto).
      assert (En : e_name e0 = e_name e) by (apply (own_apart (e_name e0) (e_name e) p); auto; apply W; apply in_or_app; auto). apply (Hd (e_name e0)); [apply in_map; auto|]. rewrite En. apply in_map. auto. }
    assert (Hall : Forall (case_ok u hash (fs (run_case u hash r c))) cs <-> Forall (case_ok u hash (fs r)) cs).
    { rewrite !Forall_forall. split; intros H x Hx; apply Hfr; auto. }
    destruct (IH (run_case u hash r c)) as (I1 & I2 & I3).
    { split; [auto|]. intros e He. apply W. apply in_or_app. auto. }
    { intros e He Hi. apply A in Hi. destruct Hi as [Hi|Hi]; [apply (Hd _ Hi); apply in_map; auto|]. apply (Hn e); [apply in_or_app; auto|auto]. }
    split; [|split].
    + rewrite I1, Hall, B. split; [intros ((F & O) & R); split; [auto|constructor; auto]|]. intros (F & R). inversion R; subst. auto.
    + intros R M. inversion R; subst. apply I2; [apply Hall; auto|auto].
    + intros m Hm. apply I3 in Hm. rewrite in_app_iff. destruct Hm as [Hm|Hm]; [auto|]. apply A in Hm. destruct Hm; auto.
Qed.
