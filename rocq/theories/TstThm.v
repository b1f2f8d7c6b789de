(** Theorems about the runner of tests. *)
From Coq Require Import String.
From Coq Require Import List Arith NArith Bool Lia Permutation.
From Verif Require Import LocModel LocProof TstModel TstSpec TstProof.
Import ListNotations.
Local Open Scope nat_scope.

(** * C156: the references of examples *)

(** Where they are. *)
Theorem C156_places : forall n, plain_name n ->
  ref_path false n = (false, n ++ lit ".png") /\ ref_path true n = (true, n ++ lit ".html") /\
  tmp_path false n = (false, n ++ lit ".tmp.png") /\ tmp_path true n = (true, n ++ lit ".tmp.html") /\
  forall html, hash_path html n = (html, n ++ lit ".hash").
Proof.
  intros n [N D].
  assert (R : forall e, ~ In 46%N e -> stem (n ++ 46%N :: e) = n) by (intros e E; rewrite <- (stem_plain n D) at 1; rewrite stem_extend; [now apply stem_plain|now rewrite stem_plain|exact E]).
  unfold ref_path, tmp_path, hash_path, with_extension. cbn [fst snd app]. unfold ext. rewrite !(stem_plain n D).
  assert (P : stem (n ++ 46%N :: lit "png") = n) by (apply R; vm_compute; intuition discriminate).
  assert (H : stem (n ++ 46%N :: lit "html") = n) by (apply R; vm_compute; intuition discriminate).
  assert (RP : snd (ref_path false n) = n ++ 46%N :: lit "png") by (unfold ref_path, with_extension, ext; cbn [snd]; now rewrite (stem_plain n D)).
  assert (RH : snd (ref_path true n) = n ++ 46%N :: lit "html") by (unfold ref_path, with_extension, ext; cbn [snd]; now rewrite (stem_plain n D)).
  rewrite RP, RH, P, H. repeat split. intros []; [rewrite RH, H|rewrite RP, P]; reflexivity.
Qed.
Print Assumptions C156_places.
Example C156_places_case : plain_name (lit "example_1") /\ tmp_path true (lit "example_1") = (true, lit "example_1.tmp.html").
Proof. split; [|reflexivity]. split; [discriminate|vm_compute; intuition discriminate]. Qed.
(** Data with the stored hash pass; only a leftover of a mismatch is removed. *)
Theorem C156_match : forall update hash n data html r, read (hash_path html n) (fs r) = Some (hash data) ->
  let r' := update_example update hash n data html r in
  failed r' = failed r /\ log r' = log r /\ read (tmp_path html n) (fs r') = None /\
  forall p, p <> tmp_path html n -> read p (fs r') = read p (fs r).
Proof.
  intros u hash n data html r H r'. assert (E : r' = set_fs (remove (tmp_path html n) (fs r)) r).
  { subst r'. unfold update_example. rewrite H, eqb_refl. destruct u; auto. }
  rewrite E. cbn [failed log fs set_fs]. split; [auto|]. split; [auto|]. split; [rewrite read_remove, fpath_eqb_refl; auto|].
  intros p Hp. rewrite read_remove. destruct (fpath_eqb (tmp_path html n) p) eqn:Q; [|auto]. apply fpath_eqb_ok in Q. congruence.
Qed.
Print Assumptions C156_match.
(** Without a stored hash, or with other data and permission to update, the data
    become the reference. *)
Theorem C156_update : forall update hash n data html r, n <> [] ->
  (read (hash_path html n) (fs r) = None \/ update = true /\ read (hash_path html n) (fs r) <> Some (hash data)) ->
  let r' := update_example update hash n data html r in
  failed r' = failed r /\ log r' = log r /\
  read (ref_path html n) (fs r') = Some data /\ read (hash_path html n) (fs r') = Some (hash data) /\ read (tmp_path html n) (fs r') = None /\
  forall p, p <> ref_path html n -> p <> hash_path html n -> p <> tmp_path html n -> read p (fs r') = read p (fs r).
Proof.
  intros u hash n data html r Hn H r'.
  assert (E : r' = set_fs (write (hash_path html n) (hash data) (write (ref_path html n) data (remove (tmp_path html n) (fs r)))) r).
  { subst r'. unfold update_example. destruct (read (hash_path html n) (fs r)) as [h|]; [|destruct u; auto]. destruct H as [H|(-> & H)]; [discriminate|].
    destruct (eqb h (hash data)) eqn:Q; [apply eqb_ok in Q; congruence|auto]. }
  assert (N : forall a b : fpath, a <> b -> fpath_eqb a b = false) by (intros a b Hab; destruct (fpath_eqb a b) eqn:Q; [apply fpath_eqb_ok in Q; contradiction|auto]).
  pose proof (ref_hash html n Hn) as A1. pose proof (ref_tmp html n Hn) as A2. pose proof (hash_tmp html n Hn) as A3.
  rewrite E. cbn [failed log fs set_fs]. split; [auto|]. split; [auto|]. split; [|split; [|split]].
  - rewrite !read_write, (N (hash_path html n) (ref_path html n)), fpath_eqb_refl by auto. auto.
  - rewrite read_write, fpath_eqb_refl. auto.
  - rewrite !read_write, read_remove, !N, fpath_eqb_refl by auto. auto.
  - intros p H1 H2 H3. rewrite !read_write, read_remove, !N by auto. auto.
Qed.
Print Assumptions C156_update.
(** Other data without permission fail, are kept aside and leave the reference. *)
Theorem C156_mismatch : forall hash n data html r h, read (hash_path html n) (fs r) = Some h -> h <> hash data ->
  let r' := update_example false hash n data html r in
  failed r' = true /\ log r' = log r ++ [Failed n; Mismatch n] /\ read (tmp_path html n) (fs r') = Some data /\
  forall p, p <> tmp_path html n -> read p (fs r') = read p (fs r).
Proof.
  intros hash n data html r h H Hh r'. assert (E : r' = mismatch n (mark_failed n (set_fs (write (tmp_path html n) data (fs r)) r))).
  { subst r'. unfold update_example. rewrite H. destruct (eqb h (hash data)) eqn:Q; [apply eqb_ok in Q; contradiction|auto]. }
  rewrite E. cbn [failed log fs set_fs mark_failed mismatch]. split; [auto|]. split; [rewrite <- app_assoc; auto|]. split; [rewrite read_write, fpath_eqb_refl; auto|].
  intros p Hp. rewrite read_write. destruct (fpath_eqb (tmp_path html n) p) eqn:Q; [|auto]. apply fpath_eqb_ok in Q. congruence.
Qed.
Print Assumptions C156_mismatch.
(** The same data again pass and change nothing, once they passed. *)
Theorem C156_again : forall update update' hash n data html r r2, n <> [] ->
  ref_ok update hash (fs r) html n data ->
  (forall p, read p (fs r2) = read p (fs (update_example update hash n data html r))) ->
  let r3 := update_example update' hash n data html r2 in
  failed r3 = failed r2 /\ log r3 = log r2 /\ forall p, read p (fs r3) = read p (fs r2).
Proof.
  intros u u' hash n data html r r2 Hn Hok H2 r3.
  assert (A : read (hash_path html n) (fs r2) = Some (hash data) /\ read (tmp_path html n) (fs r2) = None).
  { rewrite !H2. destruct (read (hash_path html n) (fs r)) as [h|] eqn:E.
    - destruct (eqb h (hash data)) eqn:Q.
      + apply eqb_ok in Q. subst h. destruct (C156_match u hash n data html r E) as (_ & _ & T & F). split; [rewrite F; [auto|apply hash_tmp; auto]|auto].
      + apply eqb_no in Q. destruct u; [|destruct Hok as [X|[X|X]]; congruence]. destruct (C156_update true hash n data html r Hn) as (_ & _ & _ & X & Y & _); [right; split; [auto|congruence]|auto].
    - destruct (C156_update u hash n data html r Hn) as (_ & _ & _ & X & Y & _); auto. }
  destruct A as (A & T). destruct (C156_match u' hash n data html r2 A) as (B1 & B2 & B3 & B4). split; [auto|]. split; [auto|].
  intros p. destruct (fpath_eqb (tmp_path html n) p) eqn:Q; [apply fpath_eqb_ok in Q; subst p; rewrite T; auto|]. apply B4. intros ->. rewrite fpath_eqb_refl in Q. discriminate.
Qed.
Print Assumptions C156_again.
(** Data that do not pass do not pass again, until an update is permitted. *)
Theorem C156_still : forall hash n data html r, n <> [] -> ~ ref_ok false hash (fs r) html n data ->
  ~ ref_ok false hash (fs (update_example false hash n data html r)) html n data /\
  ref_ok true hash (fs (update_example false hash n data html r)) html n data.
Proof.
  intros hash n data html r Hn H. split; [|left; auto]. destruct (read (hash_path html n) (fs r)) as [h|] eqn:E; [|exfalso; apply H; right; left; auto].
  assert (Hh : h <> hash data) by (intros ->; apply H; right; right; auto). destruct (C156_mismatch hash n data html r h E Hh) as (_ & _ & _ & F).
  intros O. apply H. eapply ref_ok_frame; [|exact O]. symmetry. apply F. apply hash_tmp. auto.
Qed.
Print Assumptions C156_still.
(** Examples with plain names never share a file. *)
Theorem C156_apart : forall n m html html', plain_name n -> plain_name m -> n <> m ->
  ref_path html n <> ref_path html' m /\ hash_path html n <> hash_path html' m /\ tmp_path html n <> tmp_path html' m /\
  ref_path html n <> hash_path html' m /\ ref_path html n <> tmp_path html' m /\ hash_path html n <> tmp_path html' m.
Proof.
  intros n m k k' Hn Hm Hnm. assert (A : forall p q, own n p -> own m q -> p <> q) by (intros p q Hp Hq ->; apply Hnm; eapply own_apart; eauto).
  assert (O1 : forall k x, own x (ref_path k x)) by (intros; left; auto). assert (O2 : forall k x, own x (tmp_path k x)) by (intros; right; left; auto). assert (O3 : forall k x, own x (hash_path k x)) by (intros; right; right; auto).
  repeat split; apply A; auto.
Qed.
Print Assumptions C156_apart.
(** Names with dots share the reference: two new examples, each of which passes
    alone, fail together. *)
Theorem C156_shared_refuted : exists hash a b, e_name a <> e_name b /\
  success (finish (run false hash [Example_ a] [])) = true /\ success (finish (run false hash [Example_ b] [])) = true /\
  success (finish (run false hash [Example_ a; Example_ b] [])) = false.
Proof.
  exists (fun d => d), {| e_name := lit "x.a"; e_warn := []; e_pages := Png (lit "1"); e_html := false; e_hwarn := []; e_hdoc := Html [] |},
    {| e_name := lit "x.b"; e_warn := []; e_pages := Png (lit "2"); e_html := false; e_hwarn := []; e_hdoc := Html [] |}.
  split; [discriminate|]. repeat split; reflexivity.
Qed.
Print Assumptions C156_shared_refuted.
(** A reference without its hash is replaced, without permission to update. *)
Theorem C156_replaced_refuted : exists hash n data old f, read (ref_path false n) f = Some old /\ old <> data /\
  let r' := update_example false hash n data false (fresh f) in failed r' = false /\ read (ref_path false n) (fs r') = Some data.
Proof. exists (fun d => d), (lit "a"), (lit "new"), (lit "old"), [((false, lit "a.png"), lit "old")]. split; [reflexivity|]. split; [discriminate|]. split; reflexivity. Qed.
Print Assumptions C156_replaced_refuted.
Example C156_nonvacuous :
  let hash := fun d => lit "#" ++ d in let n := lit "fig" in
  let r1 := update_example false hash n (lit "one") false (fresh []) in
  let r2 := update_example false hash n (lit "two") false r1 in
  let r3 := update_example true hash n (lit "two") false r2 in
  fs r1 = [((false, lit "fig.hash"), lit "#one"); ((false, lit "fig.png"), lit "one")] /\ failed r1 = false /\
  read (false, lit "fig.tmp.png") (fs r2) = Some (lit "two") /\ read (false, lit "fig.png") (fs r2) = Some (lit "one") /\ failed r2 = true /\
  fs r3 = [((false, lit "fig.hash"), lit "#two"); ((false, lit "fig.png"), lit "two")].
Proof. cbv zeta. repeat split; reflexivity. Qed.

(** * C157: the verdict of a run *)

(** A run succeeds if and only if every case is fine by itself. *)
Theorem C157_verdict : forall update hash cs f, well cs ->
  (success (finish (run update hash cs f)) = true <-> Forall (case_ok update hash f) cs).
Proof.
  intros u hash cs f W. destruct (cases_step u hash cs (fresh f) W) as (A & B & _); [intros e He []|]. unfold run, finish.
  assert (M0 : mild_diags (fresh f)) by (intros x []).
  split.
  - intros H. destruct (existsb (fun d => d) _); [discriminate|]. cbn [success] in H. apply negb_true_iff in H. apply A in H. apply H.
  - intros H. assert (F : failed (fold_left (run_case u hash) cs (fresh f)) = false) by (apply A; auto). pose proof (B H M0) as M.
    destruct (existsb (fun d => d) _) eqn:E; [|cbn; rewrite F; auto]. apply existsb_exists in E. destruct E as (x & Hx & ->). apply M in Hx. discriminate.
Qed.
Print Assumptions C157_verdict.
(** The order of the cases does not matter. *)
Theorem C157_order : forall update hash cs cs' f, well cs -> Permutation cs cs' ->
  success (finish (run update hash cs' f)) = success (finish (run update hash cs f)).
Proof.
  intros u hash cs cs' f W P. assert (Pe : Permutation (examples cs) (examples cs')).
  { clear W. induction P as [|c a b P IH|c d a|a b c P1 I1 P2 I2]; [auto| | |].
    - rewrite !examples_cons. apply Permutation_app_head. auto.
    - rewrite !examples_cons, !app_assoc. apply Permutation_app_tail. apply Permutation_app_comm.
    - eapply perm_trans; eauto. }
  assert (W' : well cs').
  { destruct W as (W1 & W2). split; [eapply Permutation_NoDup; [apply Permutation_map; exact Pe|auto]|]. intros e He. apply W2. apply (Permutation_in _ (Permutation_sym Pe)). auto. }
  apply eq_true_iff_eq. rewrite !C157_verdict by auto. rewrite !Forall_forall. split; intros H x Hx; apply H; [apply (Permutation_in _ P)|apply (Permutation_in _ (Permutation_sym P))]; auto.
Qed.
Print Assumptions C157_order.
(** A second example of the same name fails the run. *)
Theorem C157_duplicate : forall update hash a e b e' c f, e_name e = e_name e' ->
  success (finish (run update hash (a ++ Example_ e :: b ++ Example_ e' :: c) f)) = false.
Proof.
  intros u hash a e b e' c f En.
  assert (Mn : forall x r, failed r = true -> failed (run_case u hash r x) = true).
  { intros x r H. destruct (failed (run_case u hash r x)) eqn:E; [auto|]. exfalso. revert E. clear -H. destruct x as [e|[n res|n res|n [e|]]]; cbn [run_case run_test].
    1,4: destruct (existsb (eqb (e_name e)) (names r)) eqn:K; [unfold run_example; cbn [names running]; rewrite K; discriminate|];
      intros E; apply example_step in E; [destruct E; congruence|intros Hi; apply known_ok in Hi; congruence].
    - destruct res; cbn; [discriminate|congruence].
    - destruct res as [errs|]; cbn; [destruct (forallb snd errs); cbn; congruence|discriminate].
    - discriminate. }
  assert (Mf : forall l r, failed r = true -> failed (fold_left (run_case u hash) l r) = true) by (induction l as [|x l IH]; cbn; auto).
  assert (Ne : forall x r m, In m (names r) -> In m (names (run_example u hash x r))).
  { intros x r m H. destruct (existsb (eqb (e_name x)) (names r)) eqn:K.
    - unfold run_example. cbn [names running]. rewrite K. auto.
    - destruct (example_step u hash x r) as (A & _); [intros Hi; apply known_ok in Hi; congruence|]. apply A. auto. }
  assert (Nc : forall x r m, In m (names r) -> In m (names (run_case u hash r x))).
  { intros x r m H. destruct x as [x|[n res|n res|n [x|]]]; cbn [run_case run_test]; auto; [destruct res; auto|destruct res as [errs|]; [destruct (forallb snd errs); auto|auto]]. }
  assert (Nf : forall l r m, In m (names r) -> In m (names (fold_left (run_case u hash) l r))) by (induction l as [|x l IH]; cbn; auto).
  assert (F : failed (run u hash (a ++ Example_ e :: b ++ Example_ e' :: c) f) = true).
  { unfold run. rewrite fold_left_app. cbn [fold_left]. rewrite fold_left_app. cbn [fold_left]. apply Mf. set (ra := fold_left _ a _). set (rb := fold_left _ b _). cbn [run_case]. unfold run_example. cbn [names running].
    assert (Hi : In (e_name e') (names rb)).
    { unfold rb. apply Nf. rewrite <- En. cbn [run_case]. destruct (existsb (eqb (e_name e)) (names ra)) eqn:K.
      - apply Ne. apply known_ok. auto.
      - destruct (example_step u hash e ra) as (A & _); [intros H; apply known_ok in H; congruence|]. apply A. auto. }
    apply known_ok in Hi. rewrite Hi. reflexivity. }
  unfold finish. destruct (existsb (fun d => d) _); [auto|]. cbn. rewrite F. auto.
Qed.
Print Assumptions C157_duplicate.
(** Each example leaves its files as if it had run alone; no other file changes. *)
Theorem C157_files : forall update hash cs f, well cs ->
  (forall e html p, In e (examples cs) -> p = ref_path html (e_name e) \/ p = tmp_path html (e_name e) \/ p = hash_path html (e_name e) ->
     read p (fs (run update hash cs f)) = read p (fs (run update hash [Example_ e] f))) /\
  (forall p, (forall e html, In e (examples cs) -> p <> ref_path html (e_name e) /\ p <> tmp_path html (e_name e) /\ p <> hash_path html (e_name e)) ->
     read p (fs (run update hash cs f)) = read p f).
Proof.
  intros u hash cs f W. split.
  - intros e html p He Hp. assert (Ho : own (e_name e) p) by (destruct Hp as [->|[->| ->]]; [left|right; left|right; right]; auto).
    assert (Hc : exists a c b, cs = a ++ c :: b /\ In e (case_examples c)).
    { apply in_flat_map in He. destruct He as (c & Hc & He). apply in_split in Hc. destruct Hc as (a & b & ->). exists a, c, b. auto. }
    destruct Hc as (a & c & b & -> & Hc). destruct W as (ND & W).
    assert (Ex : examples (a ++ c :: b) = examples a ++ case_examples c ++ examples b) by (unfold examples; rewrite flat_map_app; auto). rewrite Ex in *.
    assert (Ec : case_examples c = [e]) by (destruct c as [e0|[n res|n res|n [e0|]]]; cbn in Hc; try contradiction; destruct Hc as [->|[]]; auto).
    assert (Er : forall r, run_case u hash r c = run_example u hash e r) by (intros r; destruct c as [e0|[n res|n res|n [e0|]]]; cbn in Ec; try discriminate; injection Ec as ->; auto).
    rewrite Ec in *. rewrite !map_app in ND. cbn [map app] in ND.
    assert (Ha : forall e0, In e0 (examples a) -> ~ In (e_name e0) (e_name e :: map e_name (examples b))) by (intros e0 H0; apply (proj2 (nodup_split _ _ ND)); apply in_map; auto).
    assert (Hb : forall e0, In e0 (examples b) -> e_name e0 <> e_name e) by (intros e0 H0 Hn; destruct (nodup_split _ _ ND) as (N2 & _); inversion N2 as [|y0 l0 Hy0 Hl0]; subst; apply Hy0; rewrite <- Hn; apply in_map; auto).
    assert (P : forall e0, In e0 (examples a ++ [e] ++ examples b) -> plain_name (e_name e0)) by (intros e0 H0; apply W; auto).
    unfold run. rewrite fold_left_app. cbn [fold_left run_case]. rewrite cases_frame.
    2: { intros e0 H0 Hp0. apply (Hb e0 H0). apply (own_apart _ _ p); auto; apply P; apply in_or_app; right; cbn; auto. }
    rewrite Er. set (ra := fold_left _ a _).
    assert (Fr : forall q, own (e_name e) q -> read q (fs ra) = read q f).
    { intros q Hq. unfold ra. rewrite cases_frame; [auto|]. intros e0 H0 Hq0. apply (Ha e0 H0). left. apply (own_apart _ _ q); auto; apply P; apply in_or_app; cbn; auto. }
    assert (Wa : well a) by (split; [apply (nodup_head _ _ ND)|intros e0 H0; apply W; apply in_or_app; auto]).
    assert (Na : ~ In (e_name e) (names ra)).
    { intros Hi. destruct (cases_step u hash a (fresh f) Wa) as (_ & _ & Hs); [intros e0 _ []|]. apply Hs in Hi. destruct Hi as [Hi|[]].
      apply in_map_iff in Hi. destruct Hi as (e0 & E0 & H0). apply (Ha e0 H0). left. auto. }
    assert (G : forall r r', ~ In (e_name e) (names r) -> ~ In (e_name e) (names r') -> (forall q, own (e_name e) q -> read q (fs r) = read q (fs r')) -> forall q, own (e_name e) q -> read q (fs (run_example u hash e r)) = read q (fs (run_example u hash e r'))).
    { clear. intros r r' Hn Hn' Hr q Hq. assert (Hh : forall k, own (e_name e) (hash_path k (e_name e))) by (intros k; right; right; auto). unfold run_example. cbn [names running].
      destruct (existsb (eqb (e_name e)) (names r)) eqn:K; [apply known_ok in K; contradiction|]. destruct (existsb (eqb (e_name e)) (names r')) eqn:K'; [apply known_ok in K'; contradiction|].
      set (s := {| fs := _; diags := _; names := _; failed := _; log := _ |}). set (s' := {| fs := fs (running (e_name e) r'); diags := _; names := _; failed := _; log := _ |}).
      assert (Hs : forall q, own (e_name e) q -> read q (fs s) = read q (fs s')) by (intros q0 H0; apply Hr; auto).
      unfold run_pages. destruct (warn_same (e_warn e) s) as (W1 & _). destruct (warn_same (e_warn e) s') as (W1' & _).
      assert (Hw : forall q, own (e_name e) q -> read q (fs (warn (e_warn e) s)) = read q (fs (warn (e_warn e) s'))) by (intros q0 H0; rewrite W1, W1'; auto).
      assert (HU : forall data k (x x' : runner) q, own (e_name e) q -> (forall q, own (e_name e) q -> read q (fs x) = read q (fs x')) -> read q (fs (update_example u hash (e_name e) data k x)) = read q (fs (update_example u hash (e_name e) data k x'))).
      { intros data k x x' q0 H0 Hx. rewrite !update_read. apply after_ext; apply Hx; auto. }
      assert (HH : forall x x' : runner, (forall q, own (e_name e) q -> read q (fs x) = read q (fs x')) -> fst (run_html u hash e x) = fst (run_html u hash e x') /\ read q (fs (snd (run_html u hash e x))) = read q (fs (snd (run_html u hash e x')))).
      { intros x x' Hx. unfold run_html. destruct (warn_same (e_hwarn e) x) as (V & _). destruct (warn_same (e_hwarn e) x') as (V' & _). destruct (e_hdoc e); cbn [fst snd fs push_diags mark_failed]; (split; [auto|]); [rewrite V, V'; auto|rewrite V, V'; auto|]. apply HU; [auto|]. intros q0 H0. rewrite V, V'. auto. }
      assert (HT : forall (b err : bool) (x x' : runner), (forall q, own (e_name e) q -> read q (fs x) = read q (fs x')) ->
        read q (fs (let '(err0, r0) := if b then let '(err', r1) := run_html u hash e x in (err || err', r1) else (err, x) in if err0 then mark_failed (e_name e) r0 else mark_passed (e_name e) r0)) =
        read q (fs (let '(err0, r0) := if b then let '(err', r1) := run_html u hash e x' in (err || err', r1) else (err, x') in if err0 then mark_failed (e_name e) r0 else mark_passed (e_name e) r0))).
      { intros b err x x' Hx. destruct (HH x x' Hx) as (E1 & E2). destruct b; [|destruct err; cbn; auto]. destruct (run_html u hash e x) as [z y], (run_html u hash e x') as [z' y']. cbn in E1, E2. subst z'. destruct (err || z); cbn; auto. }
      destruct (e_pages e) as [d| |data]; apply HT; cbn [fs push_diags mark_failed]; auto. }
    apply G; auto.
  - intros p H. unfold run. rewrite cases_frame; [auto|]. intros e He Ho. destruct (H e (fst p) He) as (X & Y & Z). destruct Ho as [Ho|[Ho|Ho]]; auto.
Qed.
Print Assumptions C157_files.
(** Every error of a run is shown. *)
Theorem C157_errors : forall update hash cs f, let r := run update hash cs f in
  (In true (concat (diags r)) -> finish r = Errors (concat (diags r))) /\
  (~ In true (concat (diags r)) -> finish r = Verdict (negb (failed r))).
Proof.
  intros u hash cs f r. unfold finish. destruct (existsb (fun d => d) (concat (diags r))) eqn:E.
  - split; [auto|]. intros H. apply existsb_exists in E. destruct E as (x & Hx & ->). contradiction.
  - split; [|auto]. intros H. exfalso. assert (X : existsb (fun d => d) (concat (diags r)) = true) by (apply existsb_exists; eauto). congruence.
Qed.
Print Assumptions C157_errors.
(** An example with a mismatch is reported to fail, and then to pass. *)
Theorem C157_both_refuted : exists hash e f, let r := run false hash [Example_ e] f in
  success (finish r) = false /\ log r = [Running (e_name e); Failed (e_name e); Mismatch (e_name e); Passed (e_name e)].
Proof.
  exists (fun d => d), {| e_name := lit "a"; e_warn := []; e_pages := Png (lit "1"); e_html := false; e_hwarn := []; e_hdoc := Html [] |}, [((false, lit "a.hash"), lit "0")].
  split; reflexivity.
Qed.
Print Assumptions C157_both_refuted.
Definition C157_a : example := {| e_name := lit "a"; e_warn := [false]; e_pages := Png (lit "1"); e_html := true; e_hwarn := []; e_hdoc := Html (lit "<a>") |}.
Definition C157_b : example := {| e_name := lit "b"; e_warn := []; e_pages := Png (lit "2"); e_html := false; e_hwarn := []; e_hdoc := Html [] |}.
Definition C157_cases : list case := [Example_ C157_a; Test_ (Calls (lit "t") None); Test_ (Panics (lit "p") (Some [(true, true)])); Test_ (Shows (lit "s") (Some C157_b))].
Example C157_nonvacuous :
  well C157_cases /\ success (finish (run false (fun d => d) C157_cases [])) = true /\
  success (finish (run false (fun d => d) C157_cases [((false, lit "b.hash"), lit "1")])) = false.
Proof.
  split; [|split; reflexivity]. split.
  - cbn. repeat constructor; cbn; intuition discriminate.
  - intros e [<-|[<-|[]]]; (split; [split; intros x Hx; cbn in Hx; intuition congruence|split; [discriminate|cbn; intuition discriminate]]).
Qed.
