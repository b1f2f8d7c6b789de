From Coq Require Import List Arith Bool Lia Permutation.
From Verif Require Import ActModel ActSpec.
Import ListNotations.

Lemma apply_one : forall a b c n pos, pos <= length a ->
  forall es r, apply (length a + length b) es (a ++ b ++ c) = Some r ->
  apply pos ({| e_from := length a; e_to := length a + length b; e_new := n |} :: es) (a ++ b ++ c)
  = Some (skipn pos a ++ n ++ r).
Proof.
  intros a b c n pos HP es r H. cbn [apply e_from e_to e_new]. rewrite H.
  destruct (Nat.leb_spec pos (length a)); [|lia].
  destruct (Nat.leb_spec (length a) (length a + length b)); [|lia].
  destruct (Nat.leb_spec (length a + length b) (length (a ++ b ++ c))).
  2:{ rewrite !app_length in *. lia. }
  cbn [andb option_map]. f_equal. f_equal.
  rewrite skipn_app. replace (pos - length a) with 0 by lia. cbn [skipn].
  rewrite firstn_app, skipn_length, Nat.sub_diag, firstn_O, app_nil_r.
  apply firstn_all2. rewrite skipn_length. lia.
Qed.

Lemma apply_nil : forall a c, apply (length a) [] (a ++ c) = Some c.
Proof. intros a c. cbn. rewrite skipn_app, skipn_all, Nat.sub_diag. reflexivity. Qed.

(** * Wrapping *)

Lemma wrap_ok : forall pre sel post, sel <> [] ->
  exists es, wrap_edits true (length pre) (length pre + length sel) = Some es /\
    apply 0 es (pre ++ sel ++ post) = Some (pre ++ [c_hash; c_open] ++ sel ++ [c_close] ++ post).
Proof.
  intros pre sel post HS. unfold wrap_edits.
  destruct (Nat.eqb_spec (length pre) (length pre + length sel)) as [E|_].
  { destruct sel; [congruence|cbn in E; lia]. }
  eexists. split; [reflexivity|].
  assert (H1 : apply (length (pre ++ sel) + 0) [] ((pre ++ sel) ++ [] ++ post) = Some post).
  { rewrite Nat.add_0_r. apply apply_nil. }
  pose proof (apply_one (pre ++ sel) [] post [c_close] (length pre + 0) ltac:(rewrite app_length; lia) [] post H1) as H2.
  cbn [length app] in H2. rewrite !Nat.add_0_r in H2.
  rewrite skipn_app, skipn_all, Nat.sub_diag in H2. cbn [skipn app] in H2.
  rewrite app_length in H2. rewrite <- app_assoc in H2.
  pose proof (apply_one pre [] (sel ++ post) [c_hash; c_open] 0 (Nat.le_0_l _)
    [{| e_from := length pre + length sel; e_to := length pre + length sel; e_new := [c_close] |}]) as H3.
  cbn [length app] in H3. rewrite !Nat.add_0_r in H3. rewrite (H3 _ H2). reflexivity.
Qed.

(** * Headings *)

Lemma find_app : forall f a o k t b, (forall c, In c a -> f (fst c) = false) -> f k = true ->
  find_child f o (a ++ (k, t) :: b) = Some (o + length (text_of a), t).
Proof.
  induction a as [|(k0, t0) a IH]; intros o k t b HA HK; cbn.
  - rewrite HK, Nat.add_0_r. auto.
  - assert (E0 : f k0 = false) by apply (HA (k0, t0) (or_introl eq_refl)). rewrite E0. rewrite IH; auto.
    + rewrite app_length, Nat.add_assoc. auto.
    + intros c Hc. apply HA; right; auto.
Qed.

Lemma text_app : forall a b, text_of (a ++ b) = text_of a ++ text_of b.
Proof. intros. apply flat_map_app. Qed.

Lemma replace_ok : forall a b c n, apply 0 [{| e_from := length a; e_to := length a + length b; e_new := n |}] (a ++ b ++ c)
  = Some (a ++ n ++ c).
Proof.
  intros. rewrite (apply_one a b c n 0 (Nat.le_0_l _) [] c); auto.
  rewrite <- app_length, app_assoc. apply apply_nil.
Qed.

Lemma heading_ok : forall pre a d b post, (forall c, In c a -> is_marker (fst c) = false) ->
  let h n := pre ++ text_of (a ++ (KMarker, repeat c_eq n) :: b) ++ post in
  exists dec inc, heading_edits (length pre) (a ++ (KMarker, repeat c_eq d) :: b) = Some (dec, inc) /\
    apply 0 [inc] (h d) = Some (h (d + 1)) /\
    match dec with Some e => 1 < d /\ apply 0 [e] (h d) = Some (h (d - 1)) | None => d <= 1 end.
Proof.
  intros pre a d b post HA h. unfold heading_edits. rewrite (find_app is_marker) by auto.
  eexists. eexists. split; [reflexivity|]. rewrite repeat_length.
  assert (HH : forall n, apply 0 [{| e_from := length pre + length (text_of a); e_to := length pre + length (text_of a) + d; e_new := repeat c_eq n |}] (h d) = Some (h n)).
  { intros n. unfold h. rewrite !text_app. cbn [text_of flat_map snd].
    replace (pre ++ (text_of a ++ repeat c_eq d ++ flat_map snd b) ++ post)
      with ((pre ++ text_of a) ++ repeat c_eq d ++ (flat_map snd b ++ post)) by (rewrite <- !app_assoc; auto).
    replace (pre ++ (text_of a ++ repeat c_eq n ++ flat_map snd b) ++ post)
      with ((pre ++ text_of a) ++ repeat c_eq n ++ (flat_map snd b ++ post)) by (rewrite <- !app_assoc; auto).
    pose proof (replace_ok (pre ++ text_of a) (repeat c_eq d) (flat_map snd b ++ post) (repeat c_eq n)) as H.
    rewrite repeat_length, app_length in H. exact H. }
  split; [apply HH|]. destruct (Nat.ltb_spec 1 d); auto.
Qed.

(** * Equations *)

Definition moved (upunct : nat -> bool) (new post : list nat) : list nat :=
  match new with [] => [] | _ => match mark_after upunct post with Some c => [c] | None => [] end end.
Definition left_over (upunct : nat -> bool) (new post : list nat) : list nat :=
  skipn (length (moved upunct new post)) post.

Lemma moved_post : forall upunct new post, post = moved upunct new post ++ left_over upunct new post.
Proof.
  intros upunct new post. unfold left_over, moved. destruct new; auto.
  destruct post as [|c post]; auto. cbn.
  destruct (ascii_punct c && _ || _); auto.
Qed.

Lemma rewrite_ok : forall upunct pre f m b post new,
  apply 0 (rewrite_edits (length pre + 1) (length pre + 1 + length (text_of f)) (length pre + 1 + length (text_of f) + length m)
             (length pre + 1 + length (text_of f) + length m + length (text_of b))
             (length pre + 1 + length (text_of f) + length m + length (text_of b) + 1) (mark_after upunct post) new)
    (pre ++ text_of (equation f m b) ++ post)
  = Some (pre ++ [c_dollar] ++ new ++ m ++ moved upunct new post ++ new ++ [c_dollar] ++ left_over upunct new post).
Proof.
  intros upunct pre f m b post new.
  assert (ET : pre ++ text_of (equation f m b) ++ post
    = (pre ++ [c_dollar]) ++ text_of f ++ m ++ text_of b ++ [c_dollar] ++ post).
  { unfold equation. cbn [text_of flat_map snd]. fold (text_of (f ++ (KMath, m) :: b ++ [(KDollar, [c_dollar])])).
    rewrite text_app. cbn [text_of flat_map snd]. fold (text_of (b ++ [(KDollar, [c_dollar])])). rewrite text_app. cbn.
    rewrite <- !app_assoc. reflexivity. }
  rewrite ET.
  (* the last edit *)
  assert (H3 : apply (length pre + 1 + length (text_of f) + length m + length (text_of b))
    match (match new with [] => None | _ => mark_after upunct post end) with
    | Some _ => [{| e_from := length pre + 1 + length (text_of f) + length m + length (text_of b) + 1;
                    e_to := length pre + 1 + length (text_of f) + length m + length (text_of b) + 1 + 1; e_new := [] |}]
    | None => [] end
    ((pre ++ [c_dollar]) ++ text_of f ++ m ++ text_of b ++ [c_dollar] ++ post)
    = Some ([c_dollar] ++ left_over upunct new post)).
  { set (A := (pre ++ [c_dollar]) ++ text_of f ++ m ++ text_of b).
    assert (EA : length A = length pre + 1 + length (text_of f) + length m + length (text_of b)).
    { unfold A. rewrite !app_length. cbn. lia. }
    replace ((pre ++ [c_dollar]) ++ text_of f ++ m ++ text_of b ++ [c_dollar] ++ post) with (A ++ [c_dollar] ++ post)
      by (unfold A; rewrite <- !app_assoc; auto).
    rewrite <- EA. unfold left_over, moved.
    destruct new as [|n0 new]; [apply apply_nil|].
    destruct (mark_after upunct post) as [c|] eqn:EM; [|apply apply_nil].
    destruct post as [|p post]; [discriminate|].
    assert (Ep : c = p). { cbn in EM. destruct (_ || _); congruence. } subst p. cbn [length skipn].
    pose proof (apply_one (A ++ [c_dollar]) [c] post [] (length A) ltac:(rewrite app_length; lia) [] post) as H.
    rewrite app_length in H. cbn [length] in H.
    replace (A ++ [c_dollar] ++ c :: post) with ((A ++ [c_dollar]) ++ [c] ++ post) by (rewrite <- !app_assoc; auto).
    rewrite H.
    - rewrite skipn_app, skipn_all, Nat.sub_diag. reflexivity.
    - replace (length A + 1 + 1) with (length ((A ++ [c_dollar]) ++ [c])) by (rewrite !app_length; cbn; lia).
      rewrite app_assoc. apply apply_nil. }
  (* the one before *)
  set (new2 := match (match new with [] => None | _ => mark_after upunct post end) with Some c => c :: new | None => new end).
  assert (E2 : new2 = moved upunct new post ++ new).
  { unfold new2, moved. destruct new; auto. destruct (mark_after upunct post); auto. }
  set (B := (pre ++ [c_dollar]) ++ text_of f ++ m).
  assert (EB : length B = length pre + 1 + length (text_of f) + length m).
  { unfold B. rewrite !app_length. cbn. lia. }
  pose proof (apply_one B (text_of b) ([c_dollar] ++ post) new2 (length pre + 1 + length (text_of f)) ltac:(lia)) as H2.
  rewrite EB in H2. unfold B in H2 at 1 2. rewrite <- !app_assoc in H2. cbn [app] in H2, H3.
  rewrite <- !app_assoc in H3. cbn [app] in H3. specialize (H2 _ _ H3).
  (* the first one *)
  pose proof (apply_one (pre ++ [c_dollar]) (text_of f) (m ++ text_of b ++ [c_dollar] ++ post) new 0 (Nat.le_0_l _)) as H1.
  rewrite app_length in H1. cbn [length] in H1. rewrite <- !app_assoc in H1. cbn [app] in H1.
  specialize (H1 _ _ H2).
  unfold rewrite_edits. fold new2. cbn [app]. rewrite <- !app_assoc. cbn [app].
  rewrite H1. f_equal. cbn [skipn]. rewrite <- app_assoc. cbn [app]. f_equal. f_equal. f_equal.
  unfold B. rewrite skipn_app. rewrite skipn_all2 by (rewrite app_length; cbn; lia).
  rewrite app_length. cbn [length app].
  replace (length pre + 1 + length (text_of f) - (length pre + 1)) with (length (text_of f)) by lia.
  rewrite skipn_app, skipn_all, Nat.sub_diag. cbn [skipn app]. rewrite E2. rewrite <- !app_assoc. reflexivity.
Qed.

Lemma equation_ok : forall upunct pre f m b post, no_math f ->
  exists toggle lines,
    equation_edits upunct (length pre) (equation f m b) post = Some (toggle, lines) /\
    let r new := pre ++ [c_dollar] ++ new ++ m ++ moved upunct new post ++ new ++ [c_dollar] ++ left_over upunct new post in
    let t := pre ++ text_of (equation f m b) ++ post in
    apply 0 toggle t = Some (r (if block (equation f m b) then [] else [c_space])) /\ apply 0 lines t = Some (r [c_lf]).
Proof.
  intros upunct pre f m b post HF. unfold equation_edits.
  assert (EF : find_child is_math (length pre) (equation f m b) = Some (length pre + 1 + length (text_of f), m)).
  { unfold equation. rewrite app_comm_cons. rewrite (find_app is_math); auto.
    - do 2 f_equal. change (text_of ((KDollar, [c_dollar]) :: f)) with (c_dollar :: text_of f). cbn [length]. lia.
    - intros c [<-|Hc]; auto. }
  rewrite EF. unfold equation at 1.
  assert (ER : rev (f ++ (KMath, m) :: b ++ [(KDollar, [c_dollar])]) = (KDollar, [c_dollar]) :: rev (f ++ (KMath, m) :: b)).
  { rewrite app_comm_cons, app_assoc, rev_app_distr. reflexivity. }
  rewrite ER. cbn [is_dollar fst andb snd length].
  assert (EL : length (text_of (equation f m b)) = 1 + length (text_of f) + length m + length (text_of b) + 1).
  { unfold equation. cbn [text_of flat_map snd]. fold (text_of (f ++ (KMath, m) :: b ++ [(KDollar, [c_dollar])])).
    rewrite text_app. cbn [text_of flat_map snd]. fold (text_of (b ++ [(KDollar, [c_dollar])])). rewrite text_app.
    rewrite !app_length. cbn. lia. }
  rewrite EL.
  destruct (Nat.eqb_spec (length pre) (length pre + (1 + length (text_of f) + length m + length (text_of b) + 1) - 1)); [lia|].
  eexists. eexists. split; [reflexivity|]. cbv zeta.
  replace (length pre + (1 + length (text_of f) + length m + length (text_of b) + 1) - 1)
    with (length pre + 1 + length (text_of f) + length m + length (text_of b)) by lia.
  replace (length pre + (1 + length (text_of f) + length m + length (text_of b) + 1))
    with (length pre + 1 + length (text_of f) + length m + length (text_of b) + 1) by lia.
  split; apply rewrite_ok.
Qed.

(** The children of the equation after the conversion. *)
Lemma block_space : forall m sp, sp <> [] -> block (equation [(KSpace, sp)] m [(KSpace, sp)]) = true.
Proof. reflexivity. Qed.

Lemma block_none : forall m, block (equation [] m []) = false.
Proof. reflexivity. Qed.

Lemma filter_blank : forall (blank : nat -> bool) l, only_space blank l ->
  filter (fun c => negb (blank c)) (text_of l) = [].
Proof.
  induction l as [|(k, t) l IH]; intros H; cbn; auto.
  fold (text_of l). rewrite filter_app, IH.
  - rewrite app_nil_r. destruct (H k t (or_introl eq_refl)) as (_ & HB).
    clear - HB. induction t as [|c t IH]; cbn; auto. rewrite HB by (left; auto). cbn. apply IH. intros d Hd. apply HB; right; auto.
  - intros k' t' HI. apply H; right; auto.
Qed.

(** * The node that is meant *)

Lemma resolve_ok : forall anc i h e j, In j (resolve i h e anc) <->
  exists n, j = i + n /\
    ((nth_error anc n = Some KHeading /\ h = false /\ forall k, k < n -> nth_error anc k <> Some KHeading) \/
     (nth_error anc n = Some KEquation /\ e = false /\ forall k, k < n -> nth_error anc k <> Some KEquation)).
Proof.
  induction anc as [|k anc IH]; intros i h e j; cbn [resolve].
  - split; [intros []|]. intros ([|n] & _ & [(H & _)|(H & _)]); discriminate.
  - assert (HT : forall h' e', In j (resolve (S i) h' e' anc) <-> exists n, j = i + S n /\
      ((nth_error (k :: anc) (S n) = Some KHeading /\ h' = false /\ forall k', k' < n -> nth_error anc k' <> Some KHeading) \/
       (nth_error (k :: anc) (S n) = Some KEquation /\ e' = false /\ forall k', k' < n -> nth_error anc k' <> Some KEquation))).
    { intros h' e'. rewrite IH. split; intros (n & -> & H); exists n; split; auto; lia. }
    assert (HS : forall (K : kind) n, (forall k', k' < S n -> nth_error (k :: anc) k' <> Some K) <->
      k <> K /\ forall k', k' < n -> nth_error anc k' <> Some K).
    { intros K n. split.
      - intros H. split; [intros ->; apply (H 0); auto; lia|]. intros k' L. apply (H (S k')); lia.
      - intros (H1 & H2) [|k'] L; cbn; [congruence|]. apply H2; lia. }
    assert (Hskip : k <> KHeading -> k <> KEquation -> (In j (resolve (S i) h e anc) <->
      exists n, j = i + n /\
      ((nth_error (k :: anc) n = Some KHeading /\ h = false /\ forall k', k' < n -> nth_error (k :: anc) k' <> Some KHeading) \/
       (nth_error (k :: anc) n = Some KEquation /\ e = false /\ forall k', k' < n -> nth_error (k :: anc) k' <> Some KEquation)))).
    { intros N1 N2. rewrite HT. split.
      - intros (n & -> & H). exists (S n). split; auto. rewrite !HS. tauto.
      - intros ([|n] & -> & H); [cbn in H; destruct H as [(H & _)|(H & _)]; congruence|]. exists n. split; auto. rewrite !HS in H. tauto. }
    destruct k; try (apply Hskip; discriminate).
    + destruct h.
      * rewrite HT. split.
        -- intros (n & -> & [(_ & H & _)|H]); [discriminate|]. exists (S n). split; auto. right. rewrite HS. intuition discriminate.
        -- intros ([|n] & -> & [(_ & H & _)|(H & H1 & H2)]); try discriminate. exists n. split; auto. right. rewrite HS in H2. tauto.
      * cbn [In]. rewrite HT. split.
        -- intros [<-|(n & -> & [(_ & H & _)|H])]; [|discriminate|].
           ++ exists 0. split; [lia|]. left. repeat split; auto. intros k' L; lia.
           ++ exists (S n). split; auto. right. rewrite HS. intuition discriminate.
        -- intros ([|n] & -> & [(H & H1 & H2)|(H & H1 & H2)]); try discriminate.
           ++ left. lia.
           ++ exfalso. apply (H2 0); [lia|reflexivity].
           ++ right. exists n. split; auto. right. rewrite HS in H2. tauto.
    + destruct e.
      * rewrite HT. split.
        -- intros (n & -> & [H|(_ & H & _)]); [|discriminate]. exists (S n). split; auto. left. rewrite HS. intuition discriminate.
        -- intros ([|n] & -> & [(H & H1 & H2)|(_ & H & _)]); try discriminate. exists n. split; auto. left. rewrite HS in H2. tauto.
      * cbn [In]. rewrite HT. split.
        -- intros [<-|(n & -> & [H|(_ & H & _)])]; [| |discriminate].
           ++ exists 0. split; [lia|]. right. repeat split; auto. intros k' L; lia.
           ++ exists (S n). split; auto. left. rewrite HS. intuition discriminate.
        -- intros ([|n] & -> & [(H & H1 & H2)|(H & H1 & H2)]); try discriminate.
           ++ left. lia.
           ++ right. exists n. split; auto. left. rewrite HS in H2. tauto.
           ++ exfalso. apply (H2 0); [lia|reflexivity].
Qed.

(** * Enter *)

Lemma last_line_app : forall t cur, (~ In c_lf t -> last_line t cur = cur ++ t) /\
  forall a l, t = a ++ c_lf :: l -> ~ In c_lf l -> last_line t cur = l.
Proof.
  induction t as [|c t IH]; intros cur; split.
  - intros _. cbn. rewrite app_nil_r. auto.
  - intros a l E. destruct a; discriminate.
  - intros H. cbn. destruct (Nat.eqb_spec c c_lf) as [->|NE]; [exfalso; apply H; left; auto|].
    destruct (IH (cur ++ [c])) as (H1 & _). rewrite H1, <- app_assoc; auto. intros HI; apply H; right; auto.
  - intros a l E HL. cbn [last_line].
    destruct a as [|x a]; inversion E; subst.
    + rewrite Nat.eqb_refl. destruct (IH []) as (H1 & _). rewrite H1; auto.
    + destruct (x =? c_lf).
      * destruct (IH []) as (_ & H2). eapply H2; eauto.
      * destruct (IH (cur ++ [x])) as (_ & H2). eapply H2; eauto.
Qed.

Lemma last_lf : forall t : list nat, ~ In c_lf t \/ exists a l, t = a ++ c_lf :: l /\ ~ In c_lf l.
Proof.
  induction t as [|c t IH]; [left; auto|].
  destruct IH as [H|(a & l & -> & HL)].
  - destruct (Nat.eq_dec c c_lf) as [->|NE].
    + right. exists [], t. auto.
    + left. intros [E|HI]; auto.
  - right. exists (c :: a), l. auto.
Qed.

Lemma column_line : forall before n, column before n <-> n = length (last_line before []).
Proof.
  intros before n. split.
  - intros (a & l & [(-> & ->)|E] & HL & ->).
    + destruct (last_line_app l []) as (H & _). rewrite H; auto.
    + destruct (last_line_app before []) as (_ & H). rewrite (H _ _ E HL). auto.
  - intros ->. destruct (last_lf before) as [H|(a & l & E & HL)].
    + exists [], before. split; auto. split; auto. destruct (last_line_app before []) as (H1 & _). rewrite H1; auto.
    + exists a, l. split; auto. split; auto. destruct (last_line_app before []) as (_ & H1). rewrite (H1 _ _ E HL). auto.
Qed.

Lemma spaces_no_lf : forall n, ~ In c_lf (repeat c_space n).
Proof. intros n H. apply repeat_spec in H. discriminate. Qed.

Lemma indent_column : forall before t n, column before n -> column (t ++ c_lf :: indent_of before) n.
Proof.
  intros before t n H. apply column_line in H. exists t, (indent_of before). split; auto. unfold indent_of.
  split; [apply spaces_no_lf|]. rewrite repeat_length. auto.
Qed.

Lemma gap_skipper : forall k, gap k <-> skipper k = true.
Proof.
  intros k. unfold gap. split; [intros [->|[->| ->]]; reflexivity|]. destruct k; cbn; try discriminate; auto.
Qed.

Lemma spaced_block : forall f m b, spaced f b <-> block (equation f m b) = true.
Proof.
  intros f m b. unfold block.
  assert (ER : rev (equation f m b)
    = (KDollar, [c_dollar]) :: rev b ++ rev ((KDollar, [c_dollar]) :: f ++ [(KMath, m)])).
  { unfold equation. cbn [rev]. rewrite !rev_app_distr. cbn [rev]. rewrite !rev_app_distr. cbn [rev app].
    rewrite <- !app_assoc. reflexivity. }
  rewrite ER. unfold equation. cbn [nth_error]. split.
  - intros ((t & f' & ->) & (t' & b' & ->)). rewrite rev_app_distr. reflexivity.
  - intros H. apply andb_true_iff in H. destruct H as (H1 & H2). split.
    + destruct f as [|(k, t) f]; [discriminate|]. cbn in H1. destruct k; try discriminate. eauto.
    + destruct (rev b) as [|(k, t) r] eqn:E.
      * cbn [rev app] in H2. rewrite rev_app_distr in H2. cbn in H2. discriminate.
      * cbn in H2. destruct k; try discriminate. exists t, (rev r). rewrite <- (rev_involutive b), E. reflexivity.
Qed.

Lemma ascii_in : forall c, ascii_punct c = true <-> In c ascii_marks.
Proof.
  intros c. destruct (le_lt_dec 127 c) as [L|L].
  - split.
    + unfold ascii_punct. rewrite !orb_true_iff, !andb_true_iff, !Nat.leb_le. lia.
    + intros H. exfalso. unfold ascii_marks in H. cbn in H. repeat destruct H as [H|H]; lia.
  - assert (E : forallb (fun c => Bool.eqb (ascii_punct c) (existsb (Nat.eqb c) ascii_marks)) (seq 0 127) = true) by (vm_compute; reflexivity).
    rewrite forallb_forall in E. specialize (E c (proj2 (in_seq 127 0 c) (conj (Nat.le_0_l _) L))).
    apply eqb_prop in E. rewrite E, existsb_exists. split.
    + intros (x & Hx & Ex). apply Nat.eqb_eq in Ex. subst; auto.
    + intros H. exists c. split; auto. apply Nat.eqb_refl.
Qed.

Lemma mark_ok : forall upunct post c, mark_after upunct post = Some c <-> mark_of upunct post c.
Proof.
  intros upunct post c. unfold mark_of. split.
  - destruct post as [|p rest]; cbn; [discriminate|].
    destruct (_ || _) eqn:E; [|discriminate]. intros H. inversion H; subst. exists rest. split; auto.
    apply orb_true_iff in E. destruct E as [E|E]; apply andb_true_iff in E; destruct E as (E1 & E2).
    + left. split; [apply ascii_in; auto|]. intros d rest' -> HI. apply ascii_in in HI. rewrite HI in E2. discriminate.
    + right. split; auto. intros HI. apply ascii_in in HI. rewrite HI in E1. discriminate.
  - intros (rest & -> & H). cbn. assert (E : (ascii_punct c && negb match rest with d :: _ => ascii_punct d | [] => false end) || (negb (ascii_punct c) && upunct c) = true).
    { apply orb_true_iff. destruct H as [(H1 & H2)|(H1 & H2)].
      - left. apply andb_true_iff. split; [apply ascii_in; auto|]. destruct rest as [|d rest]; auto.
        destruct (ascii_punct d) eqn:E; auto. exfalso. apply (H2 d rest eq_refl). apply ascii_in; auto.
      - right. destruct (ascii_punct c) eqn:E; cbn; auto. exfalso. apply H1. apply ascii_in; auto. }
    rewrite E. reflexivity.
Qed.

Lemma take_while_run : forall (f : kind -> bool) r y, (forall k, In k r -> f k = true) ->
  (forall y' k, y = k :: y' -> f k = false) -> take_while f (r ++ y) = r.
Proof.
  induction r as [|k r IH]; intros y HR HY; cbn.
  - destruct y as [|k y]; cbn; auto. rewrite (HY y k); auto.
  - rewrite HR by (left; auto). f_equal. apply IH; auto. intros k' Hk. apply HR; right; auto.
Qed.

Lemma group_ok : forall ks x run y i, maximal_run ks x run y -> length x <= i <= length x + length run ->
  group_count ks i = length (filter is_comment run).
Proof.
  intros ks x run y i (-> & HR0 & HX0 & HY0) HI. unfold group_count.
  assert (HR : forall k, In k run -> skipper k = true) by (intros k Hk; apply gap_skipper; auto).
  assert (HS : forall k, ~ gap k -> skipper k = false).
  { intros k N. destruct (skipper k) eqn:E; auto. apply gap_skipper in E. contradiction. }
  assert (HX : forall x' k, x = x' ++ [k] -> skipper k = false) by eauto.
  assert (HY : forall y' k, y = k :: y' -> skipper k = false) by eauto.
  set (r1 := firstn (i - length x) run).
  assert (E1 : firstn i (x ++ run ++ y) = x ++ r1).
  { rewrite firstn_app. rewrite firstn_all2 by lia. f_equal. unfold r1. rewrite firstn_app.
    replace (i - length x - length run) with 0 by lia. cbn. rewrite app_nil_r. auto. }
  assert (E2 : take_while skipper (rev (firstn i (x ++ run ++ y))) = rev r1).
  { rewrite E1, rev_app_distr. apply take_while_run.
    - intros k Hk. apply in_rev in Hk. apply HR. unfold r1 in Hk. rewrite <- (firstn_skipn (i - length x) run). apply in_or_app; auto.
    - intros y' k E. apply (HX (rev y') k). rewrite <- (rev_involutive x), E. reflexivity. }
  rewrite E2, rev_length. unfold r1 at 1. rewrite firstn_length.
  replace (i - Nat.min (i - length x) (length run)) with (length x) by lia.
  rewrite skipn_app, skipn_all, Nat.sub_diag. cbn [skipn app]. rewrite take_while_run; auto.
Qed.

Lemma prefix_ok : forall t, exists rest, t = comment_prefix t ++ rest.
Proof.
  induction t as [|c t (rest & IH)]; cbn; [exists []; auto|].
  destruct (c =? c_slash); [exists rest; cbn; congruence|].
  destruct (c =? c_bang); [exists t; auto|exists (c :: t); auto].
Qed.
