(** Proofs about paths. *)
From Coq Require Import List Arith NArith Bool Lia.
From Verif Require Import DigModel PageModel PageProof PathModel PathSpec.
Import ListNotations.
Open Scope N_scope.

(** * Walking *)
Lemma walk_app d p q : walk d (p ++ q) = walk (walk d p) q.
Proof. apply fold_left_app. Qed.
Lemma walk_push d p c : walk d (push p c) = walk1 (walk d p) c.
Proof.
  destruct c; cbn [push]; [reflexivity| |now rewrite walk_app|now rewrite walk_app]. destruct p; reflexivity.
Qed.
Lemma walk_join q : forall d p, walk d (join p q) = walk (walk d p) q.
Proof.
  induction q as [|c q IH]; intros d p; [reflexivity|]. change (join p (c :: q)) with (join (push p c) q). rewrite IH, walk_push. reflexivity.
Qed.
Lemma walk_collect d cs : walk d (collect cs) = walk d cs.
Proof. exact (walk_join cs d []). Qed.
Lemma walk_names ns : forall d, walk d (map Nor ns) = rev ns ++ d.
Proof. induction ns as [|n ns IH]; intros d; [reflexivity|]. change (walk d (map Nor (n :: ns))) with (walk (n :: d) (map Nor ns)). rewrite IH. cbn [rev]. rewrite <- app_assoc. reflexivity. Qed.
Lemma walk_pars k : forall d, walk d (repeat ParC k) = skipn k d.
Proof.
  induction k as [|k IH]; intros d; [reflexivity|]. change (walk d (repeat ParC (S k))) with (walk (tl d) (repeat ParC k)). rewrite IH.
  destruct d; [now rewrite skipn_nil|reflexivity].
Qed.

(** * Well-formed paths *)
Lemma text_eqb_spec a : forall b, text_eqb a b = true <-> a = b.
Proof.
  induction a as [|x a IH]; intros [|y b]; cbn; try (split; congruence). rewrite andb_true_iff, N.eqb_eq, IH. split; [intros [-> ->]; auto|intros [= -> ->]; auto].
Qed.
Lemma comp_eqb_spec a b : comp_eqb a b = true <-> a = b.
Proof.
  destruct a as [| | |x], b as [| | |y]; cbn; split; try congruence; auto; [intros H; apply text_eqb_spec in H; congruence|intros [= ->]; now apply text_eqb_spec].
Qed.
Definition ok1 (c : comp) : Prop := match c with Nor n => name_ok n | _ => True end.
Lemma inner_ok1 c : inner_ok c -> ok1 c.
Proof. destruct c; cbn; auto. Qed.
Lemma inner_all r : Forall inner_ok r -> Forall ok1 r.
Proof. apply Forall_impl. exact inner_ok1. Qed.
Lemma path_ok1 p : path_ok p -> Forall ok1 p.
Proof.
  destruct p as [|[| | |n] r]; intros H; auto; try (constructor; [exact I|]; now apply inner_all); now apply inner_all in H.
Qed.
Lemma path_ok_snoc p c : path_ok p -> inner_ok c -> path_ok (p ++ [c]).
Proof.
  intros P C. assert (X : forall r, Forall inner_ok r -> Forall inner_ok (r ++ [c])).
  { intros r H. apply Forall_app. split; auto. }
  destruct p as [|[| | |m] r]; cbn [app].
  - destruct c; cbn in *; auto; try contradiction; repeat constructor; apply C.
  - apply X. exact P.
  - apply X. exact P.
  - exact (X (ParC :: r) P).
  - exact (X (Nor m :: r) P).
Qed.
Lemma path_ok_push p c : path_ok p -> ok1 c -> path_ok (push p c).
Proof.
  intros P C. destruct c as [| | |n]; cbn [push]; [constructor| |now apply path_ok_snoc|now apply path_ok_snoc].
  destruct p; [constructor|exact P].
Qed.
Lemma path_ok_join q : forall p, path_ok p -> Forall ok1 q -> path_ok (join p q).
Proof.
  induction q as [|c q IH]; intros p P Q; [exact P|]. inversion Q; subst. apply (IH (push p c)); auto. now apply path_ok_push.
Qed.
Lemma path_ok_collect q : Forall ok1 q -> path_ok (collect q).
Proof. apply (path_ok_join q []). exact I. Qed.
Lemma piece_cases s : ~ In 47 s -> s = [] \/ s = [46] \/ s = [46; 46] \/ name_ok s.
Proof.
  intros H. destruct (list_eq_dec N.eq_dec s []); auto. destruct (list_eq_dec N.eq_dec s [46]); auto.
  destruct (list_eq_dec N.eq_dec s [46; 46]); auto. right. right. right. repeat split; auto.
Qed.
Lemma piece_name f s : name_ok s -> piece f s = [Nor s].
Proof.
  intros (A & B & C & D). unfold piece. destruct s as [|a s]; [congruence|].
  destruct (N.eq_dec a 46) as [->|NE].
  - destruct s as [|b s]; [now destruct C|]. destruct (N.eq_dec b 46) as [->|NE].
    + destruct s; [now destruct D|reflexivity].
    + destruct b as [|p]; [reflexivity|]. do 6 (destruct p as [p|p|]; try reflexivity). now destruct NE.
  - destruct a as [|p]; [reflexivity|]. do 6 (destruct p as [p|p|]; try reflexivity). now destruct NE.
Qed.
Lemma piece_inner s : ~ In 47 s -> Forall inner_ok (piece false s).
Proof.
  intros H. destruct (piece_cases s H) as [->|[->|[->|X]]]; [constructor|constructor|repeat constructor|].
  rewrite piece_name by auto. repeat constructor; apply X.
Qed.
Lemma flat_inner ps : Forall (fun s => ~ In 47 s) ps -> Forall inner_ok (flat_map (piece false) ps).
Proof.
  induction 1; cbn; [constructor|]. apply Forall_app. split; auto. now apply piece_inner.
Qed.
(** The components of a text. *)
Theorem components_ok s : path_ok (components s).
Proof.
  unfold components. pose proof (split_pieces 47 s) as P. destruct (split 47 s) as [|p ps]; [exact I|].
  assert (A : Forall inner_ok (flat_map (piece false) ps)) by (apply flat_inner; now inversion P).
  assert (H : ~ In 47 p) by now inversion P.
  destruct (piece_cases p H) as [->|[->|[->|X]]].
  - destruct ps; [exact I|exact A].
  - destruct ps; exact A.
  - destruct ps; (constructor; [exact I|exact A]).
  - rewrite (piece_name true p X). destruct p as [|c p]; [destruct X; congruence|]. cbn. constructor; [exact X|exact A].
Qed.

(** * unix_slash *)
Definition txt (c : comp) : list chr := match c with ParC => [46; 46] | Nor n => n | _ => [] end.
Lemma slash_true r : Forall inner_ok r -> slash_loop true r = match r with [] => [] | _ => 47 :: joined 47 (map txt r) end.
Proof.
  induction r as [|c r IH]; intros H; [reflexivity|]. inversion H; subst.
  destruct c; try contradiction; cbn [slash_loop map txt app joined]; rewrite IH by auto; destruct r; cbn [map joined app]; rewrite ?app_nil_r; reflexivity.
Qed.
Lemma slash_false r : Forall inner_ok r -> slash_loop false r = joined 47 (map txt r).
Proof.
  intros H. destruct r as [|c r]; [reflexivity|]. inversion H; subst.
  destruct c; try contradiction; cbn [slash_loop map txt app joined]; rewrite slash_true by auto; destruct r; cbn [map joined app]; rewrite ?app_nil_r; reflexivity.
Qed.
Lemma txt_no c : inner_ok c -> ~ In 47 (txt c).
Proof. destruct c; cbn; try contradiction; [intros _ [|[|[]]]; discriminate|intros H; apply H]. Qed.
Lemma piece_txt f c : inner_ok c -> piece f (txt c) = [c].
Proof. destruct c; cbn [txt inner_ok]; try contradiction; [reflexivity|apply piece_name]. Qed.
Lemma flat_txt r : Forall inner_ok r -> flat_map (piece false) (map txt r) = r.
Proof. induction 1; [reflexivity|]. cbn. rewrite piece_txt, IHForall; auto. Qed.
Lemma split_joined ps : Forall (fun s => ~ In 47 s) ps -> ps <> [] -> split 47 (joined 47 ps) = ps.
Proof.
  induction 1 as [|p ps H F IH]; [congruence|]. intros _. destruct ps as [|q ps]; [now apply split_none|].
  change (joined 47 (p :: q :: ps)) with (p ++ 47 :: joined 47 (q :: ps)). rewrite split_app by auto. rewrite IH by discriminate. reflexivity.
Qed.
Lemma all_txt r : Forall inner_ok r -> Forall (fun s => ~ In 47 s) (map txt r).
Proof. induction 1; constructor; auto. now apply txt_no. Qed.
Definition plain (p : path) : path := match p with CurC :: r => r | p => p end.
(** A path that is written is read back, up to a leading "." *)
Theorem slash_components p : path_ok p ->
  components (unix_slash p) = match plain p with [] => [CurC] | r => r end.
Proof.
  intros P. assert (N : forall r, Forall inner_ok r -> components (match joined 47 (map txt r) with [] => [46] | s => s end) = match r with [] => [CurC] | r => r end).
  { intros r H. destruct r as [|c r]; [reflexivity|].
    assert (NE : joined 47 (map txt (c :: r)) <> []).
    { inversion H; subst. destruct c as [| | |n]; cbn in *; try contradiction; destruct r; cbn; try congruence; destruct n; destruct H2; cbn; congruence. }
    destruct (joined 47 (map txt (c :: r))) as [|x y] eqn:E; [congruence|]. rewrite <- E. unfold components.
    rewrite split_joined by (first [now apply all_txt|discriminate]). cbn [map]. inversion H; subst.
    rewrite piece_txt, flat_txt by auto.
    destruct (txt c) as [|a l] eqn:T; [|reflexivity]. destruct c as [| | |n]; try contradiction; [discriminate|]. cbn in T. subst. destruct H2. congruence. }
  destruct p as [|[| | |n] r].
  - reflexivity.
  - unfold unix_slash. cbn [slash_loop]. rewrite slash_false by exact P. unfold components.
    change (47 :: joined 47 (map txt r)) with ([] ++ 47 :: joined 47 (map txt r)). rewrite split_app by (intros []).
    destruct r as [|c r]; [reflexivity|]. rewrite split_joined by (first [now apply all_txt|discriminate]).
    cbn [plain]. rewrite flat_txt by exact P. reflexivity.
  - unfold unix_slash. cbn [slash_loop]. rewrite slash_false by exact P. rewrite (N _ P); destruct r; reflexivity.
  - unfold unix_slash. rewrite slash_false by exact P. rewrite (N _ P); destruct r; reflexivity.
  - unfold unix_slash. rewrite slash_false by exact P. rewrite (N _ P); destruct r; reflexivity.
Qed.
Lemma walk_slash d p : path_ok p -> walk d (components (unix_slash p)) = walk d p.
Proof. intros P. rewrite slash_components by auto. destruct p as [|[| | |n] r]; try reflexivity. cbn [plain]. destruct r; reflexivity. Qed.

(** * clean *)
Lemma walk_clean_step d out c : walk d (rev (clean_step out c)) = walk1 (walk d (rev out)) c.
Proof.
  destruct c as [| | |n]; cbn [clean_step]; try (cbn [rev]; rewrite walk_app; reflexivity); [reflexivity|].
  destruct out as [|[| | |m] r]; cbn [rev]; rewrite ?walk_app; reflexivity.
Qed.
Lemma walk_clean_fold p : forall d out, walk d (rev (fold_left clean_step p out)) = walk (walk d (rev out)) p.
Proof.
  induction p as [|c p IH]; intros d out; [reflexivity|]. cbn [fold_left]. rewrite IH, walk_clean_step. reflexivity.
Qed.
(** Cleaning a path does not change where it leads. *)
Theorem clean_walk d p : walk d (clean p) = walk d p.
Proof.
  unfold clean. pose proof (walk_clean_fold p d []) as H. cbn [rev walk fold_left] in H. change (fold_left walk1 ?a ?b) with (walk b a) in H.
  destruct (fold_left clean_step p []) as [|c out].
  - exact H.
  - rewrite walk_collect. exact H.
Qed.
(** The output of the loop, newest first. *)
Definition abs_out (out : list comp) := exists ns, out = map Nor ns ++ [RootC].
Definition rel_out (out : list comp) := exists ns k, out = map Nor ns ++ repeat ParC k.
Lemma abs_step out c : abs_out out -> inner_ok c -> abs_out (clean_step out c).
Proof.
  intros [ns ->] C. destruct c as [| | |n]; try contradiction; cbn [clean_step].
  - destruct ns as [|m ns]; cbn; [now exists []|now exists ns].
  - now exists (n :: ns).
Qed.
Lemma rel_step out c : rel_out out -> inner_ok c -> rel_out (clean_step out c).
Proof.
  intros (ns & k & ->) C. destruct c as [| | |n]; try contradiction; cbn [clean_step].
  - destruct ns as [|m ns]; cbn [map app]; [|now exists ns, k].
    destruct k; cbn [repeat]; [now exists [], 1%nat|now exists [], (S (S k))].
  - now exists (n :: ns), k.
Qed.
Lemma abs_fold p : Forall inner_ok p -> forall out, abs_out out -> abs_out (fold_left clean_step p out).
Proof. induction 1; intros out O; [exact O|]. apply IHForall. now apply abs_step. Qed.
Lemma rel_fold p : Forall inner_ok p -> forall out, rel_out out -> rel_out (fold_left clean_step p out).
Proof. induction 1; intros out O; [exact O|]. apply IHForall. now apply rel_step. Qed.
Lemma names_ok_step out c : Forall ok1 out -> ok1 c -> Forall ok1 (clean_step out c).
Proof.
  intros O C. destruct c as [| | |n]; cbn [clean_step]; auto. destruct out as [|[| | |m] r]; auto; [inversion O; auto].
Qed.
Lemma names_ok_fold p : Forall ok1 p -> forall out, Forall ok1 out -> Forall ok1 (fold_left clean_step p out).
Proof. induction 1; intros out O; [exact O|]. apply IHForall. now apply names_ok_step. Qed.
Lemma rev_repeat {A} (x : A) k : rev (repeat x k) = repeat x k.
Proof.
  induction k as [|k IH]; [reflexivity|]. cbn [repeat rev]. rewrite IH. clear IH.
  induction k as [|k IH]; [reflexivity|]. cbn [repeat app]. now rewrite IH.
Qed.
Lemma join_inner r : Forall (fun c => c <> RootC /\ c <> CurC) r -> forall p, join p r = p ++ r.
Proof.
  induction 1 as [|c r H F IH]; intros p; [now rewrite app_nil_r|]. change (join p (c :: r)) with (join (push p c) r). rewrite IH.
  destruct H, c; cbn [push]; try congruence; rewrite <- app_assoc; reflexivity.
Qed.
Lemma names_inner ns : Forall (fun c => c <> RootC /\ c <> CurC) (map Nor ns).
Proof. induction ns; constructor; auto. split; discriminate. Qed.
Lemma pars_inner k : Forall (fun c => c <> RootC /\ c <> CurC) (repeat ParC k).
Proof. induction k; constructor; auto. split; discriminate. Qed.
Lemma collect_abs ns : collect (RootC :: map Nor ns) = RootC :: map Nor ns.
Proof. unfold collect. cbn [fold_left push]. change (fold_left push ?a ?b) with (join b a). rewrite join_inner by apply names_inner. reflexivity. Qed.
Lemma collect_rel k ns : collect (repeat ParC k ++ map Nor ns) = repeat ParC k ++ map Nor ns.
Proof. unfold collect. change (fold_left push ?a ?b) with (join b a). rewrite join_inner; [reflexivity|]. apply Forall_app. split; [apply pars_inner|apply names_inner]. Qed.
Lemma inner_of_ok p : path_ok p -> is_abs p = false -> Forall inner_ok (plain p) /\ fold_left clean_step p [] = fold_left clean_step (plain p) [].
Proof. destruct p as [|[| | |n] r]; cbn [is_abs plain]; intros P A; try discriminate; split; auto. Qed.
Theorem clean_canonical p : path_ok p -> canonical (clean p) /\ path_ok (clean p) /\ is_abs (clean p) = is_abs p.
Proof.
  intros P. pose proof (names_ok_fold p (path_ok1 p P) [] ltac:(constructor)) as N. unfold clean. destruct (is_abs p) eqn:A.
  - destruct p as [|[| | |n] r]; try discriminate. cbn [fold_left] in *. destruct (abs_fold r P [RootC]) as [ns E]; [now exists []|].
    cbn [clean_step] in *. rewrite E in *. destruct (map Nor ns ++ [RootC]) as [|c out] eqn:F; [destruct ns; discriminate|]. rewrite <- F in *. rewrite rev_app_distr. cbn [rev app]. rewrite <- map_rev, collect_abs.
    repeat split; [right; left; now exists (rev ns)|]. cbn. apply Forall_app in N as [N _]. apply Forall_forall. intros c' I. apply in_map_iff in I as (x & <- & I).
    rewrite Forall_forall in N. apply (N (Nor x)). apply in_map. now apply in_rev.
  - destruct (inner_of_ok p P A) as [I E]. destruct (rel_fold _ I []) as (ns & k & F); [now exists [], 0%nat|]. rewrite <- E in F.
    rewrite F in *. destruct (map Nor ns ++ repeat ParC k) as [|c out] eqn:G; [repeat split; [now left|constructor]|]. rewrite <- G in *.
    rewrite rev_app_distr, rev_repeat, <- map_rev, collect_rel. split; [|split].
    + right. right. exists k, (rev ns). split; auto. intros X. destruct k; [|discriminate]. destruct ns as [|x ns]; [discriminate|]. cbn in X. rewrite map_app in X. destruct (map Nor (rev ns)); discriminate.
    + assert (Y : Forall inner_ok (repeat ParC k ++ map Nor (rev ns))).
      { apply Forall_app. split; [clear; induction k; constructor; cbn; auto|]. apply Forall_app in N as [N _]. apply Forall_forall. intros c' J. apply in_map_iff in J as (x & <- & J).
        rewrite Forall_forall in N. apply (N (Nor x)). apply in_map. now apply in_rev. }
      destruct (repeat ParC k ++ map Nor (rev ns)) as [|y l]; [exact I0 || exact Logic.I|]. inversion Y; subst. destruct y; try contradiction; exact Y.
    + destruct k; [|reflexivity]. cbn. destruct (rev ns); reflexivity.
Qed.
Lemma fold_names ns : forall out, fold_left clean_step (map Nor ns) out = rev (map Nor ns) ++ out.
Proof. induction ns as [|n ns IH]; intros out; [reflexivity|]. cbn [map fold_left rev]. rewrite IH, <- app_assoc. reflexivity. Qed.
Lemma fold_pars k : forall j, fold_left clean_step (repeat ParC k) (repeat ParC j) = repeat ParC (k + j).
Proof.
  induction k as [|k IH]; intros j; [reflexivity|]. cbn [repeat fold_left].
  replace (clean_step (repeat ParC j) ParC) with (repeat ParC (S j)) by (destruct j; reflexivity). rewrite IH. f_equal. lia.
Qed.
Lemma canonical_clean p : canonical p -> clean p = p.
Proof.
  intros [->|[[ns ->]|(k & ns & -> & NE)]]; unfold clean.
  - reflexivity.
  - cbn [fold_left clean_step]. rewrite fold_names. destruct (rev (map Nor ns) ++ [RootC]) as [|c l] eqn:E; [destruct (rev (map Nor ns)); discriminate|].
    rewrite <- E, rev_app_distr, rev_involutive. apply collect_abs.
  - rewrite fold_left_app. pose proof (fold_pars k 0) as FP. cbn [repeat] in FP. rewrite FP, fold_names, Nat.add_0_r.
    destruct (rev (map Nor ns) ++ repeat ParC k) as [|c l] eqn:E.
    + apply app_eq_nil in E as [E F]. destruct k; [|discriminate]. destruct ns; [|cbn in E; destruct (rev (map Nor ns)); discriminate]. now destruct NE.
    + rewrite <- E, rev_app_distr, rev_involutive, rev_repeat. apply collect_rel.
Qed.
Theorem clean_idem p : path_ok p -> clean (clean p) = clean p.
Proof. intros P. apply canonical_clean. now apply clean_canonical. Qed.
Lemma canonical_abs p : canonical p -> is_abs p = true -> p = RootC :: map Nor (rev (walk [] p)).
Proof.
  intros [->|[[ns ->]|(k & ns & -> & NE)]] A; try discriminate.
  - cbn [walk fold_left walk1]. change (fold_left walk1 ?a ?b) with (walk b a). rewrite walk_names, app_nil_r, rev_involutive. reflexivity.
  - destruct k; [destruct ns; discriminate|discriminate].
Qed.
Lemma clean_abs p : path_ok p -> is_abs p = true -> clean p = RootC :: map Nor (rev (walk [] p)).
Proof.
  intros P A. destruct (clean_canonical p P) as (C & _ & B). rewrite A in B. rewrite <- (clean_walk [] p). now apply canonical_abs.
Qed.

(** * diff *)
Lemma no_detour p : path_ok p -> p <> [] -> existsb (fun c => match c with ParC | CurC => true | _ => false end) p = false -> clean p = p.
Proof.
  intros P NE E. apply canonical_clean. assert (X : forall r, Forall inner_ok r -> existsb (fun c => match c with ParC | CurC => true | _ => false end) r = false -> exists ns, r = map Nor ns).
  { clear. induction 1 as [|c r H F IH]; intros E; [now exists []|]. cbn in E. apply orb_false_iff in E as [E1 E2]. destruct (IH E2) as [ns ->].
    destruct c as [| | |n]; try contradiction; [discriminate|]. now exists (n :: ns). }
  destruct p as [|[| | |n] r]; [congruence| |discriminate|discriminate|].
  - right. left. destruct (X r P E) as [ns ->]. now exists ns.
  - right. right. destruct (X (Nor n :: r) P E) as [ns F]. exists 0%nat, ns. split; [exact F|discriminate].
Qed.
Lemma clean_for_diff_spec p : path_ok p -> clean_for_diff p = match p with [] => [] | _ => clean p end.
Proof.
  intros P. unfold clean_for_diff. destruct (existsb _ p) eqn:E; [destruct p; [discriminate|reflexivity]|].
  destruct p as [|c r]; [reflexivity|]. symmetry. apply no_detour; auto. discriminate.
Qed.
Lemma diff_empty b : forall cs, diff_loop cs [] b = Some (cs ++ repeat ParC (length b)).
Proof.
  induction b as [|y b IH]; intros cs; cbn [diff_loop length repeat]; [now rewrite app_nil_r|]. rewrite IH, <- app_assoc. reflexivity.
Qed.
Lemma map_const (b : path) : map (fun _ => ParC) b = repeat ParC (length b).
Proof. induction b; cbn; congruence. Qed.
Lemma walk_back ms d : walk (walk d (map Nor ms)) (repeat ParC (length (map Nor ms))) = d.
Proof.
  rewrite walk_names, walk_pars, map_length, <- (rev_length ms), skipn_app, skipn_all, Nat.sub_diag. reflexivity.
Qed.
(** The way from names [ms] to anything. *)
Lemma diff_names ms : forall a d0, exists d, diff_loop [] a (map Nor ms) = Some d /\ walk (walk d0 (map Nor ms)) d = walk d0 a /\
  (Forall (fun c => c <> RootC) a -> Forall (fun c => c <> RootC) d).
Proof.
  induction ms as [|m ms IH]; intros a d0.
  - exists a. destruct a; cbn; repeat split; auto.
  - destruct a as [|x a].
    + exists (repeat ParC (length (map Nor (m :: ms)))). split; [apply diff_empty|]. split; [apply walk_back|].
      intros _. clear. apply Forall_forall. intros c I. apply repeat_spec in I as ->. discriminate.
    + cbn [map diff_loop]. destruct (comp_eqb x (Nor m)) eqn:E.
      * apply comp_eqb_spec in E as ->. destruct (IH a (m :: d0)) as (d & D & W & R). exists d. split; [exact D|]. split; [exact W|]. intros F. apply R. now inversion F.
      * exists ([] ++ [ParC] ++ map (fun _ => ParC) (map Nor ms) ++ x :: a). split; [reflexivity|]. split.
        { cbn [app]. rewrite map_const. change (ParC :: repeat ParC (length (map Nor ms)) ++ x :: a) with (repeat ParC (length (map Nor (m :: ms))) ++ x :: a).
          change (Nor m :: map Nor ms) with (map Nor (m :: ms)). rewrite walk_app, (walk_back (m :: ms) d0). reflexivity. }
        { intros F. rewrite map_const. apply Forall_app. split; [constructor|]. apply Forall_app. split; [repeat constructor; discriminate|]. apply Forall_app. split; auto.
          apply Forall_forall. intros c I. apply repeat_spec in I as ->. discriminate. }
Qed.
Lemma diff_pars k : forall a b, diff_loop [] (repeat ParC k ++ a) (repeat ParC k ++ b) = diff_loop [] a b.
Proof. induction k; intros; [reflexivity|]. cbn. apply IHk. Qed.
Lemma collect_not_abs cs : Forall (fun c => c <> RootC) cs -> is_abs (collect cs) = false.
Proof.
  assert (X : forall p, is_abs p = false -> Forall (fun c => c <> RootC) cs -> is_abs (join p cs) = false); [|now apply X].
  induction cs as [|c cs IH]; intros p A F; [exact A|]. inversion F; subst. apply (IH (push p c)); auto.
  destruct c; cbn [push]; [congruence| | |]; destruct p as [|[| | |n] r]; auto.
Qed.
Lemma diff_loop_ok1 b : forall cs a d, Forall ok1 cs -> Forall ok1 a -> diff_loop cs a b = Some d -> Forall ok1 d.
Proof.
  induction b as [|y b IH]; intros cs a d C A E.
  - destruct a; cbn in E; injection E as <-; auto. apply Forall_app; auto.
  - destruct a as [|x a]; cbn [diff_loop] in E.
    + apply IH in E; auto. apply Forall_app. split; auto. repeat constructor.
    + inversion A; subst. destruct (match cs with [] => comp_eqb x y | _ => false end); [now apply IH in E|].
      assert (Z : forall d, Some (cs ++ [ParC] ++ map (fun _ => ParC) b ++ x :: a) = Some d -> Forall ok1 d).
      { intros d' [= <-]. rewrite map_const. apply Forall_app. split; auto. constructor; [exact Logic.I|]. apply Forall_app. split; auto.
        apply Forall_forall. intros c I. apply repeat_spec in I as ->. exact Logic.I. }
      destruct y; auto; [|discriminate]. apply IH in E; auto. apply Forall_app. split; auto.
Qed.
Lemma clean_for_diff_ok p : path_ok p -> path_ok (clean_for_diff p) /\ is_abs (clean_for_diff p) = is_abs p.
Proof. intros P. rewrite clean_for_diff_spec by auto. destruct p; [split; auto|]. split; now apply clean_canonical. Qed.
Lemma walk_cfd d p : path_ok p -> walk d (clean_for_diff p) = walk d p.
Proof. intros P. rewrite clean_for_diff_spec by auto. destruct p; [reflexivity|]. apply clean_walk. Qed.
Lemma diff_ok fr to d : path_ok fr -> path_ok to -> diff fr to = Some d -> path_ok d.
Proof.
  intros P Q E. destruct (clean_for_diff_ok fr P) as [P' _]. unfold diff, diff_paths in E. destruct (Bool.eqb _ _).
  - destruct (diff_loop _ _ _) as [cs|] eqn:L; [|discriminate]. cbn in E. injection E as <-. apply path_ok_collect.
    eapply diff_loop_ok1; [constructor| |exact L]. now apply path_ok1.
  - destruct (is_abs _); [|discriminate]. injection E as <-. exact P'.
Qed.
(** Between absolute paths there is a relative path, and it leads from one to the other. *)
Theorem diff_abs fr to : path_ok fr -> path_ok to -> is_abs fr = true -> is_abs to = true ->
  exists d, diff fr to = Some d /\ is_abs d = false /\ path_ok d /\ forall b, walk (walk b to) d = walk b fr.
Proof.
  intros P Q A B.
  assert (CF : clean_for_diff fr = RootC :: map Nor (rev (walk [] fr))) by (rewrite clean_for_diff_spec by auto; destruct fr; [discriminate|now apply clean_abs]).
  assert (CT : clean_for_diff to = RootC :: map Nor (rev (walk [] to))) by (rewrite clean_for_diff_spec by auto; destruct to; [discriminate|now apply clean_abs]).
  destruct (diff_names (rev (walk [] to)) (map Nor (rev (walk [] fr))) []) as (d & D & W & R).
  assert (E : diff fr to = Some (collect d)). { unfold diff, diff_paths. rewrite CF, CT. cbn [is_abs Bool.eqb diff_loop comp_eqb]. rewrite D. reflexivity. }
  exists (collect d). split; [exact E|]. split; [|split].
  - apply collect_not_abs, R. clear. induction (rev (walk [] fr)); constructor; auto. discriminate.
  - now apply diff_ok in E.
  - intros b. rewrite walk_collect. assert (X : forall p b c, is_abs p = true -> walk b p = walk c p) by (intros [|[| | |n] r] ? ?; try discriminate; reflexivity).
    rewrite (X to b [] B), (X fr b [] A). rewrite <- (walk_cfd [] to Q), <- (walk_cfd [] fr P), CF, CT. exact W.
Qed.
(** The number of leading "..". *)
Fixpoint ups (p : path) : nat := match p with ParC :: r => S (ups r) | _ => 0%nat end.
Lemma ups_canonical k ns : ups (repeat ParC k ++ map Nor ns) = k.
Proof. induction k; cbn; [destruct ns; reflexivity|congruence]. Qed.
Theorem diff_rel fr to : path_ok fr -> path_ok to -> fr <> [] -> is_abs fr = false -> is_abs to = false ->
  (ups (clean to) <= ups (clean fr))%nat ->
  exists d, diff fr to = Some d /\ is_abs d = false /\ path_ok d /\ forall b, walk (walk b to) d = walk b fr.
Proof.
  intros P Q NE A B U.
  assert (CF : clean_for_diff fr = clean fr) by (rewrite clean_for_diff_spec by auto; destruct fr; congruence).
  destruct (clean_canonical fr P) as (CanF & _ & AF). rewrite A in AF.
  assert (NR : Forall (fun c => c <> RootC) (clean fr)).
  { destruct CanF as [->|[[ns E]|(k & ns & -> & _)]]; [repeat constructor; discriminate|rewrite E in AF; discriminate|].
    apply Forall_app. split; [|clear; induction ns; constructor; auto; discriminate]. apply Forall_forall. intros c I. apply repeat_spec in I as ->. discriminate. }
  assert (L : exists d, diff_loop [] (clean_for_diff fr) (clean_for_diff to) = Some d /\ Forall (fun c => c <> RootC) d /\ forall b, walk (walk b (clean_for_diff to)) d = walk b (clean_for_diff fr)).
  { rewrite CF. rewrite (clean_for_diff_spec to Q). destruct to as [|t0 tr].
    { exists (clean fr). destruct (clean fr); cbn; auto. }
    destruct (clean_canonical _ Q) as (CanT & _ & AT). rewrite B in AT. destruct CanT as [E|[[ns E]|(k & ms & E & NT)]]; rewrite E in *; [|discriminate|].
    - destruct (clean fr) as [|x a] eqn:F.
      { destruct CanF as [?|[[? ?]|(? & ? & ? & ?)]]; congruence. }
      cbn [diff_loop]. destruct (comp_eqb x CurC) eqn:X.
      + apply comp_eqb_spec in X as ->. exists a. split; [destruct a; reflexivity|]. split; [now inversion NR|]. intros b. reflexivity.
      + exists (x :: a). split; [destruct a; reflexivity|]. split; [exact NR|]. reflexivity.
    - rewrite ups_canonical in U. destruct CanF as [F|[[ns F]|(j & ns & F & _)]]; rewrite F in *.
      + destruct k; [|cbn in U; lia]. destruct (diff_names ms [CurC] []) as (d & D & _ & R). exists d. split; [exact D|]. split; [now apply R|].
        intros b. destruct (diff_names ms [CurC] b) as (d' & D' & W & _). cbn [repeat app]. congruence.
      + discriminate.
      + rewrite ups_canonical in U. replace j with (k + (j - k))%nat in * by lia. rewrite repeat_app, <- app_assoc, diff_pars.
        destruct (diff_names ms (repeat ParC (j - k) ++ map Nor ns) []) as (d & D & _ & R). exists d. split; [exact D|]. split.
        * apply R. rewrite repeat_app, <- app_assoc in NR. now apply Forall_app in NR as [_ NR].
        * intros b. destruct (diff_names ms (repeat ParC (j - k) ++ map Nor ns) (walk b (repeat ParC k))) as (d' & D' & W & _).
          rewrite !(walk_app b). congruence. }
  destruct L as (d & D & R & W). destruct (clean_for_diff_ok fr P) as [_ AF']. destruct (clean_for_diff_ok to Q) as [_ AT'].
  assert (E : diff fr to = Some (collect d)). { unfold diff, diff_paths. rewrite AF', AT', A, B, D. reflexivity. }
  exists (collect d). split; [exact E|]. split; [now apply collect_not_abs|]. split; [now apply diff_ok in E|].
  intros b. rewrite walk_collect. specialize (W b). rewrite !walk_cfd in W; auto.
Qed.
Lemma diff_mixed fr to d : path_ok fr -> path_ok to -> is_abs fr <> is_abs to ->
  (diff fr to = Some d -> is_abs fr = true /\ forall b, walk (walk b to) d = walk b fr) /\ (is_abs fr = false -> diff fr to = None).
Proof.
  intros P Q NE. unfold diff, diff_paths. destruct (clean_for_diff_ok fr P) as [_ ->]. destruct (clean_for_diff_ok to Q) as [_ ->].
  destruct (is_abs fr) eqn:A, (is_abs to); try congruence; cbn [Bool.eqb]; split; try discriminate; auto.
  intros [= <-]. split; auto. intros b. rewrite walk_cfd by auto. destruct fr as [|[| | |n] r]; try discriminate. reflexivity.
Qed.

(** * normalize_path *)
Definition head_of (p : path) : path := if is_abs p then [RootC] else [].
Lemma pop_snoc p c : c <> RootC -> pop (p ++ [c]) = p.
Proof. intros H. unfold pop. rewrite rev_app_distr. cbn [rev app]. destruct c; try congruence; apply rev_involutive. Qed.
Lemma norm_fold r : Forall inner_ok r -> forall h d, h = [] \/ h = [RootC] -> fold_left norm_step r (h ++ map Nor (rev d)) = h ++ map Nor (rev (walk d r)).
Proof.
  induction 1 as [|c r C F IH]; intros h d H; [reflexivity|]. cbn [fold_left].
  replace (norm_step (h ++ map Nor (rev d)) c) with (h ++ map Nor (rev (walk1 d c))); [now apply IH|].
  destruct c as [| | |n]; try contradiction; cbn [norm_step walk1 push].
  - destruct d as [|m d]; [destruct H as [->| ->]; reflexivity|]. cbn [tl rev]. rewrite map_app, app_assoc. cbn [map]. now rewrite pop_snoc.
  - cbn [rev]. rewrite map_app, app_assoc. reflexivity.
Qed.
(** Normalising is following the path from the root, or from a directory without parents. *)
Theorem normalize_spec p : path_ok p -> normalize p = head_of p ++ map Nor (rev (walk [] p)).
Proof.
  intros P. unfold normalize, head_of. destruct p as [|[| | |n] r]; cbn [is_abs].
  - reflexivity.
  - exact (norm_fold r P [RootC] [] (or_intror eq_refl)).
  - exact (norm_fold r P [] [] (or_introl eq_refl)).
  - exact (norm_fold (ParC :: r) P [] [] (or_introl eq_refl)).
  - exact (norm_fold (Nor n :: r) P [] [] (or_introl eq_refl)).
Qed.
Lemma walk_ok d p : Forall name_ok d -> Forall ok1 p -> Forall name_ok (walk d p).
Proof.
  intros D P. revert d D. induction P as [|c p C F IH]; intros d D; [exact D|]. apply (IH (walk1 d c)).
  destruct c; cbn [walk1]; [constructor|exact D|destruct D; [constructor|assumption]|constructor; [exact C|exact D]].
Qed.
Lemma normalize_ok p : path_ok p -> path_ok (normalize p) /\ Forall (fun c => c <> CurC /\ c <> ParC) (normalize p) /\ is_abs (normalize p) = is_abs p.
Proof.
  intros P. rewrite normalize_spec by auto. pose proof (walk_ok [] p ltac:(constructor) (path_ok1 p P)) as W.
  assert (X : Forall inner_ok (map Nor (rev (walk [] p)))). { apply Forall_forall. intros c I. apply in_map_iff in I as (n & <- & I). rewrite Forall_forall in W. apply W. now apply in_rev. }
  unfold head_of. destruct (is_abs p); (split; [|split]); cbn [app].
  - exact X.
  - constructor; [split; discriminate|]. clear. induction (rev (walk [] p)); constructor; auto. split; discriminate.
  - reflexivity.
  - destruct (map Nor (rev (walk [] p))) as [|c r] eqn:E; [exact I|]. destruct (rev (walk [] p)); [discriminate|]. cbn in E. injection E as <- <-. exact X.
  - clear. induction (rev (walk [] p)); constructor; auto. split; discriminate.
  - destruct (rev (walk [] p)); reflexivity.
Qed.
Lemma walk_normalize p : path_ok p -> walk [] (normalize p) = walk [] p.
Proof.
  intros P. rewrite normalize_spec by auto. rewrite walk_app. replace (walk [] (head_of p)) with (@nil (list chr)) by (unfold head_of; destruct (is_abs p); reflexivity).
  rewrite walk_names, rev_involutive, app_nil_r. reflexivity.
Qed.
Theorem normalize_idem p : path_ok p -> normalize (normalize p) = normalize p.
Proof.
  intros P. destruct (normalize_ok p P) as (Q & _ & A). rewrite (normalize_spec (normalize p)) by auto. rewrite walk_normalize by auto.
  unfold head_of. rewrite A. symmetry. now apply normalize_spec.
Qed.
Theorem normalize_clean p : path_ok p -> is_abs p = true -> normalize p = clean p.
Proof. intros P A. rewrite normalize_spec, clean_abs by auto. unfold head_of. now rewrite A. Qed.

(** * Users *)
Lemma walk_absolute p b : is_abs p = true -> walk b p = walk [] p.
Proof. destruct p as [|[| | |n] r]; intros A; try discriminate. reflexivity. Qed.
Theorem completion_leads file dir : path_ok file -> path_ok dir -> is_abs file = true -> is_abs dir = true ->
  exists s, completion_label file dir = Some s /\ is_abs (components s) = false /\ walk (walk [] dir) (components s) = walk [] file.
Proof.
  intros P Q A B. destruct (diff_abs file dir P Q A B) as (d & E & R & O & W). exists (unix_slash d). unfold completion_label. rewrite E. split; [reflexivity|]. split.
  - rewrite slash_components by auto. destruct d as [|[| | |n] r]; cbn [plain]; try reflexivity; try discriminate. cbn in O. destruct r as [|[| | |n] r]; auto. inversion O; subst. contradiction.
  - rewrite walk_slash by auto. apply W.
Qed.
Lemma rename_diff_abs old new : path_ok old -> path_ok new -> is_abs old = true -> is_abs new = true ->
  exists d, rename_diff old new = Some d /\ path_ok d /\ walk (walk [] old) d = walk [] new.
Proof.
  intros P Q A B. destruct (diff_abs new old Q P B A) as (d & E & R & O & W). exists d. unfold rename_diff. rewrite E, R. split; [reflexivity|]. split; [exact O|]. apply W.
Qed.
Lemma walk_rename_ref b d s : path_ok d -> walk b (components (rename_ref d s)) = walk (walk b (components s)) d.
Proof.
  intros O. unfold rename_ref. assert (J : path_ok (join (components s) d)). { apply path_ok_join; [apply components_ok|now apply path_ok1]. }
  rewrite walk_slash by now apply clean_canonical. rewrite clean_walk, walk_join. reflexivity.
Qed.
Lemma rename_target_leads old ref name t b : path_ok old -> is_abs (components ref) = false -> is_abs (components name) = false ->
  components name <> [] -> (ups (clean (components ref)) <= ups (clean (components name)))%nat ->
  walk b (components ref) = walk [] old -> rename_target old ref name = Some t -> walk [] t = walk b (components name) /\ path_ok t.
Proof.
  intros P A B NE U W. unfold rename_target, rename_diff.
  destruct (diff_rel (components name) (components ref) (components_ok _) (components_ok _) NE B A U) as (d & E & R & O & V). rewrite E, R. intros [= <-].
  rewrite clean_walk, walk_join, <- W, V. split; [reflexivity|]. apply clean_canonical, path_ok_join; auto. now apply path_ok1.
Qed.
Lemma lock_leads base inp : path_ok base -> path_ok inp -> is_abs base = true ->
  exists s, from_user_sys base inp = Some s /\ walk [] (to_abs_path base s) = walk (walk [] base) inp.
Proof.
  intros P Q A. unfold from_user_sys, to_abs_path.
  assert (X : forall d, path_ok d -> is_abs d = false -> walk [] (if is_abs (components (unix_slash d)) then components (unix_slash d) else join base (components (unix_slash d))) = walk (walk [] base) d).
  { intros d O R. assert (Y : is_abs (components (unix_slash d)) = false).
    { rewrite slash_components by auto. destruct d as [|[| | |n] r]; cbn [plain]; try reflexivity; try discriminate. cbn in O. destruct r as [|[| | |n] r]; auto. inversion O; subst. contradiction. }
    rewrite Y, walk_join, walk_slash by auto. reflexivity. }
  destruct (is_abs inp) eqn:I.
  - destruct (diff_abs inp base Q P I A) as (d & E & R & O & W). rewrite E. exists (unix_slash d). split; [reflexivity|]. rewrite X by auto. rewrite W. symmetry. now rewrite !(walk_absolute inp).
  - exists (unix_slash inp). split; [reflexivity|]. now apply X.
Qed.
Lemma diff_common rt : forall a b, diff_loop [] (map Nor (rt ++ a)) (map Nor (rt ++ b)) = diff_loop [] (map Nor a) (map Nor b).
Proof.
  induction rt as [|n rt IH]; intros a b; [reflexivity|]. cbn [app map diff_loop]. rewrite (proj2 (comp_eqb_spec (Nor n) (Nor n)) eq_refl). apply IH.
Qed.
(** In a project at [rt] the change leads from the old place in the project to the new one. *)
Lemma rename_diff_inside old new rt ov nv d : path_ok old -> path_ok new -> is_abs old = true -> is_abs new = true ->
  walk [] old = ov ++ rt -> walk [] new = nv ++ rt -> rename_diff old new = Some d -> path_ok d /\ walk ov d = nv.
Proof.
  intros P Q A B WO WN E. unfold rename_diff in E. destruct (diff new old) as [d'|] eqn:D; [|discriminate]. destruct (is_abs d'); [discriminate|]. injection E as ->.
  split; [now apply diff_ok in D|].
  assert (CO : clean_for_diff old = RootC :: map Nor (rev (ov ++ rt))) by (rewrite clean_for_diff_spec by auto; destruct old; [discriminate|rewrite clean_abs, WO by auto; reflexivity]).
  assert (CN : clean_for_diff new = RootC :: map Nor (rev (nv ++ rt))) by (rewrite clean_for_diff_spec by auto; destruct new; [discriminate|rewrite clean_abs, WN by auto; reflexivity]).
  unfold diff, diff_paths in D. rewrite CO, CN in D. cbn [is_abs Bool.eqb diff_loop comp_eqb] in D. rewrite !rev_app_distr, diff_common in D.
  destruct (diff_names (rev ov) (map Nor (rev nv)) []) as (e & L & W & _). rewrite L in D. cbn in D. injection D as <-. rewrite walk_collect.
  rewrite !walk_names, !rev_involutive, !app_nil_r in W. exact W.
Qed.
