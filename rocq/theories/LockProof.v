(** Proofs about the lock file and the routes. *)
From Coq Require Import List Arith Bool Lia Permutation.
From Verif Require Import AssocModel AssocProof LockModel LockSpec.
Import ListNotations.

(** * Upserts *)
Lemma filter_none_key {A} (key : A -> nat) x l : ~ In (key x) (map key l) -> filter (fun y => key y =? key x) l = [].
Proof.
  induction l as [|y l IH]; cbn; intros H; auto. destruct (Nat.eqb_spec (key y) (key x)); [tauto|apply IH; tauto].
Qed.
Lemma put_same {A} (key : A -> nat) x l : unique key l -> filter (fun y => key y =? key x) (put key x l) = [x].
Proof.
  unfold unique. induction l as [|y l IH]; cbn; intros H; [now rewrite Nat.eqb_refl|]. inversion H; subst.
  destruct (Nat.eqb_spec (key y) (key x)) as [E|E]; cbn.
  - rewrite Nat.eqb_refl. f_equal. apply filter_none_key. now rewrite <- E.
  - destruct (Nat.eqb_spec (key y) (key x)); [contradiction|auto].
Qed.
Lemma put_others {A} (key : A -> nat) x l : others key x (put key x l) = others key x l.
Proof.
  unfold others. induction l as [|y l IH]; cbn; [now rewrite Nat.eqb_refl|].
  destruct (Nat.eqb_spec (key y) (key x)) as [E|E]; cbn; [now rewrite Nat.eqb_refl|].
  destruct (Nat.eqb_spec (key y) (key x)); [contradiction|]. cbn. now rewrite IH.
Qed.
Lemma put_put {A} (key : A -> nat) x l : put key x (put key x l) = put key x l.
Proof.
  induction l as [|y l IH]; cbn; [now rewrite Nat.eqb_refl|].
  destruct (Nat.eqb_spec (key y) (key x)) as [E|E]; cbn; [now rewrite Nat.eqb_refl|].
  destruct (Nat.eqb_spec (key y) (key x)); [contradiction|]. now rewrite IH.
Qed.
Lemma put_keys {A} (key : A -> nat) x l k : In k (map key (put key x l)) -> k = key x \/ In k (map key l).
Proof.
  induction l as [|y l IH]; cbn; [intros [<-|[]]; auto|].
  destruct (Nat.eqb_spec (key y) (key x)) as [E|E]; cbn; intros [H|H]; auto. destruct (IH H); auto.
Qed.
Lemma put_unique {A} (key : A -> nat) x l : unique key l -> unique key (put key x l).
Proof.
  unfold unique. induction l as [|y l IH]; cbn; intros H; [constructor; [tauto|constructor]|]. inversion H; subst.
  destruct (Nat.eqb_spec (key y) (key x)) as [E|E]; cbn.
  - rewrite <- E. exact H.
  - constructor; [|auto]. intros X. apply put_keys in X. tauto.
Qed.
Lemma put_in {A} (key : A -> nat) x l : unique key l -> In x l -> put key x l = l.
Proof.
  unfold unique. induction l as [|y l IH]; cbn; intros H I; [tauto|]. inversion H; subst. destruct I as [->|I].
  - now rewrite Nat.eqb_refl.
  - destruct (Nat.eqb_spec (key y) (key x)) as [E|E]; [|now rewrite IH].
    exfalso. apply H2. rewrite E. now apply in_map.
Qed.
Lemma in_put {A} (key : A -> nat) x l : In x (put key x l).
Proof. induction l as [|y l IH]; cbn; auto. destruct (key y =? key x); cbn; auto. Qed.

Lemma document_upserted d l : unique o_id (l_docs l) -> upserted o_id d (l_docs l) (l_docs (replace_document d l)).
Proof. intros H. split; cbn; [apply put_same, H|apply put_others]. Qed.
Lemma task_upserted t l : unique t_id (l_tasks l) -> upserted t_id t (l_tasks l) (l_tasks (replace_task t l)).
Proof. intros H. split; cbn; [apply put_same, H|apply put_others]. Qed.
Lemma filter_filter {A} (f g : A -> bool) l : filter f (filter g l) = filter (fun x => g x && f x) l.
Proof. induction l as [|x l IH]; cbn; auto. destruct (g x); cbn; [|auto]. destruct (f x); rewrite IH; auto. Qed.
Lemma filter_false {A} (f : A -> bool) l : (forall x, f x = false) -> filter f l = [].
Proof. intros H. induction l as [|x l IH]; cbn; auto. now rewrite H. Qed.
Lemma route_upserted r l : upserted r_id r (l_routes l) (l_routes (replace_route r l)).
Proof.
  split; cbn; [|unfold others]; rewrite filter_app, filter_filter; cbn; rewrite Nat.eqb_refl; cbn.
  - rewrite filter_false; [reflexivity|]. intros x. destruct (r_id x =? r_id r); reflexivity.
  - rewrite app_nil_r. apply filter_ext. intros x. destruct (r_id x =? r_id r); reflexivity.
Qed.
Lemma route_twice r l : replace_route r (replace_route r l) = replace_route r l.
Proof.
  unfold replace_route. cbn. f_equal. f_equal. rewrite filter_app, filter_filter. cbn. rewrite Nat.eqb_refl. cbn.
  rewrite app_nil_r. apply filter_ext. intros x. destruct (r_id x =? r_id r); reflexivity.
Qed.

(** * Sorting *)
Lemma insert_perm {A} le (x : A) l : Permutation (insert le x l) (x :: l).
Proof.
  induction l as [|y l IH]; cbn; auto. destruct (le x y); auto.
  eapply Permutation_trans; [apply perm_skip, IH|apply perm_swap].
Qed.
Lemma isort_perm {A} le (l : list A) : Permutation (isort le l) l.
Proof. induction l as [|x l IH]; cbn; auto. eapply Permutation_trans; [apply insert_perm|auto]. Qed.
Fixpoint adjacent {A} (le : A -> A -> bool) (l : list A) : Prop :=
  match l with
  | [] => True
  | x :: r => match r with [] => True | y :: _ => le x y = true end /\ adjacent le r
  end.
Lemma insert_adjacent {A} le (x : A) l : (forall a b, le a b = false -> le b a = true) -> adjacent le l -> adjacent le (insert le x l).
Proof.
  intros T. induction l as [|y l IH]; cbn; auto. intros [H1 H2]. destruct (le x y) eqn:E; cbn; auto.
  split; [|auto]. destruct l as [|z l]; cbn; [auto|]. destruct (le x z); auto.
Qed.
Lemma isort_adjacent {A} le (l : list A) : (forall a b, le a b = false -> le b a = true) -> adjacent le (isort le l).
Proof. intros T. induction l as [|x l IH]; cbn; auto. now apply insert_adjacent. Qed.
Lemma isort_id {A} le (l : list A) : adjacent le l -> isort le l = l.
Proof.
  induction l as [|x l IH]; auto. intros [H1 H2]. change (isort le (x :: l)) with (insert le x (isort le l)). rewrite (IH H2). destruct l as [|y l]; cbn; auto. now rewrite H1.
Qed.
Lemma doc_le_total a b : doc_le a b = false -> doc_le b a = true.
Proof. unfold doc_le. rewrite Nat.leb_gt, Nat.leb_le. lia. Qed.
Lemma task_le_total a b : task_le a b = false -> task_le b a = true.
Proof.
  unfold task_le. rewrite orb_false_iff, andb_false_iff, orb_true_iff, andb_true_iff, Nat.ltb_ge, Nat.ltb_lt, !Nat.eqb_eq, Nat.eqb_neq, Nat.leb_gt, Nat.leb_le. lia.
Qed.
Lemma sort_sort l : sort (sort l) = sort l.
Proof.
  unfold sort. cbn. f_equal; apply isort_id, isort_adjacent; [apply doc_le_total|apply task_le_total].
Qed.
Lemma sort_same l : same_lock (sort l) l.
Proof. repeat split; cbn; auto using isort_perm. Qed.
Lemma unique_perm {A} (key : A -> nat) a b : Permutation a b -> unique key a -> unique key b.
Proof. intros P. apply Permutation_NoDup. now apply Permutation_map. Qed.

(** * Text *)
Lemma parse_docs ds : forall r l, parse_body (flat_map emit_doc ds ++ r) l =
  parse_body r (mkLock (l_docs l ++ ds) (l_tasks l) (l_routes l)).
Proof.
  induction ds as [|[i b] ds IH]; intros r l; cbn; [rewrite app_nil_r; now destruct l|].
  rewrite IH. cbn. now rewrite <- app_assoc.
Qed.
Lemma parse_routes rs : forall r l, parse_body (flat_map emit_route rs ++ r) l =
  parse_body r (mkLock (l_docs l) (l_tasks l) (l_routes l ++ rs)).
Proof.
  induction rs as [|[i b] rs IH]; intros r l; cbn; [rewrite app_nil_r; now destruct l|].
  rewrite IH. cbn. now rewrite <- app_assoc.
Qed.
Lemma add_trans_last x ts t : add_trans x (ts ++ [t]) = Some (ts ++ [mkTask (t_id t) (t_doc t) (t_body t) (t_tr t ++ [x])]).
Proof.
  induction ts as [|y ts IH]; cbn; auto. destruct (ts ++ [t]) eqn:E; [destruct ts; discriminate|]. now rewrite IH.
Qed.
Lemma parse_trans xs : forall r ds ts t rs,
  parse_body (flat_map (fun x => [HTrans; HKind (fst x); KArgs (snd x)]) xs ++ r) (mkLock ds (ts ++ [t]) rs) =
  parse_body r (mkLock ds (ts ++ [mkTask (t_id t) (t_doc t) (t_body t) (t_tr t ++ xs)]) rs).
Proof.
  induction xs as [|[k a] xs IH]; intros r ds ts t rs; cbn [flat_map app]; [rewrite app_nil_r; now destruct t|].
  cbn [app parse_body fst snd l_tasks l_docs l_routes]. rewrite add_trans_last, IH. cbn. now rewrite <- app_assoc.
Qed.
Lemma parse_tasks ts : forall l, parse_body (flat_map emit_task ts) l = Some (mkLock (l_docs l) (l_tasks l ++ ts) (l_routes l)).
Proof.
  induction ts as [|[i d b tr] ts IH]; intros l; cbn [flat_map]; [cbn; rewrite app_nil_r; now destruct l|].
  unfold emit_task at 1. cbn [app parse_body t_doc t_id t_body t_tr].
  rewrite parse_trans, IH. cbn. now rewrite <- app_assoc.
Qed.
Lemma parse_serialize l : parse (serialize l) = Some l.
Proof.
  unfold parse, serialize. cbn [app]. rewrite parse_docs, parse_routes, parse_tasks. cbn. now destruct l.
Qed.
Lemma contents_serialize l : contents (serialize l) = Some l.
Proof. unfold contents. cbn [serialize app]. exact (parse_serialize l). Qed.
Lemma update_text_spec f old l : contents old = Some l ->
  update_text f old = option_map (fun l' => serialize (sort l')) (f l).
Proof. unfold contents, update_text. intros ->. reflexivity. Qed.
Lemma update_text_err f old : contents old = None -> update_text f old = None.
Proof. unfold contents, update_text. now intros ->. Qed.

Lemma filter_perm {A} (f : A -> bool) a b : Permutation a b -> Permutation (filter f a) (filter f b).
Proof.
  induction 1; cbn; auto.
  - destruct (f x); auto.
  - destruct (f x), (f y); auto. apply perm_swap.
  - eapply Permutation_trans; eauto.
Qed.
Lemma upserted_perm {A} (key : A -> nat) x old a b : upserted key x old a -> Permutation b a -> upserted_any_order key x old b.
Proof.
  intros [H1 H2] P. split.
  - apply Permutation_length_1_inv. rewrite <- H1. apply filter_perm. now apply Permutation_sym.
  - rewrite <- H2. now apply filter_perm.
Qed.
Lemma update_again u old l new : contents old = Some l -> well_formed l ->
  update_text (commit [u]) old = Some new -> update_text (commit [u]) new = Some new.
Proof.
  intros C [W1 W2] U. rewrite (update_text_spec _ _ _ C) in U. cbn [commit fold_left option_map] in U. injection U as <-.
  rewrite (update_text_spec _ _ _ (contents_serialize _)). cbn [commit fold_left option_map]. f_equal. f_equal.
  assert (X : apply_update (sort (apply_update l u)) u = sort (apply_update l u)).
  { destruct u as [d|t| |r]; cbn.
    - unfold replace_document. cbn. unfold sort. cbn. f_equal. apply put_in.
      + apply (unique_perm _ (put o_id d (l_docs l))); [apply Permutation_sym, isort_perm|now apply put_unique].
      + apply (Permutation_in d (l := put o_id d (l_docs l))); [apply Permutation_sym, isort_perm|apply in_put].
    - unfold replace_task. cbn. unfold sort. cbn. f_equal. apply put_in.
      + apply (unique_perm _ (put t_id t (l_tasks l))); [apply Permutation_sym, isort_perm|now apply put_unique].
      + apply (Permutation_in t (l := put t_id t (l_tasks l))); [apply Permutation_sym, isort_perm|apply in_put].
    - reflexivity.
    - pose proof (route_twice r l) as T. unfold replace_route, sort in *. cbn in *. injection T as T. now rewrite T. }
  rewrite X. apply sort_sort.
Qed.

(** * Processes *)
Lemma line_eqb_eq a b : line_eqb a b = true -> a = b.
Proof. destruct a, b; cbn; intros H; try discriminate; try reflexivity; apply Nat.eqb_eq in H; now subst. Qed.
Lemma lines_eqb_eq a : forall b, lines_eqb a b = true -> a = b.
Proof.
  induction a as [|x a IH]; intros [|y b] H; cbn in H; try discriminate; auto.
  apply andb_true_iff in H. destruct H as [H1 H2]. apply line_eqb_eq in H1. apply IH in H2. now subst.
Qed.
(** Nobody but [x] is inside an update. *)
Definition outside (x : option nat) (s : fst_) : Prop :=
  forall j f p, aget j (z_procs s) = Some (Updater f, p) -> Some j <> x -> p = Fresh \/ p = Opened.
Record FI (c : list line) (s : fst_) : Prop := mkFI {
  fi_out : outside (z_ex s) s;
  fi_rd : forall j p, aget j (z_procs s) = Some (Reader, p) -> p = Fresh \/ p = Opened \/ (p = Locked /\ In j (z_sh s));
  fi_sh : z_ex s <> None -> z_sh s = [];
  fi_none : z_ex s = None -> file_contents s = c;
  fi_some : forall i, z_ex s = Some i ->
    exists f, (aget i (z_procs s) = Some (Updater f, Locked) /\ file_contents s = c) \/
              (exists rest, aget i (z_procs s) = Some (Updater f, Truncated c rest) /\ update_text f c = Some (file_contents s ++ rest))
}.
Lemma FI0 c : FI (match c with Some x => x | None => [] end) (fresh_fs c).
Proof. constructor; cbn; try discriminate; auto; intros j f p H; discriminate. Qed.

Lemma goto_file i j p s : file_contents (goto i j p s) = file_contents s.
Proof. reflexivity. Qed.
(** A process moves between phases outside the critical section. *)
Lemma goto_ok c s i j p : FI c s -> z_ex s <> Some i -> p = Fresh \/ p = Opened -> FI c (goto i j p s).
Proof.
  intros [A B C D E] N P. constructor; cbn.
  - intros k f q H K. cbn in H. rewrite aget_aset in H. destruct (Nat.eqb_spec k i) as [->|X]; [injection H as -> <-; auto|eauto].
  - intros k q H. rewrite aget_aset in H. destruct (Nat.eqb_spec k i) as [->|X]; [injection H as _ <-; tauto|eauto].
  - exact C.
  - exact D.
  - intros k H. destruct (E k H) as (f & X). exists f. rewrite aget_aset_neq by congruence. exact X.
Qed.
Lemma leave_other c s i : FI c s -> z_ex s <> Some i -> FI c (leave i s).
Proof.
  intros [A B C D E] N. unfold leave.
  assert (X : match z_ex s with Some j => if j =? i then None else Some j | None => None end = z_ex s).
  { destruct (z_ex s) as [j|]; auto. destruct (Nat.eqb_spec j i); congruence. }
  rewrite X. constructor; cbn.
  - intros k f q H K. cbn in H. rewrite aget_adel in H. destruct (Nat.eqb_spec k i) as [->|Y]; [discriminate|eauto].
  - intros k q H. rewrite aget_adel in H. destruct (Nat.eqb_spec k i) as [->|Y]; [discriminate|].
    destruct (B k q H) as [Z|[Z|[Z W]]]; auto. right. right. split; auto. apply filter_In. split; auto.
    destruct (Nat.eqb_spec k i); [contradiction|reflexivity].
  - intros Y. rewrite (C Y). reflexivity.
  - exact D.
  - intros k H. destruct (E k H) as (f & Y). exists f. rewrite aget_adel_neq by congruence. exact Y.
Qed.
(** The holder of the exclusive lock leaves. *)
Lemma leave_holder c s i : FI c s -> z_ex s = Some i -> file_contents s = c -> FI c (leave i s).
Proof.
  intros [A B C D E] N F. unfold leave. rewrite N, Nat.eqb_refl. constructor; cbn.
  - intros k f q H K. cbn in H. rewrite aget_adel in H. destruct (Nat.eqb_spec k i) as [->|Y]; [discriminate|].
    apply (A k f q H). rewrite N. congruence.
  - intros k q H. rewrite aget_adel in H. destruct (Nat.eqb_spec k i) as [->|Y]; [discriminate|].
    destruct (B k q H) as [Z|[Z|[Z W]]]; auto. rewrite C in W by congruence. destruct W.
  - congruence.
  - auto.
  - discriminate.
Qed.
Lemma holder_updater c s i f p : FI c s -> aget i (z_procs s) = Some (Updater f, p) -> p = Fresh \/ p = Opened -> z_ex s <> Some i.
Proof.
  intros H G P X. destruct (fi_some _ _ H i X) as (g & [[Y _]|(rest & Y & _)]); rewrite G in Y; injection Y as _ ->; destruct P; discriminate.
Qed.
Lemma holder_reader c s i p : FI c s -> aget i (z_procs s) = Some (Reader, p) -> z_ex s <> Some i.
Proof. intros H G X. destruct (fi_some _ _ H i X) as (g & [[Y _]|(rest & Y & _)]); rewrite G in Y; discriminate. Qed.
Lemma serial_app a : forall c b, serial c a -> serial (last_contents c a) b -> serial c (a ++ b).
Proof.
  induction a as [|o a IH]; intros c b H1 H2; cbn in *; auto. destruct o as [i f old new|i x|i]; cbn in *.
  - destruct H1 as (A & B & C). auto.
  - destruct H1 as (A & B). auto.
  - auto.
Qed.
Lemma last_app a : forall c b, last_contents c (a ++ b) = last_contents (last_contents c a) b.
Proof. induction a as [|o a IH]; intros c b; cbn; auto. destruct o; auto. Qed.

Lemma fstep_ok c s e s' os : FI c s -> (match e with EKill i => ~ writing s i | _ => True end) ->
  fstep s e = (s', os) -> serial c os /\ FI (last_contents c os) s'.
Proof.
  intros H K R. pose proof H as [A B C D E]. destruct e as [i j|i|i|i|i n|i]; cbn [fstep] in R.
  - (* start *)
    destruct (aget i (z_procs s)) as [x|] eqn:G; injection R as <- <-; [cbn; auto|]. split; [exact I|].
    apply goto_ok; auto. intros X. destruct (E i X) as (f & [[Y _]|(rest & Y & _)]); congruence.
  - (* open *)
    destruct (aget i (z_procs s)) as [[[f|] [| | |old rest]]|] eqn:G; try (injection R as <- <-; cbn; auto; fail).
    + injection R as <- <-. split; [exact I|]. cbn [last_contents].
      apply goto_ok; auto.
      * constructor; cbn; auto.
        -- intros X. rewrite <- (D X). unfold file_contents. cbn. destruct (z_file s); reflexivity.
        -- intros k X. destruct (E k X) as (g & Y). exists g. unfold file_contents in *. cbn. destruct (z_file s); exact Y.
      * cbn. apply (holder_updater c s i f Fresh H G). auto.
    + destruct (z_file s) as [x|] eqn:F; injection R as <- <-; (split; [exact I|]); cbn [last_contents].
      * apply goto_ok; auto. apply (holder_reader c s i Fresh H G).
      * apply leave_other; auto. apply (holder_reader c s i Fresh H G).
  - (* lock *)
    destruct (aget i (z_procs s)) as [[[f|] [| | |old rest]]|] eqn:G; try (injection R as <- <-; cbn; auto; fail).
    + destruct (z_ex s) as [j|] eqn:X; [injection R as <- <-; cbn; auto|].
      destruct (z_sh s) as [|y ys] eqn:Y; [|injection R as <- <-; cbn; auto]. injection R as <- <-. split; [exact I|]. cbn [last_contents].
      constructor; cbn.
      * intros k g q Q N. cbn in Q. rewrite aget_aset in Q. destruct (Nat.eqb_spec k i) as [->|Z]; [congruence|].
        apply (A k g q Q). congruence.
      * intros k q Q. rewrite aget_aset in Q. destruct (Nat.eqb_spec k i) as [->|Z]; [discriminate|]. destruct (B k q Q) as [U|[U|[U V]]]; auto.
      * auto.
      * discriminate.
      * intros k [= <-]. exists f. left. rewrite aget_aset_eq. split; auto.
    + destruct (z_ex s) as [j|] eqn:X; injection R as <- <-; [cbn; auto|]. split; [exact I|]. cbn [last_contents].
      constructor; cbn.
      * intros k g q Q N. cbn in Q. rewrite aget_aset in Q. destruct (Nat.eqb_spec k i) as [->|Z]; [discriminate|].
        apply (A k g q Q). congruence.
      * intros k q Q. rewrite aget_aset in Q. destruct (Nat.eqb_spec k i) as [->|Z]; [injection Q as <-; auto|].
        destruct (B k q Q) as [U|[U|[U V]]]; auto.
      * congruence.
      * auto.
      * discriminate.
  - (* read *)
    destruct (aget i (z_procs s)) as [[[f|] [| | |old rest]]|] eqn:G; try (injection R as <- <-; cbn; auto; fail).
    + assert (X : z_ex s = Some i).
      { destruct (z_ex s) as [j|] eqn:X.
        - destruct (Nat.eq_dec j i) as [->|N]; auto. destruct (A i f Locked G); [congruence|discriminate|discriminate].
        - destruct (A i f Locked G); [congruence|discriminate|discriminate]. }
      destruct (E i X) as (g & [[Y F]|(rest & Y & F)]); rewrite G in Y; [injection Y as <-|discriminate].
      fold (file_contents s) in R. rewrite F in R.
      destruct (update_text f c) as [new|] eqn:U.
      * destruct (lines_eqb c new) eqn:Q; injection R as <- <-.
        -- apply lines_eqb_eq in Q. subst new. cbn. split; [auto|]. now apply leave_holder.
        -- split; [exact I|]. cbn [last_contents]. constructor; cbn.
           ++ intros k h q V N. cbn in V. rewrite aget_aset in V. destruct (Nat.eqb_spec k i) as [->|Z]; [congruence|].
              apply (A k h q V N).
           ++ intros k q V. rewrite aget_aset in V. destruct (Nat.eqb_spec k i) as [->|Z]; [discriminate|]. exact (B k q V).
           ++ exact C.
           ++ congruence.
           ++ intros k V. rewrite X in V. injection V as <-. exists f. right. exists new. rewrite aget_aset_eq. auto.
      * injection R as <- <-. split; [exact I|]. cbn [last_contents]. now apply leave_holder.
    + injection R as <- <-. fold (file_contents s). cbn. destruct (B i Locked G) as [V|[V|[_ V]]]; try discriminate.
      assert (X : z_ex s = None). { destruct (z_ex s) as [j|]; auto. rewrite C in V by discriminate. destruct V. }
      split; [split; auto; apply D, X|]. apply leave_other; auto. congruence.
  - (* write *)
    destruct (aget i (z_procs s)) as [[[f|] [| | |old rest]]|] eqn:G; try (injection R as <- <-; cbn; auto; fail).
    assert (X : z_ex s = Some i).
    { destruct (z_ex s) as [j|] eqn:X.
      - destruct (Nat.eq_dec j i) as [->|N]; auto. destruct (A i f _ G); [congruence|discriminate|discriminate].
      - destruct (A i f _ G); [congruence|discriminate|discriminate]. }
    destruct (E i X) as (g & [[Y F]|(rest' & Y & F)]); rewrite G in Y; [discriminate|injection Y as <- -> <-].
    fold (file_contents s) in R.
    set (s1 := mkFst (Some (file_contents s ++ firstn n rest)) (z_ex s) (z_sh s) (z_procs s)) in *.
    destruct (skipn n rest) as [|y ys] eqn:Q; injection R as <- <-.
    + assert (Z : firstn n rest = rest). { rewrite <- (firstn_skipn n rest) at 2. rewrite Q. now rewrite app_nil_r. }
      cbn. rewrite Z in *. split; [auto|].
      assert (H1 : FI (file_contents s ++ rest) (leave i s1)).
      { unfold leave, s1. cbn. rewrite X, Nat.eqb_refl. constructor; cbn.
        - intros k h q V N. cbn in V. rewrite aget_adel in V. destruct (Nat.eqb_spec k i) as [->|W]; [discriminate|].
          apply (A k h q V). rewrite X. congruence.
        - intros k q V. rewrite aget_adel in V. destruct (Nat.eqb_spec k i) as [->|W]; [discriminate|].
          destruct (B k q V) as [T|[T|[T1 T2]]]; auto. rewrite C in T2 by congruence. destruct T2.
        - congruence.
        - intros _. unfold file_contents. cbn. now rewrite Z.
        - discriminate. }
      exact H1.
    + split; [exact I|]. cbn [last_contents]. constructor; cbn.
      * intros k h q V N. cbn in V. rewrite aget_aset in V. destruct (Nat.eqb_spec k i) as [->|W]; [congruence|]. exact (A k h q V N).
      * intros k q V. rewrite aget_aset in V. destruct (Nat.eqb_spec k i) as [->|W]; [discriminate|]. exact (B k q V).
      * exact C.
      * congruence.
      * intros k V. rewrite X in V. injection V as <-. exists f. right. exists (y :: ys). rewrite aget_aset_eq. split; auto.
        unfold file_contents in *. cbn. rewrite <- app_assoc, <- Q, firstn_skipn. exact F.
  - (* kill *)
    injection R as <- <-. split; [exact I|]. cbn [last_contents].
    destruct (z_ex s) as [j|] eqn:X.
    + destruct (Nat.eq_dec j i) as [->|N]; [|apply leave_other; auto; congruence].
      destruct (E i eq_refl) as (g & [[Y F]|(rest & Y & F)]); [now apply leave_holder|].
      exfalso. apply K. exists g, c, rest. exact Y.
    + apply leave_other; auto. congruence.
Qed.
Lemma frun_ok es : forall c s s' os, FI c s -> kills_outside_writes s es -> frun s es = (s', os) ->
  serial c os /\ FI (last_contents c os) s'.
Proof.
  induction es as [|e es IH]; intros c s s' os H K R; cbn in R.
  - injection R as <- <-. cbn. auto.
  - destruct (fstep s e) as [s1 o1] eqn:S1. destruct (frun s1 es) as [s2 o2] eqn:S2. injection R as <- <-.
    destruct K as [K1 K2]. rewrite S1 in K2. cbn in K2.
    destruct (fstep_ok c s e s1 o1 H K1 S1) as [A B]. destruct (IH _ _ _ _ B K2 S2) as [A2 B2].
    split; [now apply serial_app|]. now rewrite last_app.
Qed.

(** * Routes *)
Lemma ins_files files : forall (m : list (nat * nat)) id leaf,
  aget leaf (fold_left (fun m f => aset f id m) files m) = if existsb (Nat.eqb leaf) files then Some id else aget leaf m.
Proof.
  induction files as [|f files IH]; intros m id leaf; cbn; auto. rewrite IH, aget_aset.
  destruct (existsb (Nat.eqb leaf) files); [now rewrite orb_true_r|]. rewrite orb_false_r. reflexivity.
Qed.
Definition coversb (mats : list (nat * list nat)) (leaf : nat) (r : route) : bool :=
  match aget (r_id r) mats with Some files => existsb (Nat.eqb leaf) files | None => false end.
Lemma coversb_iff mats leaf r : coversb mats leaf r = true <-> covers_file mats leaf r.
Proof.
  unfold coversb, covers_file. destruct (aget (r_id r) mats) as [files|].
  - rewrite existsb_exists. split.
    + intros (x & X & E). apply Nat.eqb_eq in E. subst x. eauto.
    + intros (fs & [= <-] & X). exists leaf. split; auto. apply Nat.eqb_refl.
  - split; [discriminate|]. intros (fs & X & _). discriminate.
Qed.
Lemma calc_last rs (mats : list (nat * list nat)) leaf : forall m : list (nat * nat),
  aget leaf (fold_left (fun m r => match aget (r_id r) mats with Some files => fold_left (fun m f => aset f (r_id r) m) files m | None => m end) rs m) =
  match find (coversb mats leaf) (rev rs) with Some r => Some (r_id r) | None => aget leaf m end.
Proof.
  induction rs as [|r rs IH]; intros m; cbn; auto. rewrite IH.
  assert (X : forall a b, find (coversb mats leaf) (a ++ [b]) =
    match find (coversb mats leaf) a with Some y => Some y | None => if coversb mats leaf b then Some b else None end).
  { induction a as [|y a IHa]; intros b; cbn; [reflexivity|]. destruct (coversb mats leaf y); auto. }
  rewrite X. destruct (find (coversb mats leaf) (rev rs)); auto. unfold coversb.
  destruct (aget (r_id r) mats) as [files|]; [|reflexivity]. rewrite ins_files. destruct (existsb (Nat.eqb leaf) files); reflexivity.
Qed.
Lemma calc_chosen rs mats leaf i : aget leaf (calculate_routes rs mats) = Some i -> chosen rs mats leaf i.
Proof.
  unfold calculate_routes. rewrite calc_last. cbn. destruct (find (coversb mats leaf) (rev rs)) as [r|] eqn:F; [|discriminate].
  intros [= <-]. revert F. induction rs as [|x rs IH] using rev_ind; [discriminate|].
  rewrite rev_app_distr. cbn. destruct (coversb mats leaf x) eqn:Q.
  - intros [= ->]. exists rs, r, []. split; [reflexivity|]. split; [reflexivity|]. split; [now apply coversb_iff|]. intros r' [].
  - intros F. destruct (IH F) as (pre & y & post & -> & E & C & L). exists pre, y, (post ++ [x]).
    rewrite <- app_assoc. split; [reflexivity|]. split; auto. split; auto. intros r' X Y. apply in_app_iff in X.
    destruct X as [X|[<-|[]]]; auto. apply coversb_iff in Y. congruence.
Qed.
Lemma calc_none rs mats leaf : aget leaf (calculate_routes rs mats) = None <-> forall r, In r rs -> ~ covers_file mats leaf r.
Proof.
  unfold calculate_routes. rewrite calc_last. cbn. destruct (find (coversb mats leaf) (rev rs)) as [r|] eqn:F.
  - split; [discriminate|]. intros H. apply find_some in F. destruct F as [F1 F2]. apply in_rev in F1. apply coversb_iff in F2. destruct (H r F1 F2).
  - split; auto. intros _ r X Y. apply coversb_iff in Y. rewrite in_rev in X. pose proof (find_none _ _ F r X). congruence.
Qed.
Lemma improving_last rs : improving rs -> forall pre r post, rs = pre ++ r :: post -> forall r', In r' pre -> r_prio r <= r_prio r'.
Proof.
  intros H pre. revert rs H. induction pre as [|x pre IH]; intros rs H r post -> r' X; [destruct X|]. destruct H as [H1 H2].
  destruct X as [<-|X]; [apply H1, in_app_iff; right; left; reflexivity|]. exact (IH _ H2 r post eq_refl r' X).
Qed.
Lemma chosen_best rs mats leaf i : improving rs -> NoDup (map r_id rs) -> chosen rs mats leaf i -> best rs mats leaf i.
Proof.
  intros M N (pre & r & post & E & I & C & L). exists r. split; [rewrite E; apply in_app_iff; right; left; reflexivity|].
  split; auto. split; auto. intros r' X Y. rewrite E in X. apply in_app_iff in X. destruct X as [X|[<-|X]]; auto.
  - exact (improving_last rs M pre r post E r' X).
  - exfalso. pose proof (L r' X Y) as Z. rewrite E, map_app in N. cbn in N. apply NoDup_remove_2 in N. apply N.
    apply in_app_iff. right. rewrite I, <- Z. now apply in_map.
Qed.

Definition coherent (st : list (nat * rps)) : Prop :=
  forall dir p, aget dir st = Some p -> q_routes p = calculate_routes (l_routes (q_lock p)) (q_mats p).
Lemma coherent_set st dir p : coherent st -> q_routes p = calculate_routes (l_routes (q_lock p)) (q_mats p) -> coherent (aset dir p st).
Proof. intros H E d q. rewrite aget_aset. destruct (d =? dir); [intros [= <-]; auto|apply H]. Qed.
Lemma resolve_at_ok d st dir leaf st' o : coherent st -> resolve_at d st dir leaf = (st', o) ->
  o = routes_of d st dir leaf /\ coherent st' /\ (o = None -> st' = st) /\
  (forall i, o = Some i -> exists p, aget dir st' = Some p /\ aget leaf (q_routes p) = Some i).
Proof.
  intros H R. unfold resolve_at in R. unfold routes_of. destruct (aget dir st) as [p|] eqn:G.
  - injection R as <- <-. rewrite (H _ _ G). split; auto. split; auto. split; auto. intros i E. exists p. split; auto. now rewrite (H _ _ G).
  - destruct (k_lock d dir) as [l|].
    + destruct (aget leaf (calculate_routes (l_routes l) (k_mats d dir))) as [i|] eqn:Q; injection R as <- <-.
      * split; auto. split; [now apply coherent_set|]. split; [discriminate|]. intros j [= <-]. eexists. rewrite aget_aset_eq. split; [reflexivity|auto].
      * split; auto. split; auto. split; auto. discriminate.
    + cbn in R. injection R as <- <-. split; auto. split; auto. split; auto. discriminate.
Qed.
Lemma resolve_ok d leaf dirs : forall st st' o, coherent st -> resolve d st dirs leaf = (st', o) ->
  nearest d st dirs leaf o /\ coherent st' /\
  (forall dir i, o = Some (dir, i) -> exists p, aget dir st' = Some p /\ aget leaf (q_routes p) = Some i).
Proof.
  induction dirs as [|dir dirs IH]; intros st st' o H R; cbn in R.
  - injection R as <- <-. split; [intros y []|]. split; auto. discriminate.
  - destruct (resolve_at d st dir leaf) as [st1 [i|]] eqn:Q; destruct (resolve_at_ok _ _ _ _ _ _ H Q) as (A & B & C & D).
    + injection R as <- <-. split.
      * exists [], dirs. split; auto. split; auto. intros y [].
      * split; auto. intros dir' i' [= <- <-]. apply D. reflexivity.
    + rewrite (C eq_refl) in *. destruct (IH _ _ _ H R) as (N & B' & D'). split; [|auto].
      destruct o as [[dir' i]|]; cbn in *.
      * destruct N as (pre & post & -> & N1 & N2). exists (dir :: pre), post. split; auto. split; auto. intros y [<-|Y]; auto.
      * intros y [<-|Y]; auto.
Qed.
Lemma rstep_coherent s e : coherent (snd s) -> coherent (snd (fst (rstep s e))).
Proof.
  destruct s as [d st]. intros H. destruct e as [dirs leaf|d'|dir l|dir id files]; cbn in *.
  - destruct (resolve d st dirs leaf) as [st' o] eqn:Q. cbn. apply (resolve_ok _ _ _ _ _ _ H Q).
  - exact H.
  - unfold route_update_lock. destruct (aget dir st) as [p|] eqn:G; auto. now apply coherent_set.
  - unfold update_material. destruct (aget dir st) as [p|] eqn:G; auto. destruct (aget id (q_mats p)); auto. now apply coherent_set.
Qed.
Lemma rrun_nearest es : forall s, coherent (snd s) -> answers_nearest s es.
Proof.
  induction es as [|e es IH]; intros s H; cbn; auto. split; [|now apply IH, rstep_coherent].
  destruct e as [dirs leaf| | |]; auto. destruct (resolve (fst s) (snd s) dirs leaf) as [st' o] eqn:Q. apply (resolve_ok _ _ _ _ _ _ H Q).
Qed.
