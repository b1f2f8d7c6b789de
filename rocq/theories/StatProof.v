(** Proofs about the statistics of queries (C179). *)
From Coq Require Import List Arith Bool NArith Lia Permutation.
From Verif Require Import StatModel StatSpec.
Import ListNotations.

Section Stat.
Variable top : nat.
Notation run := (run top). Notation step := (step top).

Definition bucket_of (k : nat) (l : list (nat * bucket)) : option bucket := option_map snd (find (fun x => fst x =? k) l).
Lemma bucket_ensure k j l : bucket_of k (ensure top j l) = match bucket_of k l with Some b => Some b | None => if j =? k then Some (fresh top) else None end.
Proof.
  unfold bucket_of. induction l as [|[i b] r IH]; cbn [ensure find fst].
  - destruct (j =? k) eqn:E; reflexivity.
  - destruct (i =? j) eqn:E.
    + apply Nat.eqb_eq in E. subst i. cbn [find fst]. destruct (j =? k) eqn:F; [reflexivity|]. destruct (find _ r); reflexivity.
    + cbn [find fst]. destruct (i =? k) eqn:F; [reflexivity|]. exact IH.
Qed.
Lemma bucket_change k j f l : bucket_of k (change j f l) = if j =? k then option_map f (bucket_of k l) else bucket_of k l.
Proof.
  unfold bucket_of, change. induction l as [|[i b] r IH]; cbn [map find fst snd]; [destruct (j =? k); reflexivity|].
  destruct (i =? j) eqn:E; cbn [fst].
  - apply Nat.eqb_eq in E. subst i. destruct (j =? k) eqn:F; [reflexivity|]. exact IH.
  - destruct (i =? k) eqn:F; [|exact IH]. apply Nat.eqb_eq in F. subst i. rewrite Nat.eqb_sym in E. rewrite E. reflexivity.
Qed.
Lemma ensure_keys j l : NoDup (map fst l) -> NoDup (map fst (ensure top j l)) /\ forall k, In k (map fst (ensure top j l)) <-> k = j \/ In k (map fst l).
Proof.
  induction l as [|[i b] r IH]; cbn [ensure map fst]; intros N; [split; [repeat constructor; intros []|cbn; intuition]|].
  inversion N as [|? ? H N']; subst. destruct (i =? j) eqn:E.
  - apply Nat.eqb_eq in E. subst i. cbn [map fst]. split; [exact N|]. intros k. cbn. intuition.
  - apply Nat.eqb_neq in E. destruct (IH N') as [IN II]. cbn [map fst]. split.
    + constructor; [|exact IN]. rewrite II. intros [->|D]; [now apply E|exact (H D)].
    + intros k. cbn. rewrite II. intuition.
Qed.
Lemma change_keys j f l : map fst (change j f l) = map fst l.
Proof. unfold change. rewrite map_map. apply map_ext. intros [i b]. cbn. destruct (i =? j); reflexivity. Qed.
Lemma guard_without g h l : guard_of g (without h l) = if h =? g then None else guard_of g l.
Proof.
  unfold without. induction l as [|[i x] r IH]; cbn [filter guard_of fst]; [destruct (h =? g); reflexivity|].
  destruct (i =? h) eqn:E; cbn [negb guard_of].
  - apply Nat.eqb_eq in E. subst i. rewrite IH. destruct (h =? g); reflexivity.
  - destruct (i =? g) eqn:F; [|exact IH]. apply Nat.eqb_eq in F. subst i. rewrite Nat.eqb_sym in E. now rewrite E.
Qed.
(** What the state has after what happened. *)
Definition summary (k : nat) (past : list event) : bucket :=
  mkBucket (length (ended k past)) (misses k past) (sum (map fst (ended k past))) (sum (map snd (ended k past)))
    (fold_right Nat.min top (map fst (ended k past))) (fold_right Nat.max 0 (map fst (ended k past))).
Definition begun (k : nat) (past : list event) : bool := existsb (fun e => match e with Begin _ k' _ => k' =? k | _ => false end) past.
Lemma began_begun g past k t : began g past = Some (k, t) -> begun k past = true.
Proof.
  induction past as [|e r IH]; cbn [began begun existsb]; [discriminate|]. fold (begun k r). destruct e as [g' k' t'|g'|g' t'|g' t']; try exact IH.
  - destruct (g' =? g); [intros H; injection H as -> _; now rewrite Nat.eqb_refl|]. intros H. rewrite (IH H). apply orb_true_r.
  - destruct (g' =? g); [discriminate|exact IH].
Qed.
Lemma fresh_ended k past : begun k past = false -> ended k past = [] /\ misses k past = 0.
Proof.
  induction past as [|e r IH]; cbn [begun existsb ended misses]; [auto|]. fold (begun k r). intros H. apply orb_false_iff in H as [H1 H2]. destruct (IH H2) as [E M].
  destruct e as [g' k' t'|g'|g' t'|g' t']; auto.
  - destruct (began g' r) as [[k' s]|] eqn:B; [|auto]. destruct (k' =? k) eqn:F; [|auto]. apply Nat.eqb_eq in F. subst. rewrite (began_begun _ _ _ _ B) in H2. discriminate.
  - destruct (began g' r) as [[k' s]|] eqn:B; [|auto]. destruct (k' =? k) eqn:F; [|auto]. apply Nat.eqb_eq in F. subst. rewrite (began_begun _ _ _ _ B) in H2. discriminate.
Qed.
Lemma holds tr : let s := run tr in let past := rev tr in
  (forall g, guard_of g (s_guards s) = match began g past with Some (k, t) => Some (mkGuard k t (first_snap g t past)) | None => None end) /\
  (forall k, bucket_of k (s_buckets s) = if begun k past then Some (summary k past) else None) /\
  NoDup (map fst (s_buckets s)) /\ (forall k, In k (map fst (s_buckets s)) <-> begun k past = true).
Proof.
  induction tr as [|e tr IH] using rev_ind; cbn zeta.
  - cbn. repeat split; intros; try discriminate; try constructor; try contradiction.
  - unfold StatModel.run. rewrite fold_left_app. fold (run tr). cbn [fold_left]. rewrite rev_app_distr. cbn [rev app].
    destruct IH as (G & B & N & K). set (s := run tr) in *. set (past := rev tr) in *.
    destruct e as [g k t|g|g t|g t]; cbn [StatModel.step].
    + cbn [s_guards s_buckets]. split; [|split; [|split]].
      * intros h. cbn [guard_of began first_snap]. destruct (g =? h) eqn:E; [reflexivity|]. rewrite guard_without, E. rewrite G. reflexivity.
      * intros j. rewrite bucket_ensure, B. cbn [begun existsb]. fold (begun j past). destruct (begun j past) eqn:F; [rewrite orb_true_r; reflexivity|].
        rewrite orb_false_r. destruct (k =? j) eqn:E; [|reflexivity]. apply Nat.eqb_eq in E. subst j. unfold summary. cbn [ended misses].
        destruct (fresh_ended _ _ F) as [-> ->]. reflexivity.
      * apply ensure_keys. exact N.
      * intros j. destruct (ensure_keys k _ N) as [_ I]. rewrite I, K. cbn [begun existsb]. fold (begun j past). rewrite orb_true_iff, Nat.eqb_eq. intuition.
    + rewrite G. destruct (began g past) as [[k t]|] eqn:E.
      * cbn [s_guards s_buckets g_key]. split; [|split; [|split]].
        -- intros h. cbn [began first_snap]. apply G.
        -- intros j. rewrite bucket_change, B. cbn [begun existsb orb]. fold (begun j past). unfold summary. cbn [ended misses]. rewrite E.
           destruct (k =? j) eqn:F; [|reflexivity]. destruct (begun j past); cbn [option_map]; [|reflexivity]. unfold missed; cbn. now rewrite Nat.add_1_r.
        -- rewrite change_keys. exact N.
        -- intros j. rewrite change_keys. apply K.
      * split; [|split; [|split]]; [intros h; apply G| |exact N|intros j; apply K].
        intros j. rewrite B. unfold summary. cbn [ended misses begun existsb orb]. rewrite E. reflexivity.
    + rewrite G. destruct (began g past) as [[k s']|] eqn:E.
      * cbn [s_guards s_buckets]. split; [|split; [|split]]; [|intros j; apply B|exact N|intros j; apply K].
        intros h. cbn [guard_of began first_snap]. destruct (g =? h) eqn:F.
        -- apply Nat.eqb_eq in F. subst h. rewrite E. unfold snapped. cbn. destruct (first_snap g s' past) as [d|]; reflexivity.
        -- rewrite guard_without, F. apply G.
      * split; [|split; [|split]]; [|intros j; apply B|exact N|intros j; apply K].
        intros h. cbn [began first_snap]. rewrite G. destruct (g =? h) eqn:F; [|reflexivity]. apply Nat.eqb_eq in F. subst h. now rewrite E.
    + rewrite G. destruct (began g past) as [[k s']|] eqn:E.
      * cbn [s_guards s_buckets g_key]. split; [|split; [|split]].
        -- intros h. cbn [began first_snap]. rewrite guard_without. destruct (g =? h); [reflexivity|apply G].
        -- intros j. rewrite bucket_change, B. cbn [begun existsb orb]. fold (begun j past). unfold summary. cbn [ended misses]. rewrite E.
           destruct (k =? j) eqn:F; [|reflexivity]. destruct (begun j past); cbn [option_map]; [|reflexivity]. f_equal. unfold count. cbn [map length sum fold_right fst snd b_query b_missing b_total b_snap b_min b_max g_since g_snap].
           f_equal; try (unfold sum; lia); try (destruct (first_snap g s' past); unfold sum; lia).
        -- rewrite change_keys. exact N.
        -- intros j. rewrite change_keys. apply K.
      * split; [|split; [|split]]; [|intros j; rewrite B; unfold summary; cbn [ended misses begun existsb orb]; rewrite E; reflexivity|exact N|intros j; apply K].
        intros h. cbn [began first_snap]. rewrite G. destruct (g =? h) eqn:F; [|reflexivity]. apply Nat.eqb_eq in F. subst h. now rewrite E.
Qed.
Lemma begun_asked k tr : begun k (rev tr) = true <-> asked_for k tr.
Proof.
  unfold begun. rewrite existsb_exists. split.
  - intros (e & I & E). rewrite <- in_rev in I. destruct e as [g k' t| | |]; try discriminate. apply Nat.eqb_eq in E. subst. exists g, t. exact I.
  - intros (g & t & I). exists (Begin g k t). split; [now rewrite <- in_rev|apply Nat.eqb_refl].
Qed.
Lemma bucket_in k b l : NoDup (map fst l) -> In (k, b) l <-> bucket_of k l = Some b.
Proof.
  unfold bucket_of. induction l as [|[i c] r IH]; cbn [map fst find In]; intros N; [split; [intros []|discriminate]|].
  inversion N as [|? ? H N']; subst. destruct (i =? k) eqn:E.
  - apply Nat.eqb_eq in E. subst i. cbn. split; [intros [D|D]; [now injection D as <-|]|intros D; injection D as <-; now left].
    exfalso. apply H. apply in_map_iff. exists (k, b). split; [reflexivity|exact D].
  - rewrite <- IH by exact N'. split; [intros [D|D]; [injection D as -> ->; rewrite Nat.eqb_refl in E; discriminate|exact D]|now right].
Qed.
End Stat.
Lemma put_perm {A} (key : A -> nat) x l : Permutation (put key x l) (x :: l).
Proof. induction l as [|y r IH]; cbn [put]; [constructor; constructor|]. destruct (key y <? key x); [reflexivity|]. rewrite IH. constructor. Qed.
Lemma put_falling {A} (key : A -> nat) x l : falling key l -> falling key (put key x l).
Proof.
  induction 1 as [|y l F S IH]; cbn [put]; [repeat constructor|]. destruct (Nat.ltb_spec (key y) (key x)).
  - constructor; [|now constructor]. constructor; [lia|]. eapply Forall_impl; [|exact F]. cbn. lia.
  - constructor; [|exact IH]. rewrite Forall_forall in *. intros z I. apply (Permutation_in _ (put_perm key x l)) in I as [<-|I]; [exact H|auto].
Qed.
Lemma sorted_ok {A} (key : A -> nat) l : falling key (sorted key l) /\ Permutation (sorted key l) l.
Proof.
  unfold sorted. enough (G : forall acc, falling key acc -> falling key (fold_left (fun acc x => put key x acc) l acc) /\ Permutation (fold_left (fun acc x => put key x acc) l acc) (acc ++ l)) by (apply (G []); constructor).
  induction l as [|x r IH]; intros acc F; cbn; [rewrite app_nil_r; split; [exact F|reflexivity]|].
  destruct (IH (put key x acc) (put_falling key x acc F)) as [G P]. split; [exact G|]. rewrite P, put_perm. cbn. apply Permutation_middle.
Qed.
Lemma min_least top l : l <> [] -> Forall (fun x => x <= top) l -> least (fold_right Nat.min top l) l.
Proof.
  unfold least. induction l as [|x r IH]; intros N F; [now destruct N|]. inversion F as [|? ? L F']; subst. cbn [fold_right].
  destruct r as [|y r]; [cbn; rewrite Nat.min_l by exact L; split; [now left|repeat constructor]|].
  destruct IH as [I M]; [discriminate|exact F'|]. set (m := fold_right Nat.min top (y :: r)) in *. clearbody m. destruct (Nat.min_spec x m) as [[? ->]|[? ->]].
  - split; [now left|]. constructor; [lia|]. eapply Forall_impl; [|exact M]. cbn; lia.
  - split; [now right|]. constructor; [lia|exact M].
Qed.
Lemma max_greatest l : l <> [] -> greatest (fold_right Nat.max 0 l) l.
Proof.
  unfold greatest. induction l as [|x r IH]; intros N; [now destruct N|]. cbn [fold_right].
  destruct r as [|y r]; [cbn; rewrite Nat.max_0_r; split; [now left|repeat constructor]|].
  destruct IH as [I M]; [discriminate|]. set (m := fold_right Nat.max 0 (y :: r)) in *. clearbody m. destruct (Nat.max_spec x m) as [[? ->]|[? ->]].
  - split; [now right|]. constructor; [lia|exact M].
  - split; [now left|]. constructor; [lia|]. eapply Forall_impl; [|exact M]. cbn; lia.
Qed.
