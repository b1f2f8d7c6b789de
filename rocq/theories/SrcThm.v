(** * Theorems about what worlds remember *)

From Coq Require Import List Arith Bool Lia.
From Verif Require Import SrcModel SrcSpec SrcProof SrcRunProof.
Import ListNotations.

Local Arguments Nat.ltb : simpl never.

(** ** C164: one session, one content *)

(** After every execution, a world's read of a file shows what the first
    reader of the session saw, or what the world sees if it is the first. *)
Theorem C164_read : forall es w k f, w < count (rev es) -> is_file k f = true ->
  exists r, shows es (Read w k f) = Content r /\ read_spec (rev es) w k f r.
Proof. exact shows_read. Qed.
Print Assumptions C164_read.

(** The source of the detached entry is always the empty one. *)
Theorem C164_detached : forall es w, w < count (rev es) ->
  shows es (Read w Source detached) = Content detached_source.
Proof.
  intros es w L. destruct (exists_world _ _ _ (history es) L) as (v & H).
  unfold shows. cbn [step]. rewrite H. reflexivity.
Qed.
Print Assumptions C164_detached.

Lemma read_step es w k f r : w < count (rev es) -> is_file k f = true ->
  shows es (Read w k f) = Content r ->
  known (Read w k f :: rev es) (session (rev es) w) k f = Some r.
Proof.
  intros L Hf H. destruct (shows_read es w k f L Hf) as (r' & H' & S1 & S2).
  rewrite H in H'. injection H' as <-. cbn [known].
  assert (G : reads_in (rev es) (session (rev es) w) w k f = true) by (apply reads_in_ok; auto).
  destruct (known (rev es) (session (rev es) w) k f) as [x|] eqn:K.
  - f_equal. apply known_some in K. destruct K as (a & b & p & P1 & P2 & ->).
    symmetry. apply (S1 a b p P1). intros a' b' p' P. apply (known_none _ _ _ _ P2 a' b' p' P).
  - rewrite G, Nat.eqb_refl. destruct k; cbn; f_equal; symmetry; apply S2;
    intros a b p P; apply (known_none _ _ _ _ K a b p P).
Qed.

(** Whatever happens after a read, a read of the same file by any world of the
    same session shows the same. *)
Theorem C164_stable : forall es w k f r rest v,
  w < count (rev es) -> is_file k f = true ->
  shows es (Read w k f) = Content r ->
  let es' := es ++ Read w k f :: rest in
  v < count (rev es') -> session (rev es') v = session (rev es) w ->
  shows es' (Read v k f) = Content r.
Proof.
  intros es w k f r rest v L Hf H es' L' S.
  destruct (shows_read es' v k f L' Hf) as (r' & -> & S1 & S2). f_equal.
  assert (E : rev es' = rev rest ++ Read w k f :: rev es).
  { unfold es'. rewrite rev_app_distr. cbn. rewrite <- app_assoc. reflexivity. }
  pose proof (read_step es w k f r L Hf H) as K.
  apply (known_later (rev rest)) in K. rewrite <- E, <- S in K.
  apply known_some in K. destruct K as (a & b & p & P1 & P2 & ->).
  apply (S1 a b p P1). intros a' b' p' P. apply (known_none _ _ _ _ P2 a' b' p' P).
Qed.
Print Assumptions C164_stable.

Lemma sessions_later a h i : i < count h -> (forall p, In (TakeDb p) a -> p <> i) ->
  session (a ++ h) i = session h i.
Proof.
  intros L N. induction a as [|e a IH]; [reflexivity|]. cbn.
  assert (IH' : session (a ++ h) i = session h i) by (apply IH; intros p P; apply N; right; exact P).
  destruct (origin_later a h i L) as (_ & L').
  destruct e; auto.
  - rewrite (neq_count _ _ L'). exact IH'.
  - rewrite (neq_count _ _ L'), andb_false_r. exact IH'.
  - destruct (Nat.eqb_spec w i) as [->|]; [|exact IH'].
    exfalso. apply (N i); [left|]; reflexivity.
Qed.

(** A world that has given up its table reads what it sees itself, and so the
    files mapped into it are seen. *)
Theorem C164_taken : forall es w v k f, w < count (rev es) -> is_file k f = true ->
  shows (es ++ [TakeDb w; Remap w v]) (Read w k f) = Content (v k f).
Proof.
  intros es w v k f L Hf.
  assert (E : rev (es ++ [TakeDb w; Remap w v]) = Remap w v :: TakeDb w :: rev es).
  { rewrite rev_app_distr. reflexivity. }
  destruct (shows_read (es ++ [TakeDb w; Remap w v]) w k f) as (r & -> & S1 & S2); auto.
  { rewrite E. exact L. }
  f_equal. rewrite S2; rewrite E; cbn; rewrite Nat.eqb_refl; [reflexivity|].
  intros a b p P. apply (fun K => known_none _ _ _ _ K a b p P).
  change (known (rev es) (length (rev es)) k f = None). apply known_new. lia.
Qed.
Print Assumptions C164_taken.

(** And what it does then is not seen by any other world. *)
Theorem C164_apart : forall es w x v k f, w < count (rev es) -> v < count (rev es) -> v <> w ->
  forall k' f', is_file k f = true ->
  shows (es ++ [TakeDb w; Remap w x; Read w k' f']) (Read v k f) = shows es (Read v k f).
Proof.
  intros es w x v k f Lw Lv N k' f' Hf.
  set (es' := es ++ [TakeDb w; Remap w x; Read w k' f']).
  assert (E : rev es' = Read w k' f' :: Remap w x :: TakeDb w :: rev es).
  { unfold es'. rewrite rev_app_distr. reflexivity. }
  assert (N' : (w =? v) = false) by (apply Nat.eqb_neq; auto).
  destruct (shows_read es' v k f) as (r' & -> & R1 & R2); [rewrite E; exact Lv|exact Hf|].
  destruct (shows_read es v k f Lv Hf) as (r & -> & S1 & S2). f_equal.
  assert (SE : session (rev es') v = session (rev es) v).
  { rewrite E. cbn. rewrite N'. reflexivity. }
  assert (KE : known (rev es') (session (rev es) v) k f = known (rev es) (session (rev es) v) k f).
  { rewrite E. cbn. destruct (known (rev es) (session (rev es) v) k f); [reflexivity|].
    assert (G : reads_in (Remap w x :: TakeDb w :: rev es) (session (rev es) v) w k f = false).
    { destruct (reads_in (Remap w x :: TakeDb w :: rev es) (session (rev es) v) w k f) eqn:G; [|reflexivity].
      apply reads_in_ok in G. destruct G as (_ & G & _). cbn in G. rewrite Nat.eqb_refl in G.
      pose proof (session_bound _ _ Lv). lia. }
    rewrite G, andb_false_r. reflexivity. }
  destruct (known (rev es) (session (rev es) v) k f) as [y|] eqn:K.
  - transitivity y.
    + apply known_some in KE. destruct KE as (a & b & p & P1 & P2 & ->).
      rewrite SE in R1. apply (R1 a b p P1).
      intros a' b' p' P. apply (known_none _ _ _ _ P2 a' b' p' P).
    + apply known_some in K. destruct K as (a & b & p & P1 & P2 & ->). symmetry.
      apply (S1 a b p P1). intros a' b' p' P. apply (known_none _ _ _ _ P2 a' b' p' P).
  - rewrite R2, S2; [rewrite E; cbn; rewrite N'; reflexivity| |].
    + intros a b p P. apply (known_none _ _ _ _ K a b p P).
    + rewrite SE. intros a b p P. apply (known_none _ _ _ _ KE a b p P).
Qed.
Print Assumptions C164_apart.

(** Two views for the examples: file [f] holds [f] and [f + 100]. *)
Definition v0 : view := fun _ f => f.
Definition v1 : view := fun _ f => f + 100.

(** A file read before it is mapped keeps its old content, for this world and
    for all tasks derived from it, until the table is given up. *)
Example C164_nonvacuous :
  shows [Snapshot v0; Read 0 Source 7; Task 0 5; Remap 1 v1] (Read 1 Source 7) = Content 7 /\
  shows [Snapshot v0; Read 0 Source 7; Task 0 5; Remap 1 v1] (Read 1 Source 8) = Content 108 /\
  shows [Snapshot v0; Read 0 Source 7; Task 0 5; Remap 1 v1; Read 1 Source 8] (Read 0 Source 8)
    = Content 108 /\
  shows [Snapshot v0; Read 0 Source 7; Task 0 5; TakeDb 1; Remap 1 v1] (Read 1 Source 7) = Content 107 /\
  session (rev [Snapshot v0; Read 0 Source 7; Task 0 5; Remap 1 v1]) 1 =
  session (rev [Snapshot v0; Read 0 Source 7; Task 0 5; Remap 1 v1]) 0.
Proof. repeat split. Qed.

(** ** C165: dependencies *)

(** The dependencies of a world are the files its session read through worlds
    that counted their reads at that moment, each once. *)
Theorem C165_dependencies : forall es w, w < count (rev es) ->
  exists l, shows es (Deps w) = Files l /\ NoDup l /\ forall f, In f l <-> depends (rev es) w f.
Proof. exact shows_deps. Qed.
Print Assumptions C165_dependencies.

Lemma exec_reads (n : nat) reads : forall b h, n < count h -> counts h n = b ->
  let h' := rev (map (fun x => Read n (fst x) (snd x)) reads) ++ h in
  count h' = count h /\ (forall i, session h' i = session h i) /\ counts h' n = b /\
  forall f, dep h' (session h n) f =
    (b && existsb (fun x => (snd x =? f) && is_file (fst x) (snd x)) reads) || dep h (session h n) f.
Proof.
  induction reads as [|(k & g) reads IH]; cbn [map rev app fst snd]; intros b h L C; cbv zeta in *.
  - repeat split; auto. intro f. rewrite andb_false_r. reflexivity.
  - rewrite <- !app_assoc. cbn [app].
    destruct (IH b (Read n k g :: h) L C) as (I1 & I2 & I3 & I4).
    repeat split; [rewrite I1; reflexivity|intro i; rewrite I2; reflexivity|exact I3|].
    intro f. change (session h n) with (session (Read n k g :: h) n). rewrite I4.
    cbn [dep session existsb fst snd]. rewrite C.
    assert (G : reads_in h (session h n) n k f = is_file k f).
    { unfold reads_in. rewrite (proj2 (Nat.ltb_lt _ _) L), Nat.eqb_refl. reflexivity. }
    rewrite G. destruct (Nat.eqb_spec g f) as [->|]; cbn; [|reflexivity].
    destruct b, (is_file k f), (existsb (fun x => (snd x =? f) && is_file (fst x) (snd x)) reads),
      (dep h (session h n) f); reflexivity.
Qed.

(** A compilation adds to the dependencies of the world it is given exactly
    the files it reads, whatever the flag of that world. *)
Theorem C165_compile : forall es w clock reads f, w < count (rev es) ->
  forall l l', shows es (Deps w) = Files l ->
  shows (es ++ execute w (count (rev es)) clock reads) (Deps w) = Files l' ->
  (In f l' <-> In f l \/ exists k, In (k, f) reads /\ is_file k f = true).
Proof.
  intros es w clock reads f L l l' Hl Hl'.
  set (n := count (rev es)) in *. set (es' := es ++ execute w n clock reads) in *.
  set (h1 := Compiling n true :: Task w clock :: rev es).
  assert (E : rev es' = Compiling n false ::
    (rev (map (fun x => Read n (fst x) (snd x)) reads) ++ h1)).
  { unfold es', execute, h1. rewrite rev_app_distr. cbn. rewrite rev_app_distr. cbn.
    rewrite <- !app_assoc. reflexivity. }
  assert (LL : (w <? count (rev es)) = true) by (apply Nat.ltb_lt; exact L).
  assert (C1 : n < count h1).
  { unfold h1. cbn. rewrite LL. unfold n. lia. }
  assert (B1 : counts h1 n = true) by (unfold h1; cbn; rewrite Nat.eqb_refl; reflexivity).
  destruct (exec_reads n reads true h1 C1 B1) as (I1 & I2 & I3 & I4).
  assert (Sw : session (rev es') w = session (rev es) w).
  { rewrite E. cbn [session]. rewrite I2. unfold h1. cbn. rewrite LL.
    rewrite (neq_count _ _ L). reflexivity. }
  assert (Sn : session h1 n = session (rev es) w).
  { unfold h1, n. cbn. rewrite LL, Nat.eqb_refl. reflexivity. }
  assert (Cw : w < count (rev es')).
  { rewrite E. cbn [count]. rewrite I1. unfold n in C1. lia. }
  destruct (shows_deps es w L) as (m & Hm & _ & Hd). rewrite Hl in Hm. injection Hm as <-.
  destruct (shows_deps es' w Cw) as (m & Hm & _ & Hd'). rewrite Hl' in Hm. injection Hm as <-.
  rewrite Hd, Hd'. unfold depends. rewrite <- !dep_ok, Sw, E. cbn [dep].
  rewrite <- Sn, I4. cbn [andb]. rewrite orb_true_iff.
  replace (dep h1 (session h1 n) f) with (dep (rev es) (session h1 n) f) by reflexivity.
  rewrite existsb_exists. split.
  - intros [((k & g) & Hi & Hx)|Hx]; [|left; exact Hx]. cbn in Hx.
    apply andb_true_iff in Hx. destruct Hx as (Hx & Hf). apply Nat.eqb_eq in Hx. subst g.
    right. exists k. auto.
  - intros [Hx|(k & Hi & Hf)]; [right; exact Hx|]. left. exists (k, f).
    cbn. rewrite Nat.eqb_refl. auto.
Qed.
Print Assumptions C165_compile.

(** A read through a world whose flag is off adds no dependency. *)
Theorem C165_quiet : forall es w p k f, w < count (rev es) -> counts (rev es) p = false ->
  forall l l', shows es (Deps w) = Files l -> shows (es ++ [Read p k f]) (Deps w) = Files l' ->
  forall g, In g l' <-> In g l.
Proof.
  intros es w p k f L C l l' Hl Hl' g.
  assert (E : rev (es ++ [Read p k f]) = Read p k f :: rev es) by (rewrite rev_app_distr; reflexivity).
  destruct (shows_deps es w L) as (m & Hm & _ & Hd). rewrite Hl in Hm. injection Hm as <-.
  destruct (shows_deps (es ++ [Read p k f]) w) as (m & Hm & _ & Hd'); [rewrite E; exact L|].
  rewrite Hl' in Hm. injection Hm as <-. rewrite Hd, Hd'. unfold depends.
  rewrite <- !dep_ok, E. cbn [dep session]. rewrite C, andb_false_r. tauto.
Qed.
Print Assumptions C165_quiet.

(** Finding: the flag of a snapshot is on from its creation, and a compilation
    switches it off in its own clone only.  So what queries of the language
    server read through the snapshot after the compilation counts as a
    dependency of the document: here file 9, which the compilation never read. *)
Theorem C165_queries_counted : exists es w f,
  es = Snapshot v0 :: execute 0 1 5 [(Source, 7)] ++ [Read 0 Source 9] /\
  w = 0 /\ f = 9 /\
  shows (Snapshot v0 :: execute 0 1 5 [(Source, 7)]) (Deps w) = Files [7] /\
  shows es (Deps w) = Files [7; f].
Proof. do 3 eexists. repeat split. Qed.
Print Assumptions C165_queries_counted.

(** With the flag of the snapshot switched off first, as the project's tests
    do (crates/tinymist-query/src/tests.rs 72), it is not. *)
Example C165_nonvacuous :
  shows (Snapshot v0 :: Compiling 0 false :: execute 0 1 5 [(Source, 7); (Bytes, 3); (Source, 7)]
         ++ [Read 0 Source 9; Read 0 Bytes 7]) (Deps 0) = Files [7; 3] /\
  counts (rev (Snapshot v0 :: Compiling 0 false :: execute 0 1 5 [(Source, 7)])) 0 = false.
Proof. split; reflexivity. Qed.

(** ** C166: dates *)

(** Once any world has shown a time, every world that descends from the same
    snapshot shows that time, whenever it is asked and whatever the clock. *)
Theorem C166_one_time : forall es w c t rest v c',
  w < count (rev es) -> shows es (Today w c) = Time t ->
  let es' := es ++ Today w c :: rest in
  v < count (rev es') -> origin (rev es') v = origin (rev es) w ->
  shows es' (Today v c') = Time t.
Proof.
  intros es w c t rest v c' L H es' L' O. rewrite shows_today in H by exact L.
  injection H as H. rewrite shows_today by exact L'. f_equal.
  assert (E : rev es' = rev rest ++ Today w c :: rev es).
  { unfold es'. rewrite rev_app_distr. cbn. rewrite <- app_assoc. reflexivity. }
  assert (F : fetched (Today w c :: rev es) (origin (rev es) w) = Some t).
  { cbn. rewrite (proj2 (Nat.ltb_lt _ _) L), Nat.eqb_refl. cbn.
    destruct (fetched (rev es) (origin (rev es) w)); f_equal; exact H. }
  apply (fetched_later (rev rest)) in F. rewrite <- E in F. rewrite O, F. reflexivity.
Qed.
Print Assumptions C166_one_time.

(** A task shows the time of the world it was made of, even if neither had
    been asked before. *)
Theorem C166_task : forall es w c, w < count (rev es) ->
  exists t, forall rest c',
    let es' := es ++ Task w c :: rest in
    shows es' (Today w c') = Time t /\ shows es' (Today (count (rev es)) c') = Time t.
Proof.
  intros es w c L.
  assert (LL : (w <? count (rev es)) = true) by (apply Nat.ltb_lt; exact L).
  exists (match fetched (rev es) (origin (rev es) w) with Some t => t | None => c end).
  intros rest c' es'.
  assert (E : rev es' = rev rest ++ Task w c :: rev es).
  { unfold es'. rewrite rev_app_distr. cbn. rewrite <- app_assoc. reflexivity. }
  assert (F : fetched (Task w c :: rev es) (origin (rev es) w) =
    Some (match fetched (rev es) (origin (rev es) w) with Some t => t | None => c end)).
  { cbn. rewrite LL, Nat.eqb_refl. cbn.
    destruct (fetched (rev es) (origin (rev es) w)); reflexivity. }
  apply (fetched_later (rev rest)) in F. rewrite <- E in F.
  assert (Lw : w < count (Task w c :: rev es)) by (cbn; rewrite LL; lia).
  assert (Ln : count (rev es) < count (Task w c :: rev es)) by (cbn; rewrite LL; lia).
  destruct (origin_later (rev rest) _ _ Lw) as (O1 & L1).
  destruct (origin_later (rev rest) _ _ Ln) as (O2 & L2).
  rewrite <- E in O1, L1, O2, L2. cbn in O1, O2.
  rewrite LL, (neq_count _ _ L) in O1. cbn in O1.
  rewrite LL, Nat.eqb_refl in O2. cbn in O2.
  rewrite !shows_today by assumption. rewrite O1, O2, F. auto.
Qed.
Print Assumptions C166_task.

(** Worlds of one snapshot agree at different clocks; another snapshot has its
    own time. *)
Example C166_nonvacuous :
  shows [Snapshot v0; Task 0 5; Task 1 6; Snapshot v1] (Today 2 9) = Time 5 /\
  shows [Snapshot v0; Task 0 5; Task 1 6; Snapshot v1] (Today 0 10) = Time 5 /\
  shows [Snapshot v0; Task 0 5; Task 1 6; Snapshot v1] (Today 3 9) = Time 9 /\
  origin (rev [Snapshot v0; Task 0 5; Task 1 6; Snapshot v1]) 2 = 0.
Proof. repeat split. Qed.
