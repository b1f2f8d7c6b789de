(** * Theorems about packs *)

From Coq Require Import List Arith Bool Lia.
From Verif Require Import PackModel PackSpec.
Import ListNotations.

(** ** Walking *)
Section tree_ind2.
Context (P : tree -> Prop) (hl : forall d, P (Leaf d)) (hx : P Lost)
  (hb : forall es, (forall n t, In (n, t) es -> P t) -> P (Branch es)).
Fixpoint tree_ind2 (t : tree) : P t :=
  match t with
  | Leaf d => hl d
  | Lost => hx
  | Branch es => hb es ((fix go es : forall n t, In (n, t) es -> P t :=
      match es with
      | [] => fun _ _ H => match H with end
      | e :: es' => fun n t H => match H with
          | or_introl E => match e as e' return P (snd e') -> e' = (n, t) -> P t with
              (m, u) => fun p E => eq_ind u P p t (f_equal snd E) end (tree_ind2 (snd e)) E
          | or_intror H' => go es' n t H' end
      end) es)
  end.
End tree_ind2.

Lemma walk_branch : forall p es,
  walk p (Branch es) = flat_map (fun e => if hidden (fst e) then [] else walk (p ++ [fst e]) (snd e)) es.
Proof. intros p es. cbn. induction es as [|(n & u) es IH]; cbn; [reflexivity|]. rewrite IH. reflexivity. Qed.

Lemma walk_ok : forall t p q d, In (q, d) (walk p t) <-> exists r, q = p ++ r /\ file_in t r d.
Proof.
  induction t as [d0| |es IH] using tree_ind2; intros p q d.
  - cbn. split.
    + intros [H|[]]. injection H as <- <-. exists []. rewrite app_nil_r. split; [reflexivity|constructor].
    + intros (r & -> & H). inversion H; subst. rewrite app_nil_r. auto.
  - cbn. split; [intros []|]. intros (r & _ & H). inversion H.
  - rewrite walk_branch, in_flat_map. split.
    + intros ((n & u) & He & H). cbn [fst snd] in H. destruct n as [n|n]; cbn in H; [|destruct H].
      apply (IH _ _ He) in H. destruct H as (r & -> & H). exists (Plain n :: r). rewrite <- app_assoc. split; [reflexivity|].
      econstructor; eassumption.
    + intros (r & -> & H). inversion H; subst. exists (Plain n, t). split; [assumption|]. cbn.
      eapply IH; [eassumption|]. exists p0. rewrite <- app_assoc. auto.
Qed.

Lemma walk_nodup : forall t p, distinct t -> NoDup (map fst (walk p t)).
Proof.
  induction t as [d0| |es IH] using tree_ind2; intros p D.
  - cbn. constructor; [intros []|constructor].
  - constructor.
  - rewrite walk_branch. inversion D as [| |es' N C]; subst. clear D.
    induction es as [|(n & u) es IHe]; [constructor|]. cbn [flat_map fst snd]. rewrite map_app.
    cbn in N. inversion N; subst.
    assert (R : NoDup (map fst (flat_map (fun e => if hidden (fst e) then [] else walk (p ++ [fst e]) (snd e)) es))).
    { apply IHe; [intros; eapply IH; [right; eassumption|assumption]|assumption|intros; eapply C; right; eassumption]. }
    destruct n as [n|n]; cbn [hidden]; [|exact R].
    assert (W : NoDup (map fst (walk (p ++ [Plain n]) u))) by (eapply IH; [left; reflexivity|eapply C; left; reflexivity]).
    revert W R. generalize (map fst (walk (p ++ [Plain n]) u)) (fun q => proj1 (in_map_iff fst (walk (p ++ [Plain n]) u) q)).
    intros l Hl W R. induction l as [|x l IHl]; [exact R|]. inversion W; subst. cbn [app]. constructor.
    + rewrite in_app_iff. intros [Hx|Hx]; [contradiction|].
      destruct (Hl x (or_introl eq_refl)) as ((q & d) & Hq & Hin). cbn in Hq. subst q.
      apply walk_ok in Hin. destruct Hin as (r & -> & _).
      apply in_map_iff in Hx. destruct Hx as ((q & d') & Hq & Hin'). cbn in Hq. subst q.
      apply in_flat_map in Hin'. destruct Hin' as ((m & v) & He & Hin'). cbn [fst snd] in Hin'.
      destruct m as [m|m]; cbn in Hin'; [|destruct Hin'].
      apply walk_ok in Hin'. destruct Hin' as (r' & E & _). rewrite <- !app_assoc in E. apply app_inv_head in E.
      injection E as <- _. apply H1. change (Plain n) with (fst (Plain n, v)). apply in_map. assumption.
    + apply IHl; [intros q Hq; apply Hl; right; assumption|assumption].
Qed.

(** ** Reading *)
Lemma dir_stream : forall keep t, exists st, dir_gives keep t st /\
  forall S (f : rpath -> data -> S -> fin * S) s, run f st s (read_walk f keep (walk [] t) s).
Proof.
  intros keep t.
  assert (G : forall w, exists st,
    ((exists good, filter (fun x => keep (rel (fst x))) w = map (fun x => (fst x, Some (snd x))) good /\
        st = (map (fun x => (rel (fst x), snd x)) good, Good)) \/
     (exists good p rest,
        filter (fun x => keep (rel (fst x))) w = map (fun x => (fst x, Some (snd x))) good ++ (p, None) :: rest /\
        st = (map (fun x => (rel (fst x), snd x)) good, Bad))) /\
    forall S (f : rpath -> data -> S -> fin * S) s, run f st s (read_walk f keep w s)).
  { induction w as [|(p & d) w (st & H & R)].
    - exists ([], Good). split; [left; exists []; auto|]. intros. constructor.
    - cbn [filter fst read_walk]. destruct (keep (rel p)) eqn:K.
      + destruct d as [d|].
        * assert (N : forall l e, st = (l, e) -> forall S (f : rpath -> data -> S -> fin * S) s,
             run f ((rel p, d) :: l, e) s
               match f (rel p) d s with (Good, s') => read_walk f keep w s' | r => r end).
          { intros l e -> S f s. destruct (f (rel p) d s) as [[| |] s'] eqn:E;
              [eapply run_next; eauto|apply run_stop; [assumption|discriminate]..]. }
          destruct H as [(good & H & E)|(good & q & rest & H & E)]; rewrite H.
          -- exists ((rel p, d) :: map (fun x => (rel (fst x), snd x)) good, Good). split; [|apply N; assumption].
             left. exists ((p, d) :: good). auto.
          -- exists ((rel p, d) :: map (fun x => (rel (fst x), snd x)) good, Bad). split; [|apply N; assumption].
             right. exists ((p, d) :: good), q, rest. auto.
        * exists ([], Bad). split; [|intros; constructor]. right.
          exists [], p, (filter (fun x => keep (rel (fst x))) w). auto.
      + exists st. auto. }
  destruct (G (walk [] t)) as (st & H & R). exists st. split; [|exact R].
  exists (walk [] t). split; [|split; [apply walk_nodup|exact H]].
  intros p d. rewrite walk_ok. cbn. split; [intros (r & -> & H'); exact H'|eauto].
Qed.

Lemma tar_stream : forall es, exists st, tar_gives es st /\
  forall S (f : rpath -> data -> S -> fin * S) s, run f st s (read_tar f es s).
Proof.
  induction es as [|[| | |full p d] es (st & H & R)].
  - exists ([], Good). split; [constructor|]. intros. constructor.
  - exists ([], Bad). split; [constructor|]. intros. constructor.
  - exists st. split; [constructor; assumption|]. exact R.
  - exists ([], Bad). split; [constructor|]. intros. constructor.
  - destruct st as [l e]. exists ((p, d) :: l, e). split; [constructor; assumption|].
    intros S f s. cbn. destruct (f p d s) as [[| |] s'] eqn:E;
      [eapply run_next; eauto|apply run_stop; [assumption|discriminate]..].
Qed.

Lemma http_stream : forall r, exists st, http_gives r st /\
  forall S (f : rpath -> data -> S -> fin * S) s, run f st s (read_http f r s).
Proof.
  intros [| | |[es|]];
    try (exists ([], Bad); split; [constructor; discriminate|]; intros; constructor).
  destruct (tar_stream es) as (st & H & R). exists st. split; [constructor; assumption|exact R].
Qed.

Lemma run_filter : forall (keep : rpath -> bool) S (f : rpath -> data -> S -> fin * S) l e s r,
  run (fun q d s => if keep q then f q d s else (Good, s)) (l, e) s r ->
  run f (filter (fun x => keep (fst x)) l, e) s r.
Proof.
  intros keep S f l. induction l as [|(p & d) l IH]; intros e s r H; inversion H; subst; cbn [filter fst].
  - constructor.
  - destruct (keep p); [eapply run_next; eauto|].
    match goal with X : (Good, _) = (Good, _) |- _ => injection X as -> end. apply IH. assumption.
  - destruct (keep p) eqn:K; [apply run_stop; auto|]. match goal with X : fst _ <> Good |- _ => exfalso; apply X; reflexivity end.
Qed.

(** ** C170: reading packs *)

(** A pack gives one stream of files, whoever reads it: [read_all] calls the
    callback on each file in order, until the stream ends or the callback fails,
    and answers how that ended. *)
Theorem C170_reads : forall p, exists st, gives p st /\
  forall S (f : rpath -> data -> S -> fin * S) s, run f st s (read_all p f s).
Proof.
  induction p as [files|[n|n] t|[es|]|r|[t|]|[|] r|src IH keep].
  - exists (map (fun x => (fst x, Whole (snd x))) files, Good). split; [constructor|]. intros S f.
    induction files as [|(p & c) files IH]; intro s; [constructor|]. cbn. destruct (f p (Whole c) s) as [[| |] s'] eqn:E;
      [eapply run_next; [exact E|apply IH]|apply run_stop; [assumption|discriminate]..].
  - destruct (dir_stream (fun _ => true) t) as (st & H & R). exists st. split; [constructor; assumption|exact R].
  - exists ([], Good). split; [constructor|]. intros. constructor.
  - destruct (tar_stream es) as (st & H & R). exists st. split; [constructor; assumption|exact R].
  - exists ([], Bad). split; [constructor|]. intros. constructor.
  - destruct (http_stream r) as (st & H & R). exists st. split; [constructor; assumption|exact R].
  - destruct (dir_stream (fun _ => true) t) as (st & H & R). exists st. split; [constructor; assumption|exact R].
  - exists ([], Bad). split; [constructor|]. intros. constructor.
  - destruct (http_stream r) as (st & H & R). exists st. split; [constructor; assumption|exact R].
  - exists ([], Panic). split; [constructor|]. intros. constructor.
  - destruct IH as ([l e] & H & R). exists (filter (fun x => keep (fst x)) l, e). split; [constructor; assumption|].
    intros S f s. cbn. apply run_filter, R.
Qed.
Print Assumptions C170_reads.

(** A filter keeps the files it accepts; for a directory, files it does not
    accept are not even opened. *)
Theorem C170_filter : forall p keep,
  match p with
  | DirPack (Plain _) t => exists st, dir_gives keep t st /\
      forall S (f : rpath -> data -> S -> fin * S) s, run f st s (read_filtered p keep f s)
  | _ => exists l e, gives p (l, e) /\
      forall S (f : rpath -> data -> S -> fin * S) s, run f (filter (fun x => keep (fst x)) l, e) s (read_filtered p keep f s)
  end.
Proof.
  intros p keep.
  assert (G : (forall n t, p <> DirPack n t) -> exists l e, gives p (l, e) /\
      forall S (f : rpath -> data -> S -> fin * S) s, run f (filter (fun x => keep (fst x)) l, e) s (read_filtered p keep f s)).
  { intro N. destruct (C170_reads p) as ([l e] & H & R). exists l, e. split; [exact H|]. intros S f s.
    assert (E : read_filtered p keep f s = read_all (FilterPack p keep) f s) by (destruct p; try reflexivity; exfalso; eapply N; reflexivity).
    rewrite E. cbn. apply run_filter, R. }
  destruct p as [| [n|n] t| | | | |]; try (apply G; discriminate).
  - apply dir_stream.
  - exists [], Good. split; [constructor|]. intros. constructor.
Qed.
Print Assumptions C170_filter.

(** A directory whose own name begins with a dot is a pack without files, and
    reading it succeeds. *)
Theorem C170_hidden_refuted : exists p t d, file_in t [Plain 1] (Some d) /\ p = DirPack (Dot 0) t /\
  forall S (f : rpath -> data -> S -> fin * S) s, read_all p f s = (Good, s).
Proof.
  exists (DirPack (Dot 0) (Branch [(Plain 1, Leaf (Some (Whole 5)))])), (Branch [(Plain 1, Leaf (Some (Whole 5)))]), (Whole 5).
  split; [eapply file_below; [left; reflexivity|constructor]|]. split; reflexivity.
Qed.
Print Assumptions C170_hidden_refuted.

(** A package that is not of the universe's namespace is a panic. *)
Theorem C170_universe : forall r S (f : rpath -> data -> S -> fin * S) s, read_all (UniversePack false r) f s = (Panic, s).
Proof. reflexivity. Qed.
Print Assumptions C170_universe.

(** ** Copying *)
Lemma rpath_dec : forall a b : rpath, {a = b} + {a <> b}.
Proof.
  assert (C : forall x y : comp, {x = y} + {x <> y}) by (decide equality; apply name_eq_dec).
  decide equality; [apply list_eq_dec, C|decide equality].
Qed.

Lemma latest_in : forall A (l : list (A * data)) q c, latest l q c -> In (q, Whole c) l.
Proof. intros A l q c H. induction H; [left; reflexivity|right; assumption]. Qed.

Lemma latest_some : forall (l : list (rpath * data)) q, (exists d, In (q, d) l) ->
  (exists c, latest l q c) \/ (exists c, In (q, Breaks c) l).
Proof.
  induction l as [|(p & d) l IH]; intros q (d' & H); [destruct H|].
  destruct (in_dec rpath_dec q (map fst l)) as [I|I].
  - destruct (IH q) as [(c & L)|(c & B)].
    + apply in_map_iff in I. destruct I as ((q' & d'') & <- & I). eauto.
    + left. exists c. constructor. exact L.
    + right. exists c. right. exact B.
  - destruct H as [H|H]; [|exfalso; apply I; change q with (fst (q, d')); apply in_map, H].
    injection H as -> ->. destruct d' as [c|c]; [left; exists c; constructor|right; exists c; left; reflexivity].
    intros d H. apply I. change q with (fst (q, d)). apply in_map, H.
Qed.

Lemma map_run : forall l e m m', run put_map (l, e) m (Good, m') ->
  e = Good /\ (forall p c, ~ In (p, Breaks c) l) /\
  forall q c, holds m' q c <-> latest l q c \/ (~ In q (map fst l) /\ holds m q c).
Proof.
  induction l as [|(p & d) l IH]; intros e m m' H; inversion H; subst.
  - split; [reflexivity|]. split; [intros p c []|]. intros q c. split.
    + intro Hh. right. split; [intros []|exact Hh].
    + intros [L|[_ L]]; [inversion L|exact L].
  - destruct d as [c|c]; cbn in *; [|discriminate].
    match goal with X : (Good, _) = (Good, _) |- _ => injection X as <- end.
    destruct (IH _ _ _ ltac:(eassumption)) as (-> & B & E). split; [reflexivity|]. split.
    { intros q c' [X|X]; [discriminate|eapply B, X]. }
    intros q c'. rewrite E. split.
    + intros [L|[N (a & b & X & Y)]]; [left; constructor; exact L|].
      destruct a as [|x a].
      * injection X as -> -> ->. left. constructor. intros d Hd. apply N. change q with (fst (q, d)). apply in_map, Hd.
      * injection X as <- ->. right. split.
        -- cbn in Y. cbn. intros [Z|Z]; [apply Y; left; exact Z|contradiction].
        -- exists a, b. split; [reflexivity|]. intro Z. apply Y. right. exact Z.
    + intros [L|[N (a & b & X & Y)]].
      * inversion L; subst; [|left; assumption]. right. split.
        -- intro I. apply in_map_iff in I. destruct I as ((q' & d) & E' & I). cbn in E'. subst q'. match goal with X : forall d, ~ In _ _ |- _ => eapply X, I end.
        -- exists [], m. split; [reflexivity|intros []].
      * right. split; [intro I; apply N; right; exact I|]. exists ((p, c) :: a), b. split; [rewrite X; reflexivity|].
        cbn. intros [Z|Z]; [apply N; left; exact Z|contradiction].
  - exfalso. match goal with X : fst _ <> Good |- _ => apply X; reflexivity end.
Qed.

(** ** C171: copying packs *)

(** A successful copy into memory has all files of the pack, as the last one of
    their path was, and of what was there before the files with other paths. *)
Theorem C171_map : forall p m m', clone_map p m = (Good, m') ->
  exists l, gives p (l, Good) /\ (forall q c, ~ In (q, Breaks c) l) /\
    forall q c, holds m' q c <-> latest l q c \/ (~ In q (map fst l) /\ holds m q c).
Proof.
  intros p m m' H. destruct (C170_reads p) as ([l e] & G & R).
  specialize (R _ put_map m). unfold clone_map in H. rewrite H in R.
  destruct (map_run _ _ _ _ R) as (-> & B & E). exists l. auto.
Qed.
Print Assumptions C171_map.

Lemma resolve_names : forall ns, resolve (map Nm ns) = ns.
Proof.
  intro ns. unfold resolve.
  assert (G : forall a, fold_left (fun p c => match c with Nm n => p ++ [n] | Up => removelast p | Here => p end) (map Nm ns) a = a ++ ns).
  { induction ns as [|n ns IH]; intro a; cbn; [rewrite app_nil_r; reflexivity|]. rewrite IH, <- app_assoc. reflexivity. }
  apply G.
Qed.

Lemma join_clean : forall base p ns, clean p ns -> join base p = map Nm (base ++ ns).
Proof.
  intros base p ns (A & C & _). unfold join. rewrite A, C, map_app. f_equal.
  clear. induction ns as [|n ns IH]; cbn; [reflexivity|]. rewrite IH. reflexivity.
Qed.

Lemma mkdirs_names : forall can b a s ok s', mkdirs can (map Nm a) (map Nm b) s = (ok, s') ->
  forall q, s' q = s q \/ (s q = None /\ s' q = Some Dir /\ exists x y, b = x ++ y /\ x <> [] /\ q = a ++ x).
Proof.
  intros can b. induction b as [|n b IH]; intros a s ok s' H q; cbn [mkdirs map] in H.
  - injection H as _ <-. auto.
  - change [Nm n] with (map Nm [n]) in H. rewrite <- map_app, resolve_names in H. unfold mkdir in H.
    assert (step : forall s1, mkdirs can (map Nm (a ++ [n])) (map Nm b) s1 = (ok, s') ->
       s' q = s1 q \/ (s1 q = None /\ s' q = Some Dir /\ exists x y, n :: b = x ++ y /\ x <> [] /\ q = a ++ x)).
    { intros s1 H1. destruct (IH _ _ _ _ H1 q) as [E|(E & E' & x & y & -> & X & ->)]; [auto|right].
      split; [exact E|split; [exact E'|]]. exists (n :: x), y. split; [reflexivity|]. split; [discriminate|]. rewrite <- app_assoc. reflexivity. }
    destruct (s (a ++ [n])) as [[c|]|] eqn:E.
    + injection H as _ <-. auto.
    + apply step in H. exact H.
    + destruct (can (a ++ [n])); [|injection H as _ <-; auto].
      apply step in H. unfold set in H. destruct (path_eq_dec (a ++ [n]) q) as [<-|N].
      * right. destruct H as [H|[H _]]; [|discriminate]. split; [exact E|]. split; [exact H|].
        exists [n], b. split; [reflexivity|]. split; [discriminate|reflexivity].
      * exact H.
Qed.

Lemma removelast_split : forall A (l x y : list A), l <> [] -> removelast l = x ++ y -> above x l.
Proof.
  intros A l x y H E. destruct (exists_last H) as (l' & a & ->). rewrite removelast_last in E. subst l'.
  exists (y ++ [a]). split; [intro X; apply app_eq_nil in X; destruct X; discriminate|]. rewrite <- app_assoc. reflexivity.
Qed.

Lemma put_clean : forall can base p ns d s r, clean p ns -> put_dir can base p d s = r ->
  (forall q, snd r q = s q \/
     (s q = None /\ snd r q = Some Dir /\ above q (base ++ ns)) \/
     (q = base ++ ns /\ s q <> Some Dir /\ exists c, (d = Whole c \/ d = Breaks c) /\ snd r q = Some (File c))) /\
  (fst r = Good -> exists c, d = Whole c /\ snd r (base ++ ns) = Some (File c)).
Proof.
  intros can base p ns d s r C H. unfold put_dir in H. rewrite (join_clean base p ns C) in H.
  assert (N : base ++ ns <> []) by (intro X; apply app_eq_nil in X; destruct C as (_ & _ & C); tauto).
  destruct (map Nm (base ++ ns)) as [|c0 cs] eqn:E; [exfalso; apply N; eapply map_eq_nil; exact E|].
  rewrite <- E in H.
  assert (RL : removelast (map Nm (base ++ ns)) = map Nm (removelast (base ++ ns))).
  { generalize (base ++ ns). intro l. induction l as [|x l IH]; [reflexivity|]. destruct l; [reflexivity|].
    change (Nm x :: removelast (map Nm (n :: l)) = Nm x :: map Nm (removelast (n :: l))). rewrite IH. reflexivity. }
  rewrite RL, resolve_names in H.
  destruct (mkdirs can [] (map Nm (removelast (base ++ ns))) s) as [ok s1] eqn:M.
  pose proof (mkdirs_names can (removelast (base ++ ns)) [] s ok s1 M) as D.
  assert (D' : forall q, s1 q = s q \/ (s q = None /\ s1 q = Some Dir /\ above q (base ++ ns))).
  { intro q. destruct (D q) as [X|(X & Y & x & y & Z & _ & ->)]; [auto|right]. split; [exact X|split; [exact Y|]].
    eapply removelast_split; eassumption. }
  assert (K : (forall q, s1 q = s q \/ (s q = None /\ s1 q = Some Dir /\ above q (base ++ ns)) \/
     (q = base ++ ns /\ s q <> Some Dir /\ exists c, (d = Whole c \/ d = Breaks c) /\ s1 q = Some (File c)))).
  { intro q. destruct (D' q); auto. }
  destruct ok; [|subst r; cbn; split; [exact K|discriminate]].
  assert (W : s1 (base ++ ns) <> Some Dir -> forall c (r' : fin * fs), (d = Whole c \/ d = Breaks c) -> snd r' = set (base ++ ns) (File c) s1 ->
    forall q, snd r' q = s q \/ (s q = None /\ snd r' q = Some Dir /\ above q (base ++ ns)) \/
     (q = base ++ ns /\ s q <> Some Dir /\ exists c, (d = Whole c \/ d = Breaks c) /\ snd r' q = Some (File c))).
  { intros ND c r' Hd -> q. unfold set. destruct (path_eq_dec (base ++ ns) q) as [<-|X]; [right; right; split; [reflexivity|split]; [destruct (D' (base ++ ns)) as [X|[X _]]; congruence|exists c; auto]|].
    destruct (D' q); auto. }
  assert (F : forall c, set (base ++ ns) (File c) s1 (base ++ ns) = Some (File c)).
  { intro c. unfold set. destruct (path_eq_dec (base ++ ns) (base ++ ns)); [reflexivity|congruence]. }
  destruct (base ++ ns) as [|x0 xs] eqn:BN; [congruence|].
  destruct (s1 (x0 :: xs)) as [[c|]|] eqn:S1; [|subst r; cbn; split; [exact K|discriminate]|];
    (destruct (can (x0 :: xs)); [|subst r; cbn; split; [exact K|discriminate]]);
    (destruct d as [cc|cc]; subst r; cbn [fst snd]; (split; [apply (W ltac:(congruence) cc (Good, set (x0 :: xs) (File cc) s1)); [auto|reflexivity]|]);
      [intros _; exists cc; auto|discriminate]).
Qed.

Lemma clean_unique : forall p p' ns, clean p ns -> clean p' ns -> p = p'.
Proof. intros [a c] [a' c'] ns (A & C & _) (A' & C' & _). cbn in *. congruence. Qed.

Lemma dir_run : forall can base l e s r, all_clean l -> run (put_dir can base) (l, e) s r ->
  became base l s (snd r) /\
  (fst r = Good -> e = Good /\ (forall p c, ~ In (p, Breaks c) l) /\
     forall p ns c, clean p ns -> latest l p c -> snd r (base ++ ns) = Some (File c)).
Proof.
  intros can base l. induction l as [|(p & d) l IH]; intros e s r A H.
  - inversion H; subst. cbn. split; [intro q; auto|]. intros ->. split; [reflexivity|]. split; [intros p c []|].
    intros p ns c _ L. inversion L.
  - destruct (A p d (or_introl eq_refl)) as (ns & C).
    assert (A' : all_clean l) by (intros p' d' H'; eapply A; right; exact H').
    assert (B1 : forall r', put_dir can base p d s = r' -> became base ((p, d) :: l) s (snd r')).
    { intros r' E q. destruct (put_clean can base p ns d s r' C E) as [P1 _].
      destruct (P1 q) as [X|[(X & Y & Z)|(X & Y & c & Z & W)]]; [auto| |].
      - right. left. split; [exact X|split; [exact Y|]]. exists p, d, ns. split; [left; reflexivity|auto].
      - right. right. split; [exact Y|]. exists p, d, ns, c. split; [left; reflexivity|auto]. }
    inversion H as [|p0 d0 l0 e0 s0 s' r0 H7 H8|p0 d0 l0 e0 s0 r0 H7 H8]; subst.
    + destruct (IH _ _ _ A' H8) as (I1 & I2). pose proof (B1 _ H7) as B. cbn [snd] in B. split.
      * intro q. destruct (I1 q) as [X|[(X & Y & p' & d' & ns' & Z & W & V)|(X & p' & d' & ns' & c & Z & W & V & U & T)]].
        -- rewrite X. apply B.
        -- destruct (B q) as [E|[(_ & E & _)|(_ & p1 & d1 & n1 & c1 & _ & _ & _ & _ & E)]]; try congruence.
           right. left. split; [congruence|]. split; [exact Y|]. exists p', d', ns'. split; [right; exact Z|auto].
        -- right. right. destruct (B q) as [E|[(_ & E & _)|(E & _)]]; try congruence.
           ++ split; [congruence|]. exists p', d', ns', c. split; [right; exact Z|auto].
           ++ split; [exact E|]. exists p', d', ns', c. split; [right; exact Z|auto].
      * intro G. destruct (I2 G) as (-> & NB & L). split; [reflexivity|].
        destruct (put_clean can base p ns d s _ C H7) as [_ P2]. destruct (P2 eq_refl) as (c0 & -> & F). cbn [snd] in F.
        split; [intros p' c' [X|X]; [discriminate|eapply NB, X]|].
        intros p' ns' c C' La. inversion La as [p1 c1 l1 N E1|x l1 p1 c1 La' E1]; subst; [|eapply L; eassumption].
        assert (ns' = ns) as ->.
        { destruct C as (_ & X & _). destruct C' as (_ & Y & _). rewrite X in Y.
          clear -Y. revert ns Y. induction ns' as [|n ns' IH]; intros [|m ns] Y; try discriminate; [reflexivity|].
          cbn in Y. injection Y as -> Y. f_equal. apply IH. exact Y. }
        destruct (I1 (base ++ ns)) as [X|[(X & _)|(_ & p2 & d2 & n2 & c2 & Z & W & V & _)]]; [congruence|congruence|].
        apply app_inv_head in V. subst n2. pose proof (clean_unique _ _ _ C W) as <-. exfalso. eapply N, Z.
    + split; [apply B1; reflexivity|]. intro G. contradiction.
Qed.

(** A copy into a directory, of a pack whose paths stay below: whatever
    happens, what was there stays but for files with the paths of the pack;
    what is new is files of the pack and directories on the way to them; and if
    the copy succeeds, all files of the pack are there, as the last one of
    their path was. *)
Theorem C171_dir : forall p, exists l e, gives p (l, e) /\
  forall can base s r, clone_dir can base p s = r -> all_clean l ->
    became base l s (snd r) /\
    (fst r = Good -> e = Good /\ (forall q c, ~ In (q, Breaks c) l) /\
       forall q ns c, clean q ns -> latest l q c -> snd r (base ++ ns) = Some (File c)).
Proof.
  intro p. destruct (C170_reads p) as ([l e] & G & R). exists l, e. split; [exact G|].
  intros can base s r <- A. eapply dir_run; [exact A|]. apply R.
Qed.
Print Assumptions C171_dir.

(** The paths of a directory stay below, so its copies always do. *)
Theorem C171_copies : forall p l e, gives p (l, e) ->
  (exists n es, p = DirPack n (Branch es)) \/ (exists es, p = GitPack (Some (Branch es))) -> all_clean l.
Proof.
  intros p l e G H.
  assert (D : forall es, dir_gives (fun _ => true) (Branch es) (l, e) -> all_clean l).
  { clear. intros es (all & A & _ & H) q d I.
    assert (X : exists ns, q = below ns /\ exists d', In (ns, d') all).
    { assert (F : filter (fun x => true) all = all) by (clear; induction all as [|x all IH]; cbn; [reflexivity|rewrite IH; reflexivity]).
      destruct H as [(good & E & S)|(good & p & rest & E & S)]; injection S as -> ->; rewrite F in E; subst all;
        apply in_map_iff in I; destruct I as ((ns & d') & E' & I); injection E' as <- <-; exists ns; (split; [reflexivity|]); exists (Some d').
      - change (ns, Some d') with ((fun x => (fst x, Some (snd x))) (ns, d')). apply in_map. exact I.
      - apply in_or_app. left. change (ns, Some d') with ((fun x => (fst x, Some (snd x))) (ns, d')). apply in_map. exact I. }
    destruct X as (ns & -> & d' & X). apply A in X. inversion X; subst. exists (Plain n :: p). repeat split. discriminate. }
  destruct H as [(n & es & ->)|(es & ->)]; inversion G; subst; [eapply D; eassumption|intros q d []|eapply D; eassumption].
Qed.
Print Assumptions C171_copies.

(** In particular nothing changes outside but directories on the way that were missing. *)
Theorem C171_inside : forall p, exists l e, gives p (l, e) /\
  forall can base s q, all_clean l ->
    ~ (exists r, q = base ++ r) -> ~ above q base ->
    snd (clone_dir can base p s) q = s q.
Proof.
  intro p. destruct (C171_dir p) as (l & e & G & H). exists l, e. split; [exact G|].
  intros can base s q A O N. destruct (H can base s _ eq_refl A) as [B _].
  destruct (B q) as [X|[(_ & _ & p' & d & ns & _ & C & r & Y & Z)|(_ & p' & d & ns & c & _ & _ & -> & _)]]; [exact X| |].
  - exfalso. clear -O N Z Y. revert base O N Z. induction q as [|x q IH]; intros base O N Z.
    + destruct base as [|b base]; [apply O; exists []; reflexivity|]. apply N. exists (b :: base). split; [discriminate|reflexivity].
    + destruct base as [|b base]; [apply O; exists (x :: q); reflexivity|]. injection Z as <- Z. apply (IH base); [| |exact Z].
      * intros (t & ->). apply O. exists t. reflexivity.
      * intros (t & T & ->). apply N. exists t. split; [exact T|reflexivity].
  - exfalso. apply O. eauto.
Qed.
Print Assumptions C171_inside.

Definition home : fs := set [] Dir (set [Plain 1] Dir (set [Plain 9] (File 3) (fun _ => None))).

(** An archive with a path that goes up changes a file outside of the directory. *)
Theorem C171_outside_refuted : exists es base s s' q,
  clone_dir (fun _ => true) base (TarPack (Some es)) s = (Good, s') /\
  ~ (exists r, q = base ++ r) /\ ~ above q base /\ s q = Some (File 3) /\ s' q = Some (File 7).
Proof.
  exists [Entry (mkPath false [Up; Nm (Plain 9)]) (mkPath false [Up; Nm (Plain 9)]) (Whole 7)], [Plain 1], home.
  eexists. exists [Plain 9]. split; [reflexivity|]. split; [intros (r & E); discriminate|].
  split; [intros (r & _ & E); discriminate|]. split; reflexivity.
Qed.
Print Assumptions C171_outside_refuted.

(** So does one with a path from the root; the root itself is a panic. *)
Theorem C171_absolute : exists es base s s' q,
  clone_dir (fun _ => true) base (TarPack (Some es)) s = (Good, s') /\
  ~ (exists r, q = base ++ r) /\ s q = Some (File 3) /\ s' q = Some (File 7) /\
  fst (clone_dir (fun _ => true) base (TarPack (Some [Entry (mkPath true []) (mkPath true []) (Whole 7)])) s) = Panic.
Proof.
  exists [Entry (mkPath true [Nm (Plain 9)]) (mkPath true [Nm (Plain 9)]) (Whole 7)], [Plain 1], home.
  eexists. exists [Plain 9]. split; [reflexivity|]. split; [intros (r & E); discriminate|]. repeat split.
Qed.
Print Assumptions C171_absolute.

(** A file with a long path arrives under the short one of its header. *)
Theorem C171_long_refuted : exists full p s',
  clone_dir (fun _ => true) [Plain 1] (TarPack (Some [Entry full p (Whole 7)])) home = (Good, s') /\
  clean full [Plain 2; Plain 3] /\ s' [Plain 1; Plain 2; Plain 3] = None /\ s' [Plain 1; Plain 4] = Some (File 7).
Proof.
  exists (mkPath false [Nm (Plain 2); Nm (Plain 3)]), (mkPath false [Nm (Plain 4)]). eexists.
  split; [reflexivity|]. split; [repeat split; discriminate|]. split; reflexivity.
Qed.
Print Assumptions C171_long_refuted.

(** ** A case *)
Definition a_dir : tree :=
  Branch [(Plain 1, Leaf (Some (Whole 10))); (Dot 2, Leaf (Some (Whole 20)));
          (Plain 3, Branch [(Plain 4, Leaf (Some (Whole 30))); (Plain 5, Lost)]); (Plain 6, Leaf None)].

Example C170_nonvacuous :
  distinct a_dir /\
  clone_map (DirPack (Plain 0) a_dir) [] = (Bad, [(rel [Plain 3; Plain 4], 30); (rel [Plain 1], 10)]) /\
  read_filtered (DirPack (Plain 0) a_dir) (fun p => negb (length (comps p) =? 1)) put_map [] = (Good, [(rel [Plain 3; Plain 4], 30)]) /\
  file_in a_dir [Plain 3; Plain 4] (Some (Whole 30)).
Proof.
  split; [|split; [reflexivity|split; [reflexivity|]]].
  - constructor; [repeat constructor; cbn; intuition discriminate|].
    intros n t H. repeat (destruct H as [H|H]; [injection H as <- <-; try constructor|]); [..|destruct H];
      [repeat constructor; cbn; intuition discriminate|].
    intros n t H. repeat (destruct H as [H|H]; [injection H as <- <-; constructor|]). destruct H.
  - eapply file_below; [do 2 right; left; reflexivity|]. eapply file_below; [left; reflexivity|constructor].
Qed.

Example C171_nonvacuous :
  exists s', clone_dir (fun _ => true) [Plain 1] (MapPack [(rel [Plain 2; Plain 3], 5); (rel [Plain 4], 6)]) home = (Good, s') /\
    s' [Plain 1; Plain 2; Plain 3] = Some (File 5) /\ s' [Plain 1; Plain 2] = Some Dir /\ s' [Plain 1; Plain 4] = Some (File 6) /\
    s' [Plain 9] = Some (File 3) /\ s' [Plain 8] = None /\
    all_clean (map (fun x => (fst x, Whole (snd x))) [(rel [Plain 2; Plain 3], 5); (rel [Plain 4], 6)]).
Proof.
  eexists. split; [reflexivity|]. do 5 (split; [reflexivity|]).
  intros p d [H|[H|[]]]; injection H as <- _; eexists; repeat split; discriminate.
Qed.
