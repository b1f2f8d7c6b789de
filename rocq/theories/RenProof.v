(** Renaming a definition to a fresh name changes nothing else. *)
From Coq Require Import List Arith Bool Lia.
From Verif Require Import ScopeModel ScopeSpec ScopeProof ScopeImport ScopeCheck ScopeFile RefsModel RefsFile RenModel RenSpec.
Import ListNotations.

Section Ren.
Variables (S : nat -> bool) (new : nat) (isd : tgt -> bool) (t' : tgt).
Hypothesis NZ : new <> 0.
Hypothesis HV : forall s x, isd (TDef (DVar s x)) = true -> t' = TDef (DVar s new).
Hypothesis HF : forall s x, isd (TDef (DFunc s x)) = true -> t' = TDef (DFunc s new).
Hypothesis HL : forall t, isd t = true -> exists d, t = TDef d /\ local d = true.
Hypothesis HT : exists d, t' = TDef d /\ local d = true.

Definition rt (t : tgt) : tgt := if isd t then t' else t.
Definition ru (u : use) : use := let '(b, s, t) := u in (b, s, rt t).

Record rel (E E' : env) : Prop := {
  r_d : forall x t, x <> 0 -> find x E = Some t -> isd t = true -> find new E' = Some t';
  r_o : forall x t, x <> 0 -> find x E = Some t -> isd t = false -> find x E' = Some t;
  r_n : forall x, x <> 0 -> x <> new -> find x E = None -> find x E' = None;
  r_f : find new E = None;
  r_t : find new E' = None \/ find new E' = Some t' /\ exists t, isd t = true }.

Lemma not_isd t : (forall d, t = TDef d -> local d = false) -> isd t = false.
Proof.
  intros H. destruct (isd t) eqn:E; [|reflexivity]. destruct (HL t E) as [d [-> L]]. rewrite (H d eq_refl) in L. discriminate.
Qed.

Lemma rel_nil : rel [] [].
Proof. split; try discriminate; auto. Qed.

Lemma rel_cons x t s E E' :
  x <> new -> S s = isd t -> rel E E' -> rel ((x, t) :: E) ((put S new s x, rt t) :: E').
Proof.
  intros N Hs [a b c f g]. unfold put, rt. rewrite Hs. destruct (isd t) eqn:D.
  - split; cbn [find].
    + intros y u Z F U. now rewrite Nat.eqb_refl.
    + intros y u Z F U. destruct (Nat.eqb y x) eqn:Q; [injection F as <-; congruence|].
      destruct (Nat.eqb y new) eqn:Q'; [apply Nat.eqb_eq in Q'; subst; congruence|]. now apply b.
    + intros y Z Y F. destruct (Nat.eqb y x); [discriminate|]. apply Nat.eqb_neq in Y. rewrite Y. apply Nat.eqb_neq in Y. now apply c.
    + apply Nat.eqb_neq in N. rewrite Nat.eqb_sym in N. now rewrite N.
    + right. rewrite Nat.eqb_refl. split; [reflexivity|]. now exists t.
  - apply Nat.eqb_neq in N. rewrite Nat.eqb_sym in N. split; cbn [find].
    + intros y u Z F U. rewrite N. destruct (Nat.eqb y x); [injection F as <-; congruence|]. eapply a; eauto.
    + intros y u Z F U. destruct (Nat.eqb y x); [exact F|]. now apply b.
    + intros y Z Y F. destruct (Nat.eqb y x); [discriminate|]. now apply c.
    + now rewrite N.
    + now rewrite N.
Qed.

Lemma rel_keep x t E E' : x <> new -> isd t = false -> rel E E' -> rel ((x, t) :: E) ((x, t) :: E').
Proof.
  intros N D [a b c f g]. apply Nat.eqb_neq in N. rewrite Nat.eqb_sym in N. split; cbn [find].
  - intros y u Z F U. rewrite N. destruct (Nat.eqb y x); [injection F as <-; congruence|]. eapply a; eauto.
  - intros y u Z F U. destruct (Nat.eqb y x); [exact F|]. now apply b.
  - intros y Z Y F. destruct (Nat.eqb y x); [discriminate|]. now apply c.
  - now rewrite N.
  - now rewrite N.
Qed.

Lemma rel_app A A' E E' : rel A A' -> rel E E' -> rel (A ++ E) (A' ++ E').
Proof.
  intros [a b c f g] [h i j k l]. split.
  - intros x t Z F D. rewrite find_app in F |- *. destruct (find x A) as [u|] eqn:Q.
    + injection F as ->. now rewrite (a x t Z Q D).
    + destruct g as [g|[g _]]; rewrite g; [eapply h; eauto|reflexivity].
  - intros x t Z F D. rewrite find_app in F |- *. destruct (find x A) as [u|] eqn:Q.
    + injection F as ->. now rewrite (b x t Z Q D).
    + assert (X : x <> new) by (intros ->; congruence). rewrite (c x Z X Q). now apply i.
  - intros x Z N F. rewrite find_app in F |- *. destruct (find x A) as [u|] eqn:Q; [discriminate|].
    rewrite (c x Z N Q). now apply j.
  - rewrite find_app, f. exact k.
  - rewrite find_app. destruct g as [g|[g g']]; rewrite g; auto.
Qed.

Variables W W' : world.
Hypothesis WO : forall m, rel (offers W m) (offers W' m).
Hypothesis WM : w_members W' = w_members W.
Hypothesis WL : forall m x, library W' m x = library W m x.

(** The renaming changes the names that mean the definition, and these are
    no sources of imports. *)
Definition fits (us : list use) : Prop :=
  forall b s t, In (b, s, t) us -> S s = isd t /\ (b = true -> isd t = false).

Lemma fits_app u v : fits (u ++ v) -> fits u /\ fits v.
Proof. intros H. split; intros b s t I; apply H; apply in_or_app; auto. Qed.

Lemma look_ren E E' m s x :
  rel E E' -> x <> 0 -> x <> new -> S s = isd (look W E m x) ->
  look W' E' m (put S new s x) = rt (look W E m x).
Proof.
  intros [a b c f g] Z N Hs. unfold put, rt. rewrite Hs. unfold look in *.
  destruct (find x E) as [t|] eqn:Q.
  - destruct (isd t) eqn:D; [now rewrite (a x t Z Q D)|now rewrite (b x t Z Q D)].
  - assert (X : isd (match library W m x with Some v => TVal v | None => TFree end) = false)
      by (apply not_isd; intros d; destruct (library W m x); discriminate).
    rewrite X in *. rewrite (c x Z N Q), WL. reflexivity.
Qed.

Definition okx (x : nat) : Prop := x <> new /\ x <> 0.

Lemma bind_ren l : forall E E', rel E E' -> (forall x, In x (map snd l) -> okx x) -> fits (sites l) ->
  rel (bind l ++ E) (bind (map (putp S new) l) ++ E')
  /\ sites (map (putp S new) l) = map ru (sites l).
Proof.
  induction l as [|[s x] l IH]; intros E E' R N F; [auto|].
  destruct (IH E E' R) as [A B]; [intros y Y; apply N; now right|intros b u t I; apply F; now right|].
  destruct (F false s (TDef (DVar s x))) as [Hs _]; [now left|].
  assert (Q : TDef (DVar s (put S new s x)) = rt (TDef (DVar s x))).
  { unfold put, rt. rewrite Hs. destruct (isd (TDef (DVar s x))) eqn:D; [symmetry; now apply HV with x|reflexivity]. }
  cbn [bind sites map putp fst snd app] in *. split.
  - rewrite Q. apply rel_cons; [apply N; now left|exact Hs|exact A].
  - unfold here, ru at 1. cbn. rewrite Q. f_equal. exact B.
Qed.

Lemma pvars_ren p : pvars (ren_pat S new p) = map (putp S new) (pvars p).
Proof.
  induction p using pat_ind'; [reflexivity|reflexivity|]. cbn [ren_pat pvars].
  induction H as [|p ps Hp Hps IH]; [reflexivity|]. cbn [map fold_left].
  rewrite (pvars_tuple ps (pvars p ++ [])), (pvars_tuple (map _ ps) (pvars (ren_pat S new p) ++ [])).
  rewrite map_app, !app_nil_r. now rewrite IH, Hp.
Qed.

Lemma qvars_ren q : qvars (ren_param S new q) = map (putp S new) (qvars q).
Proof. destruct q; try reflexivity. apply pvars_ren. Qed.

Lemma vars_ren ps : vars (map (fun '(q, d) => (ren_param S new q, ren S new d)) ps) = map (putp S new) (vars ps).
Proof.
  induction ps as [|[q d] ps IH]; [reflexivity|]. cbn [map]. rewrite !vars_cons, map_app, qvars_ren. now rewrite IH.
Qed.

(** Imports. *)
Lemma modof_ren E E' c :
  rel E E' -> (forall x, In x (src_idents c) -> okx x) -> fits (src_uses W true E c) ->
  modof W' E' (ren_src S new c) = modof W E c.
Proof.
  intros R N F. destruct c as [s [f|] stem|s x|t s x|]; try reflexivity. cbn [modof ren_src].
  destruct (N x) as [N1 N2]; [now left|]. destruct (F true s (look W E false x)) as [Hs Ht]; [now left|].
  rewrite (look_ren E E' false s x R N2 N1 Hs). unfold rt. rewrite (Ht eq_refl), WM. reflexivity.
Qed.

Lemma src_uses_ren E E' b c :
  rel E E' -> (forall x, In x (src_idents c) -> okx x) -> fits (src_uses W b E c) ->
  src_uses W' b E' (ren_src S new c) = map ru (src_uses W b E c).
Proof.
  intros R. induction c as [s f stem|s x|t IH s x|]; intros N F; try reflexivity.
  - cbn [src_uses ren_src map ru]. destruct (N x) as [N1 N2]; [now left|].
    destruct (F b s (look W E false x)) as [Hs _]; [now left|]. now rewrite (look_ren E E' false s x R N2 N1 Hs).
  - cbn [src_uses ren_src]. apply IH; [intros y Y; apply N; now right|exact F].
Qed.

Lemma isd_mtgt m : isd (mtgt m) = false.
Proof. apply not_isd. intros d. destruct m; discriminate. Qed.

Lemma rt_mtgt m : rt (mtgt m) = mtgt m.
Proof. unfold rt. now rewrite isd_mtgt. Qed.

Lemma find_ren m s x :
  x <> 0 -> x <> new ->
  S s = isd (match find x (offers W m) with Some t => t | None => TUnknown end) ->
  match find (put S new s x) (offers W' m) with Some t => t | None => TUnknown end
  = rt (match find x (offers W m) with Some t => t | None => TUnknown end).
Proof.
  intros Z N Hs. destruct (WO m) as [a b c f g]. unfold put, rt. rewrite Hs.
  destruct (find x (offers W m)) as [t|] eqn:Q.
  - destruct (isd t) eqn:D; [now rewrite (a x t Z Q D)|now rewrite (b x t Z Q D)].
  - assert (X : isd TUnknown = false) by (apply not_isd; discriminate). rewrite X in *. now rewrite (c x Z N Q).
Qed.

Lemma last_map path : path <> [] -> List.last (map (putp S new) path) (0, 0) = putp S new (List.last path (0, 0)).
Proof.
  induction path as [|p path IH]; [congruence|]. intros _. destruct path as [|q path]; [reflexivity|].
  change (List.last (p :: q :: path) (0, 0)) with (List.last (q :: path) (0, 0)).
  rewrite <- IH by discriminate. reflexivity.
Qed.

Lemma last_in path : path <> [] -> In (List.last path (0, 0)) path.
Proof.
  intros N. rewrite (app_removelast_last (0, 0) N) at 2. apply in_or_app. right. now left.
Qed.

Lemma item_ren m it E E' :
  rel E E' -> (forall x, In x (map snd (fst it) ++ match snd it with Some (_, x) => [x] | None => [] end) -> okx x) ->
  fits (snd (sem_item W m it E)) ->
  let it' := (map (putp S new) (fst it), option_map (putp S new) (snd it)) in
  rel (fst (sem_item W m it E)) (fst (sem_item W' m it' E'))
  /\ snd (sem_item W' m it' E') = map ru (snd (sem_item W m it E)).
Proof.
  intros R N F. destruct it as [path o]. cbn [fst snd] in *. cbn zeta.
  unfold sem_item in *.
  destruct (List.last path (0, 0)) as [so xo] eqn:EL.
  (* the item *)
  assert (FS : S so = isd (item_tgt W m path)).
  { destruct o as [[sn xn]|]; apply (F false so (item_tgt W m path)); now left. }
  assert (T : List.last (map (putp S new) path) (0, 0) = (so, put S new so xo)
              /\ item_tgt W' m (map (putp S new) path) = rt (item_tgt W m path)
              /\ (path = [] -> xo = 0 /\ isd (item_tgt W m path) = false) /\ (path <> [] -> okx xo)).
  { assert (U : rt TUnknown = TUnknown /\ isd TUnknown = false).
    { assert (X : isd TUnknown = false) by (apply not_isd; discriminate). unfold rt. now rewrite X. }
    destruct path as [|[s1 x1] path].
    - cbn in EL. injection EL as <- <-. cbn [map List.last item_tgt]. destruct U as [U1 U2]. split.
      + cbn [item_tgt] in FS. unfold put. rewrite FS, U2. reflexivity.
      + split; [now rewrite U1|]. split; [auto|congruence].
    - assert (L : List.last (map (putp S new) ((s1, x1) :: path)) (0, 0) = (so, put S new so xo))
        by (rewrite last_map by discriminate; rewrite EL; reflexivity).
      split; [exact L|]. split; [|split; [discriminate|]].
      + destruct path as [|p path].
        * cbn in EL. injection EL as <- <-. cbn [map putp fst snd item_tgt] in *.
          destruct (N x1) as [N1 N2]; [now left|]. now apply find_ren.
        * cbn [map item_tgt]. now destruct U as [-> _].
      + intros _. apply N. apply in_or_app. left. apply in_map_iff. exists (so, xo). split; [reflexivity|].
        rewrite <- EL. apply last_in. discriminate. }
  destruct T as [T1 [T2 [T3 T4]]]. rewrite T1, T2.
  destruct o as [[sn xn]|]; cbn [option_map putp fst snd map].
  - destruct (F false sn (item_tgt W m path)) as [Fn _]; [right; now left|]. split.
    + apply rel_cons; [apply N; apply in_or_app; right; now left|exact Fn|exact R].
    + reflexivity.
  - split; [|reflexivity]. apply rel_cons; [|exact FS|exact R].
    destruct path as [|p path]; [destruct T3 as [-> _]; congruence|apply T4; discriminate].
Qed.

Lemma items_ren m l : forall E E',
  rel E E' -> (forall x, In x (im_idents (Items l)) -> okx x) -> fits (snd (sem_items W m l E)) ->
  let l' := map (fun '(path, o) => (map (putp S new) path, option_map (putp S new) o)) l in
  rel (fst (sem_items W m l E)) (fst (sem_items W' m l' E'))
  /\ snd (sem_items W' m l' E') = map ru (snd (sem_items W m l E)).
Proof.
  induction l as [|[path o] l IH]; intros E E' R N F; [cbn; auto|]. cbn zeta in *. cbn [map sem_items] in *.
  pose proof (item_ren m (path, o) E E' R) as X. cbn [fst snd] in X. cbn zeta in X.
  destruct (sem_item W m (path, o) E) as [E1 u1].
  destruct (sem_item W' m (map (putp S new) path, option_map (putp S new) o) E') as [E1' u1'].
  cbn [fst snd] in X. specialize (IH E1 E1').
  destruct (sem_items W m l E1) as [E2 u2].
  destruct (sem_items W' m (map (fun '(path, o) => (map (putp S new) path, option_map (putp S new) o)) l) E1') as [E2' u2'].
  cbn [fst snd] in *. apply fits_app in F. destruct F as [F1 F2].
  destruct X as [X1 X2]; [intros x Hx; apply N; cbn; apply in_or_app; now left|exact F1|].
  destruct IH as [I1 I2]; [exact X1|intros x Hx; apply N; cbn; apply in_or_app; now right|exact F2|].
  split; [exact I1|]. rewrite map_app. congruence.
Qed.

Lemma import_ren c o im E E' :
  rel E E' -> (forall x, In x (src_idents c ++ oname o ++ im_idents im) -> okx x) ->
  (forall s f stem, c = SFile s f stem -> stem <> new) ->
  fits (snd (sem_import W c o im E)) ->
  rel (fst (sem_import W c o im E)) (fst (sem_import W' (ren_src S new c) (option_map (putp S new) o) (ren_imports S new im) E'))
  /\ snd (sem_import W' (ren_src S new c) (option_map (putp S new) o) (ren_imports S new im) E')
     = map ru (snd (sem_import W c o im E)).
Proof.
  intros R N NS F.
  assert (Nc : forall x, In x (src_idents c) -> okx x) by (intros x Hx; apply N; apply in_or_app; now left).
  assert (No : forall x, In x (oname o) -> okx x) by (intros x Hx; apply N; apply in_or_app; right; apply in_or_app; now left).
  assert (Ni : forall x, In x (im_idents im) -> okx x) by (intros x Hx; apply N; apply in_or_app; right; apply in_or_app; now right).
  unfold sem_import in *.
  set (m := modof W E c) in *.
  set (u := (src_files c ++ src_uses W true E c) ++ path_uses c) in *.
  set (r1 := match o with Some (sn, xn) => ((xn, mtgt m) :: E, [here sn (mtgt m)]) | None => _ end) in *.
  assert (Fu : fits u /\ fits (snd r1)).
  { destruct r1 as [E1 u1]. cbn [snd]. destruct im as [| |l].
    - now apply fits_app in F.
    - now apply fits_app in F.
    - destruct (sem_items W m l E1) as [E2 u2]. cbn [snd] in F. apply fits_app in F. destruct F as [F1 F2].
      apply fits_app in F2. split; [exact F1|apply F2]. }
  destruct Fu as [Fu F1].
  assert (Fs : fits (src_uses W true E c)).
  { intros b s t I. apply Fu. unfold u. apply in_or_app. left. apply in_or_app. now right. }
  rewrite (modof_ren E E' c R Nc Fs). fold m.
  assert (Q : (src_files (ren_src S new c) ++ src_uses W' true E' (ren_src S new c)) ++ path_uses (ren_src S new c) = map ru u).
  { unfold u. rewrite !map_app, (src_uses_ren E E' true c R Nc Fs).
    assert (X : forall f, rt (TMod f) = TMod f) by (intros f; exact (rt_mtgt (MFile f))).
    destruct c as [s [f|] stem|s x|t s x|]; cbn [ren_src src_files path_uses map ru here]; try reflexivity.
    now rewrite X. }
  rewrite Q.
  set (r1' := match option_map (putp S new) o with Some (sn, xn) => ((xn, mtgt m) :: E', [here sn (mtgt m)]) | None => _ end).
  assert (R1 : rel (fst r1) (fst r1') /\ snd r1' = map ru (snd r1)).
  { subst r1 r1'. destruct o as [[sn xn]|]; cbn [option_map putp fst snd] in *.
    - destruct (F1 false sn (mtgt m)) as [Hs _]; [now left|]. rewrite isd_mtgt in Hs. split.
      + unfold put. rewrite Hs. apply rel_keep; [apply No; now left|apply isd_mtgt|exact R].
      + cbn. now rewrite rt_mtgt.
    - destruct im as [| |l]; cbn [ren_imports]; try (split; [exact R|reflexivity]).
      destruct c as [s [f|] stem|s x|t s x|]; cbn [ren_src fst snd]; try (split; [exact R|reflexivity]).
      + split; [|reflexivity]. apply rel_keep; [eapply NS; reflexivity|exact (isd_mtgt (MFile f))|exact R].
      + destruct (Fs true s (look W E false x)) as [Hs Ht]; [now left|]. unfold put. rewrite Hs, (Ht eq_refl).
        split; [|reflexivity]. apply rel_keep; [apply Nc; now left|apply isd_mtgt|exact R]. }
  destruct R1 as [R1 Q1].
  clearbody r1'. destruct r1 as [E1 u1]. destruct r1' as [E1' u1']. cbn [fst snd] in R1, Q1. subst u1'.
  destruct im as [| |l]; cbn [ren_imports].
  - cbn [fst snd]. split; [exact R1|]. now rewrite map_app.
  - cbn [fst snd]. split; [apply rel_app; [apply WO|exact R1]|]. now rewrite map_app.
  - pose proof (items_ren m l E1 E1' R1 Ni) as X. cbn zeta in X.
    destruct (sem_items W m l E1) as [E2 u2].
    destruct (sem_items W' m (map (fun '(path, o) => (map (putp S new) path, option_map (putp S new) o)) l) E1') as [E2' u2'].
    cbn [fst snd] in *. apply fits_app in F. destruct F as [_ F2]. apply fits_app in F2. destruct F2 as [_ F2].
    destruct (X F2) as [X1 X2]. split; [exact X1|]. rewrite !map_app. congruence.
Qed.

Definition nm (e : ast) : Prop :=
  (forall x, In x (idents e) -> okx x) /\ (forall x, In x (stems e) -> x <> new).

Definition okr (e : ast) : Prop := forall E E', rel E E' -> nm e -> fits (snd (sem W e E)) ->
  rel (fst (sem W e E)) (fst (sem W' (ren S new e) E'))
  /\ snd (sem W' (ren S new e) E') = map ru (snd (sem W e E)).

Definition nm_all (l : list ast) : Prop :=
  (forall x, In x (idents_all l) -> okx x) /\ (forall x, In x (stems_all l) -> x <> new).

Lemma nm_cons e l : nm_all (e :: l) -> nm e /\ nm_all l.
Proof.
  intros [A B]. split; (split; [intros x X; apply A|intros x X; apply B]); cbn; apply in_or_app; auto.
Qed.

Lemma all_ren l : Forall okr l -> forall E E', rel E E' -> nm_all l -> fits (snd (sem_all W l E)) ->
  rel (fst (sem_all W l E)) (fst (sem_all W' (map (ren S new) l) E'))
  /\ snd (sem_all W' (map (ren S new) l) E') = map ru (snd (sem_all W l E)).
Proof.
  induction 1 as [|e l He Hl IH]; intros E E' R N F; [cbn; auto|].
  cbn [map]. rewrite !sem_all_cons in *. cbn [fst snd] in *. apply nm_cons in N. destruct N as [N1 N2].
  apply fits_app in F. destruct F as [F1 F2]. destruct (He E E' R N1 F1) as [A B].
  destruct (IH _ _ A N2 F2) as [C D]. split; [exact C|]. rewrite map_app. congruence.
Qed.

Fixpoint stems_params (l : list (param * ast)) : list nat :=
  match l with [] => [] | (_, d) :: l' => stems d ++ stems_params l' end.

Lemma defaults_ren ps : Forall (fun qd => okr (snd qd)) ps -> forall E E', rel E E' ->
  (forall x, In x (idents_params ps) -> okx x) -> (forall x, In x (stems_params ps) -> x <> new) ->
  fits (snd (sem_defaults W ps E)) ->
  let ps' := map (fun '(q, d) => (ren_param S new q, ren S new d)) ps in
  rel (fst (sem_defaults W ps E)) (fst (sem_defaults W' ps' E'))
  /\ snd (sem_defaults W' ps' E') = map ru (snd (sem_defaults W ps E)).
Proof.
  cbn zeta. induction 1 as [|[q e] l He Hl IH]; intros E E' R N NS F; [cbn; auto|].
  cbn [map]. rewrite !sem_defaults_cons in *. cbn [idents_params stems_params snd] in *.
  assert (Ne : nm e). { split; [intros x X; apply N|intros x X; apply NS]; rewrite ?in_app_iff; auto. }
  assert (Nl : forall x, In x (idents_params l) -> okx x) by (intros x X; apply N; rewrite !in_app_iff; auto).
  assert (Sl : forall x, In x (stems_params l) -> x <> new) by (intros x X; apply NS; rewrite in_app_iff; auto).
  destruct q; cbn [ren_param fst snd] in *; try (now apply IH).
  apply fits_app in F. destruct F as [F1 F2]. destruct (He E E' R Ne F1) as [A B].
  destruct (IH _ _ A Nl Sl F2) as [C D]. split; [exact C|]. rewrite map_app. congruence.
Qed.

Lemma vars_idents ps x : In x (map snd (vars ps)) -> In x (idents_params ps).
Proof.
  induction ps as [|[q e] ps IH]; [intros []|]. rewrite vars_cons, map_app, in_app_iff. cbn [idents_params].
  rewrite !in_app_iff. intros [H|H]; auto.
Qed.

Lemma opt_list e : (match e with Some e => [ren S new e] | None => [] end) = map (ren S new) (match e with Some e => [e] | None => [] end).
Proof. destruct e; reflexivity. Qed.

Theorem ren_ok e : okr e.
Proof.
  induction e using ast_ind'; intros E E' R [N NS] F.
  - cbn. auto.
  - cbn [sem ren fst snd map ru here] in *. destruct (N x) as [N1 N2]; [now left|].
    destruct (F false s (look W E false x)) as [Hs _]; [now left|]. rewrite (look_ren E E' false s x R N2 N1 Hs). auto.
  - cbn [sem ren fst snd map ru here] in *. destruct (N x) as [N1 N2]; [now left|].
    destruct (F false s (look W E true x)) as [Hs _]; [now left|]. rewrite (look_ren E E' true s x R N2 N1 Hs). auto.
  - apply (all_ren es H E E' R (conj N NS) F).
  - (* Keyed *)
    cbn [ren]. rewrite !sem_keyed in *. cbn zeta in *. cbn [fst snd] in *. apply fits_app in F. destruct F as [F1 F2].
    cbn [idents stems] in N, NS.
    assert (N1 : nm e1) by (split; [intros x X; apply N|intros x X; apply NS]; apply in_or_app; auto).
    assert (N2 : nm e2) by (split; [intros x X; apply N|intros x X; apply NS]; apply in_or_app; auto).
    destruct c; cbn [fst snd app] in *.
    + now apply IHe2.
    + destruct (IHe1 E E' R N1 F1) as [A B]. destruct (IHe2 _ _ A N2 F2) as [C D]. split; [exact C|]. rewrite map_app. congruence.
  - (* Blk *)
    destruct (all_ren es H E E' R (conj N NS) F) as [A B]. split; [exact R|exact B].
  - apply (all_ren es H E E' R (conj N NS) F).
  - (* Let *)
    cbn [ren]. rewrite !sem_let in *. cbn [fst snd] in *. apply fits_app in F. destruct F as [F1 F2].
    cbn [idents stems] in N, NS. rewrite pvars_ren.
    assert (X : rel (fst (sem_opt W i E)) (fst (sem_opt W' (match i with Some e => Some (ren S new e) | None => None end) E'))
       /\ snd (sem_opt W' (match i with Some e => Some (ren S new e) | None => None end) E') = map ru (snd (sem_opt W i E))).
    { destruct i as [e|]; [|cbn; auto]. apply H; [exact R| |exact F1].
      split; [intros x X; apply N; apply in_or_app; now left|exact NS]. }
    destruct X as [A B].
    destruct (bind_ren (pvars p) _ _ A) as [C D]; [intros x X; apply N; apply in_or_app; now right|exact F2|].
    split; [exact C|]. rewrite map_app. congruence.
  - (* Fun *)
    cbn [ren]. rewrite !sem_fun in *. cbn zeta in *. cbn [fst snd] in *.
    apply fits_app in F. destruct F as [F1 F]. apply fits_app in F. destruct F as [F2 F]. apply fits_app in F. destruct F as [F3 F4].
    change (idents (Fun s name ps e)) with (oname name ++ idents_params ps ++ idents e) in N.
    change (stems (Fun s name ps e)) with (stems_params ps ++ stems e) in NS.
    destruct (defaults_ren ps H E E' R) as [A B];
      [intros x X; apply N; rewrite !in_app_iff; auto|intros x X; apply NS; apply in_or_app; now left|exact F2|].
    cbn zeta in B. rewrite vars_ren.
    assert (SF : rel (self_of name ++ fst (sem_defaults W ps E))
                     (self_of (option_map (putp S new) name) ++ fst (sem_defaults W' (map (fun '(q, d) => (ren_param S new q, ren S new d)) ps) E'))
                 /\ at_self (option_map (putp S new) name) = map ru (at_self name)).
    { destruct name as [[sn xn]|]; [|cbn; auto]. cbn [self_of at_self option_map putp fst snd app map] in *.
      destruct (F1 false sn (TDef (DFunc sn xn))) as [Hs _]; [now left|].
      assert (Q : TDef (DFunc sn (put S new sn xn)) = rt (TDef (DFunc sn xn))).
      { unfold put, rt. rewrite Hs. destruct (isd (TDef (DFunc sn xn))) eqn:D; [symmetry; now apply HF with xn|reflexivity]. }
      split.
      - rewrite Q. apply rel_cons; [apply N; apply in_or_app; left; now left|exact Hs|exact A].
      - cbn. unfold here. now rewrite Q. }
    destruct SF as [A1 B1].
    destruct (bind_ren (vars ps) _ _ A1) as [C D];
      [intros x X; apply N; rewrite !in_app_iff; right; left; now apply vars_idents|exact F3|].
    destruct (IHe _ _ C) as [G I];
      [split; [intros x X; apply N; rewrite !in_app_iff; auto|intros x X; apply NS; apply in_or_app; now right]|exact F4|].
    split; [exact A1|]. rewrite !map_app. congruence.
  - (* Import *)
    apply import_ren; [exact R|exact N| |exact F]. intros s0 f stem ->. apply NS. now left.
  - (* Include *)
    cbn [ren sem fst snd] in *. split; [exact R|]. apply fits_app in F. destruct F as [F1 F2].
    rewrite map_app, (src_uses_ren E E' false c R N F1).
    destruct c as [s [f|] stem|s x|t s x|]; cbn [ren_src path_uses map ru here]; try reflexivity.
    assert (X : rt (TMod f) = TMod f) by exact (rt_mtgt (MFile f)). now rewrite X.
  - (* For *)
    cbn [ren]. rewrite !sem_for in *. cbn zeta in *. cbn [fst snd] in *. rewrite pvars_ren.
    apply fits_app in F. destruct F as [F1 F]. apply fits_app in F. destruct F as [F2 F3].
    cbn [idents stems] in N, NS.
    destruct (IHe1 E E' R) as [A B];
      [split; [intros x X; apply N; rewrite !in_app_iff; auto|intros x X; apply NS; apply in_or_app; now left]|exact F1|].
    destruct (bind_ren (pvars p) _ _ A) as [C D]; [intros x X; apply N; apply in_or_app; now left|exact F2|].
    destruct (IHe2 _ _ C) as [G I];
      [split; [intros x X; apply N; rewrite !in_app_iff; auto|intros x X; apply NS; apply in_or_app; now right]|exact F3|].
    split; [exact A|]. rewrite !map_app. congruence.
  - (* While *)
    cbn [ren]. rewrite !sem_while in *. apply (all_ren [e1; e2]); [foralls|exact R| |exact F].
    split; cbn; rewrite ?app_nil_r; assumption.
  - (* If *)
    cbn [ren]. rewrite !sem_if in *.
    set (l := e1 :: e2 :: match e3 with Some e => [e] | None => [] end) in *.
    assert (X : ren S new e1 :: ren S new e2 :: match (match e3 with Some e => Some (ren S new e) | None => None end) with Some e => [e] | None => [] end = map (ren S new) l)
      by (unfold l; destruct e3; reflexivity).
    rewrite X. apply all_ren; [unfold l; destruct e3; foralls|exact R| |exact F].
    unfold l. split; destruct e3; cbn; rewrite ?app_nil_r; cbn in N, NS; rewrite ?app_nil_r in N, NS; assumption.
  - (* Assign *)
    cbn [ren sem]. cbn [idents stems] in N, NS.
    specialize (IHe E E' R). cbn [sem] in F. destruct (sem W e E) as [E1 u1]. destruct (sem W' (ren S new e) E') as [E1' u1'].
    cbn [fst snd] in *. apply fits_app in F. destruct F as [F1 F2].
    destruct IHe as [A B]; [split; [intros x X; apply N; apply in_or_app; now right|exact NS]|exact F1|].
    split; [exact A|]. rewrite map_app, B. f_equal. rewrite pvars_ren, !map_map. apply map_ext_in. intros [s x] I.
    cbn [putp fst snd ru here]. destruct (N x) as [N1 N2].
    { apply in_or_app. left. apply in_map_iff. exists (s, x). auto. }
    destruct (F2 false s (look W E1 false x)) as [Hs _]; [apply in_map_iff; exists (s, x); auto|].
    unfold here. now rewrite (look_ren E1 E1' false s x A N2 N1 Hs).
  - (* SetR *)
    cbn [ren]. rewrite !sem_set in *.
    set (l := match c with Some e => [e] | None => [] end ++ e :: args) in *.
    assert (X : match (match c with Some e => Some (ren S new e) | None => None end) with Some e => [e] | None => [] end ++ ren S new e :: map (ren S new) args = map (ren S new) l)
      by (unfold l; destruct c; reflexivity).
    rewrite X. apply all_ren; [|exact R| |exact F].
    + unfold l. destruct c; cbn [app]; repeat (apply Forall_cons; [assumption|]); assumption.
    + change (idents (SetR e args c)) with (idents e ++ idents_all args ++ match c with Some e => idents e | None => [] end) in N.
      change (stems (SetR e args c)) with (stems e ++ stems_all args ++ match c with Some e => stems e | None => [] end) in NS.
      unfold l. split; intros x X'; [apply N|apply NS]; rewrite !in_app_iff;
        destruct c; cbn [app idents_all stems_all] in X'; rewrite ?in_app_iff in X'; tauto.
  - (* Show *)
    cbn [ren]. rewrite !sem_show in *.
    set (l := match s with Some e => [e] | None => [] end ++ [e]) in *.
    assert (X : match (match s with Some e => Some (ren S new e) | None => None end) with Some e => [e] | None => [] end ++ [ren S new e] = map (ren S new) l)
      by (unfold l; destruct s; reflexivity).
    rewrite X. apply all_ren; [unfold l; destruct s; cbn [app]; foralls|exact R| |exact F].
    cbn [idents stems] in N, NS.
    unfold l. split; destruct s; cbn [app idents_all stems_all]; rewrite ?app_nil_r; cbn [app] in N, NS; assumption.
  - (* Context *)
    cbn [ren sem fst snd] in *. destruct (IHe E E' R (conj N NS) F) as [_ B]. auto.
  - (* Field *)
    cbn [ren]. rewrite !sem_field in *. cbn [fst snd] in *. apply fits_app in F. destruct F as [F1 F2].
    cbn [idents stems] in N, NS.
    assert (Ne : nm e) by (split; [intros y Y; apply N; apply in_or_app; now left|exact NS]).
    destruct (IHe E E' R Ne F1) as [A B]. split; [exact A|]. rewrite map_app, B. f_equal.
    destruct e; cbn [ren field_uses]; try reflexivity.
    cbn [sem fst snd] in *. cbn [field_uses] in F2.
    destruct Ne as [Ne _]. destruct (Ne x0) as [N1 N2]; [now left|].
    destruct (F1 false s0 (look W E false x0)) as [Hs _]; [now left|].
    rewrite (look_ren E E' false s0 x0 R N2 N1 Hs).
    destruct (N x) as [N3 N4]; [apply in_or_app; right; now left|].
    unfold rt. destruct (look W E false x0) as [d|f|v|v y| |] eqn:LK.
    + destruct HT as [d' [-> _]]. destruct (isd (TDef d)); reflexivity.
    + assert (X : isd (TMod f) = false) by (apply not_isd; discriminate). rewrite X.
      cbn [map ru here]. unfold here.
      destruct (F2 false s (match find x (offers W (MFile f)) with Some t => t | None => TUnknown end)) as [Hf _]; [now left|].
      now rewrite (find_ren (MFile f) s x N4 N3 Hf).
    + assert (X : isd (TVal v) = false) by (apply not_isd; discriminate). now rewrite X.
    + assert (X : isd (TMember v y) = false) by (apply not_isd; discriminate). now rewrite X.
    + assert (X : isd TUnknown = false) by (apply not_isd; discriminate). now rewrite X.
    + assert (X : isd TFree = false) by (apply not_isd; discriminate). now rewrite X.
Qed.
End Ren.
