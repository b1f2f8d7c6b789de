(** Renaming a definition in the files of a project. *)
From Coq Require Import List Arith Bool Lia.
From Verif Require Import ScopeModel ScopeSpec ScopeProof ScopeImport ScopeCheck ScopeFile RefsModel RefsSpec RefsProof RefsFile RefsProject RenModel RenSpec RenProof.
Import ListNotations.

Definition ts (t : tgt) : tgt := texp (stand t).

Lemma ts_texp e : ts (texp e) = texp e.
Proof.
  assert (X : forall r v, ts (rtgt r v true) = rtgt r v true).
  { intros [[d| | | |]|] [u|]; try reflexivity; destruct d; reflexivity. }
  destruct e; apply X.
Qed.

Lemma ts_local d : local d = true -> ts (TDef d) = TDef d.
Proof. destruct d; try discriminate; reflexivity. Qed.

Lemma ts_back t d : local d = true -> ts t = TDef d -> t = TDef d.
Proof. intros L. destruct t as [[]| | | | |]; cbn; intros E; try discriminate; try exact E; injection E as <-; try reflexivity; discriminate. Qed.

Lemma meaning_snoc files : forall W k g,
  meaning W k (files ++ [g]) = provide (meaning W k files) (k + length files) (map (fun '(x, t) => (x, stand t)) (bound (meaning W k files) g)).
Proof.
  induction files as [|f files IH]; intros W k g; cbn [meaning app length].
  - now rewrite Nat.add_0_r.
  - rewrite IH. now rewrite Nat.add_succ_r.
Qed.

Lemma project_snoc n files : forall W k g,
  project W n k (files ++ [g]) = provide (project W n k files) (k + length files) (exports (project W n k files) n g).
Proof.
  induction files as [|f files IH]; intros W k g; cbn [project app length].
  - now rewrite Nat.add_0_r.
  - rewrite IH. now rewrite Nat.add_succ_r.
Qed.

Lemma ren_files_nth l new files : forall k j,
  nth_error (ren_files l new k files) j = option_map (map (ren (edited l (k + j)) new)) (nth_error files j).
Proof.
  induction files as [|f files IH]; intros k j; [destruct j; reflexivity|].
  destruct j as [|j]; cbn [ren_files nth_error].
  - now rewrite Nat.add_0_r.
  - rewrite IH. now rewrite Nat.add_succ_r.
Qed.

Lemma ren_files_length l new files : forall k, length (ren_files l new k files) = length files.
Proof. induction files as [|f files IH]; intros k; cbn; [reflexivity|now rewrite IH]. Qed.

Lemma firstn_snoc {A} (l : list A) j a : nth_error l j = Some a -> firstn (S j) l = firstn j l ++ [a].
Proof.
  revert j. induction l as [|b l IH]; intros [|j] H; try discriminate.
  - cbn in H. injection H as ->. reflexivity.
  - cbn [firstn app]. f_equal. now apply IH.
Qed.

Lemma meaning_lib files : forall W k, w_members (meaning W k files) = w_members W
  /\ forall m x, library (meaning W k files) m x = library W m x.
Proof.
  induction files as [|f files IH]; intros W k; cbn [meaning]; [auto|].
  match goal with |- context [meaning ?V ?K _] => destruct (IH V K) as [A B] end.
  split; [now rewrite A|]. intros m x. now rewrite B.
Qed.

Lemma project_lib n files : forall W k, w_members (project W n k files) = w_members W
  /\ forall m x, library (project W n k files) m x = library W m x.
Proof.
  induction files as [|f files IH]; intros W k; cbn [project]; [auto|].
  match goal with |- context [project ?V n ?K _] => destruct (IH V K) as [A B] end.
  split; [now rewrite A|]. intros m x. now rewrite B.
Qed.

(** Nothing is renamed. *)
Lemma put_none new s x : put (fun _ => false) new s x = x. Proof. reflexivity. Qed.

Lemma ren_pat_none new p : ren_pat (fun _ => false) new p = p.
Proof.
  induction p using pat_ind'; [reflexivity|reflexivity|]. cbn [ren_pat]. f_equal.
  induction H as [|p ps Hp Hps IH]; [reflexivity|]. cbn. now rewrite Hp, IH.
Qed.

Lemma putp_none new l : map (putp (fun _ => false) new) l = l.
Proof. induction l as [|[s x] l IH]; [reflexivity|]. cbn. now rewrite IH. Qed.

Lemma putpo_none new o : option_map (putp (fun _ => false) new) o = o.
Proof. destruct o as [[s x]|]; reflexivity. Qed.

Lemma ren_src_none new c : ren_src (fun _ => false) new c = c.
Proof. induction c; try reflexivity. cbn. now rewrite IHc. Qed.

Lemma ren_imports_none new im : ren_imports (fun _ => false) new im = im.
Proof.
  destruct im as [| |l]; try reflexivity. cbn. f_equal. induction l as [|[p o] l IH]; [reflexivity|].
  cbn. now rewrite putp_none, putpo_none, IH.
Qed.

Lemma ren_param_none new q : ren_param (fun _ => false) new q = q.
Proof. destruct q; cbn; rewrite ?ren_pat_none; reflexivity. Qed.

Lemma map_none new l : Forall (fun e => ren (fun _ => false) new e = e) l -> map (ren (fun _ => false) new) l = l.
Proof. induction 1 as [|e l He Hl IH]; [reflexivity|]. cbn. now rewrite He, IH. Qed.

Lemma ren_none new e : ren (fun _ => false) new e = e.
Proof.
  induction e using ast_ind'; cbn [ren]; rewrite ?ren_pat_none, ?ren_src_none, ?putpo_none, ?ren_imports_none, ?put_none;
    try reflexivity; try congruence; try (now rewrite map_none by assumption).
  - destruct i as [e|]; [|reflexivity]. now rewrite H.
  - rewrite IHe. f_equal. induction H as [|[q e'] l He Hl IH]; [reflexivity|]. cbn. cbn in He. now rewrite ren_param_none, He, IH.
  - rewrite IHe1, IHe2. destruct e3; [now rewrite H|reflexivity].
  - rewrite IHe, map_none by assumption. destruct c; [now rewrite H0|reflexivity].
  - rewrite IHe. destruct s; [now rewrite H|reflexivity].
Qed.

Lemma rel_map new isd t' A A' :
  (forall t, isd (ts t) = isd t) -> ts t' = t' -> rel new isd t' A A' ->
  rel new isd t' (map (fun '(x, t) => (x, ts t)) A) (map (fun '(x, t) => (x, ts t)) A').
Proof.
  intros I T [a b c f g]. split.
  - intros x t Z F D. rewrite (find_map ts) in F |- *. destruct (find x A) as [u|] eqn:Q; [|discriminate].
    cbn in F. injection F as <-. rewrite I in D. rewrite (a x u Z Q D). cbn. now rewrite T.
  - intros x t Z F D. rewrite (find_map ts) in F |- *. destruct (find x A) as [u|] eqn:Q; [|discriminate].
    cbn in F. injection F as <-. rewrite I in D. now rewrite (b x u Z Q D).
  - intros x Z N F. rewrite (find_map ts) in F |- *. destruct (find x A) as [u|] eqn:Q; [discriminate|].
    now rewrite (c x Z N Q).
  - now rewrite (find_map ts), f.
  - rewrite (find_map ts). destruct g as [g|[g g']]; rewrite g; cbn; rewrite ?T; auto.
Qed.

Lemma offers_meaning W k ex f :
  offers (provide W k (map (fun '(x, t) => (x, stand t)) ex)) (MFile f)
  = if Nat.eqb f k then map (fun '(x, t) => (x, ts t)) ex else offers W (MFile f).
Proof.
  unfold offers, provide. cbn [w_exports]. destruct (Nat.eqb f k); [|reflexivity].
  rewrite map_map. apply map_ext. intros [x t]. reflexivity.
Qed.

Lemma fresh_nm W files new file : fresh W files new -> In file files -> nm_all new file.
Proof. intros [_ [_ [_ F]]] I. destruct (F file I) as [A B]. split; [intros x X; apply A, X|exact B]. Qed.

Section Same.
(** The world as the server sees it and the world by the environments are
    the same. *)
Variables (W : world) (n new : nat) (files : list (list ast)).
Hypothesis N : 2 <= n.
Hypothesis PW : plain_world W.
Hypothesis T : tame_project W n 0 files.
Hypothesis NS : forall file, In file files -> stars_all file = false.
Hypothesis FR : fresh W files new.

Let no (t : tgt) : bool := false.
Let t0 := TDef (DVar 0 0).

Lemma fits_no us : fits (fun _ => false) no us.
Proof. intros b s t _. split; auto. Qed.

Lemma ru_no u : ru no t0 u = u.
Proof. destruct u as [[b s] t]. reflexivity. Qed.

Lemma rel_same E E' : find new E = None -> (forall x, x <> 0 -> find x E' = find x E) -> rel new no t0 E E'.
Proof.
  intros F H. destruct FR as [NZ _]. split; try discriminate.
  - intros x t Z Q _. now rewrite H.
  - intros x Z _ Q. now rewrite H.
  - exact F.
  - left. rewrite H; auto.
Qed.

Lemma same_file V V' file :
  (forall m, rel new no t0 (offers V m) (offers V' m)) -> w_members V' = w_members V ->
  (forall m x, library V' m x = library V m x) -> In file files ->
  rel new no t0 (bound V file) (bound V' file) /\ uses V' file = uses V file.
Proof.
  intros R M L I.
  assert (A : Forall (okr (fun _ => false) new no t0 V V') file).
  { apply Forall_forall. intros e _. apply ren_ok; auto; try discriminate.
    - exact (proj1 FR).
    - now exists (DVar 0 0). }
  destruct (all_ren _ _ _ _ _ _ file A [] []) as [B C].
  - apply rel_nil.
  - eapply fresh_nm; eauto.
  - apply fits_no.
  - rewrite map_none in B, C by (apply Forall_forall; intros e _; apply ren_none).
    split; [exact B|]. unfold uses. rewrite C. rewrite <- map_id. apply map_ext. intros u. apply ru_no.
Qed.

Lemma same_world j : j <= length files ->
  forall m, rel new no t0 (offers (project W n 0 (firstn j files)) m) (offers (meaning W 0 (firstn j files)) m).
Proof.
  induction j as [|j IH]; intros J m.
  - cbn. destruct FR as [_ [A [B _]]]. apply rel_same; [|reflexivity]. destruct m as [f|v|]; cbn; [| |reflexivity].
    + now rewrite (find_map texp), A.
    + now rewrite (find_map TVal), B.
  - destruct (nth_error files j) as [file|] eqn:E.
    2:{ apply nth_error_None in E. lia. }
    assert (I : In file files) by (eapply nth_error_In; eauto).
    rewrite (firstn_snoc _ _ _ E), project_snoc, meaning_snoc. cbn [Nat.add].
    set (V := project W n 0 (firstn j files)) in *. set (V' := meaning W 0 (firstn j files)) in *.
    assert (H : forall m, rel new no t0 (offers V m) (offers V' m)) by (apply IH; lia).
    destruct m as [f|v|].
    + rewrite offers_meaning. specialize (H (MFile f)). unfold offers at 1. unfold provide. cbn [w_exports].
      destruct (Nat.eqb f (length (firstn j files))); [|exact H].
      destruct (same_file V V' file) as [[a b c f1 g] _].
      * apply IH. lia.
      * unfold V, V'. now rewrite (proj1 (project_lib n (firstn j files) W 0)), (proj1 (meaning_lib (firstn j files) W 0)).
      * intros m x. unfold V, V'. now rewrite (proj2 (project_lib n (firstn j files) W 0)), (proj2 (meaning_lib (firstn j files) W 0)).
      * exact I.
      * destruct (tame_nth _ _ _ _ _ _ T E) as [T1 [T2 T3]].
        pose proof (file_exports V n file N (project_plain _ _ _ _ N PW T1) T2 T3 (NS _ I)) as X.
        apply rel_same.
        -- rewrite (find_map texp), <- X by exact (proj1 FR). exact f1.
        -- intros x Z. rewrite (find_map texp), (find_map ts).
           specialize (X x Z). destruct (find x (exports V n file)) as [e|] eqn:Q; cbn in X |- *.
           ++ rewrite (b x _ Z X eq_refl). cbn. now rewrite ts_texp.
           ++ destruct (Nat.eq_dec x new) as [->|Nx].
              ** destruct g as [->|[_ [t D]]]; [reflexivity|discriminate].
              ** now rewrite (c x Z Nx X).
    + exact (H (MVal v)).
    + exact (H MNone).
Qed.

Lemma same_uses j file : nth_error files j = Some file ->
  uses (meaning W 0 (firstn j files)) file = uses (project W n 0 (firstn j files)) file.
Proof.
  intros E. assert (J : j < length files) by (apply nth_error_Some; congruence).
  apply same_file.
  - apply same_world. lia.
  - now rewrite (proj1 (project_lib n (firstn j files) W 0)), (proj1 (meaning_lib (firstn j files) W 0)).
  - intros m x. now rewrite (proj2 (project_lib n (firstn j files) W 0)), (proj2 (meaning_lib (firstn j files) W 0)).
  - eapply nth_error_In; eauto.
Qed.
End Same.

Lemma tgt_eqb_true t d : tgt_eqb t d = true <-> t = TDef d.
Proof.
  destruct t; cbn; try (split; discriminate). destruct (decl_eq_dec d0 d); split; congruence.
Qed.

Lemma edited_in l k s : edited l k s = true <-> In (k, s) l.
Proof.
  unfold edited. rewrite existsb_exists. split.
  - intros [[k' s'] [I H]]. apply andb_true_iff in H. destruct H as [A B]. apply Nat.eqb_eq in A, B. now subst.
  - intros I. exists (k, s). split; [exact I|]. now rewrite !Nat.eqb_refl.
Qed.

Lemma texp_holds d e : local d = true -> texp e = TDef d -> holds d e.
Proof.
  intros L. assert (X : forall r v, rtgt r v true = TDef d -> r = Some (EDecl d)).
  { intros [[d1| | | |]|] [u|]; cbn; try discriminate; destruct d1; intros H; try discriminate; now injection H as <-. }
  destruct e; cbn [texp]; intros H; apply X in H; try discriminate; cbn.
  - now injection H.
  - now rewrite H.
Qed.

Section Rename.
Variables (W : world) (n new : nat) (d : decl) (f0 m : nat) (files : list (list ast)).
Hypothesis N : 2 <= n.
Hypothesis PW : plain_world W.
Hypothesis T : tame_project W n 0 files.
Hypothesis O : open_project W n d f0 files.
Hypothesis NS : forall file, In file files -> stars_all file = false.
Hypothesis SP : forall file, In file files -> ~ In 0 (marks_all file).
Hypothesis FR : fresh W files new.
Hypothesis SRC : no_source W files d.
Hypothesis LEN : length files <= m.

Let es := edits (infos W n 0 files) d f0 m.
Let isd (t : tgt) : bool := tgt_eqb t d.
Let t' := TDef (renamed d new).

Lemma means_fits k file : nth_error files k = Some file ->
  fits (edited es k) isd (uses (meaning W 0 (firstn k files)) file).
Proof.
  intros E.
  assert (I : In file files) by (eapply nth_error_In; eauto).
  assert (M : uses (meaning W 0 (firstn k files)) file = means W files k) by (unfold means; now rewrite E).
  pose proof (same_uses W n new files N PW T NS FR k file E) as Q.
  destruct (tame_nth _ _ _ _ _ _ T E) as [T1 [T2 T3]].
  pose proof (project_plain _ _ _ _ N PW T1) as P.
  destruct (file_res _ n file N P T2 T3) as [G _].
  destruct (file_resolves _ n file N P T2 T3) as [_ [_ [Fr _]]].
  pose proof (project_uses W n d f0 files m N PW T O LEN k) as U. fold (edits (infos W n 0 files) d f0 m) in U. fold es in U.
  intros b s t H.
  assert (X : edited es k s = true <-> s <> 0 /\ In (false, s, TDef d) (uses (project W n 0 (firstn k files)) file)).
  { rewrite edited_in, U. split.
    - intros [Z [g [E' V]]]. rewrite E in E'. injection E' as <-. auto.
    - intros [Z V]. split; [exact Z|]. eauto. }
  assert (Z : s <> 0).
  { rewrite Q in H. pose proof (g_in _ _ _ _ G _ _ _ H) as Y. intros ->. now apply (SP file I). }
  destruct b.
  - rewrite M in H. destruct (SRC k s t H) as [S1 S2]. rewrite <- M, Q in S2. split.
    + destruct (edited es k s) eqn:Es; destruct (isd t) eqn:Dt; try reflexivity.
      * exfalso. apply S2. now apply X.
      * exfalso. apply S1. now apply tgt_eqb_true.
    + intros _. destruct (isd t) eqn:Dt; [|reflexivity]. exfalso. apply S1. now apply tgt_eqb_true.
  - split; [|discriminate]. rewrite Q in H.
    destruct (isd t) eqn:Dt.
    + apply X. split; [exact Z|]. apply tgt_eqb_true in Dt. now subst t.
    + destruct (edited es k s) eqn:Es; [|reflexivity]. exfalso. assert (V : In (false, s, TDef d) (uses (project W n 0 (firstn k files)) file)) by (now apply X).
      destruct (Fr _ _ H) as [r [R1 R2]]. destruct (Fr _ _ V) as [r' [R3 R4]].
      assert (r' = r) by congruence. subst r'. assert (Y : t = TDef d) by congruence. apply tgt_eqb_true in Y. unfold isd in Dt. congruence.
Qed.

Lemma isd_ts t : isd (ts t) = isd t.
Proof.
  pose proof (proj1 O) as L. destruct (isd t) eqn:D.
  - apply tgt_eqb_true in D. subst t. rewrite ts_local by exact L. now apply tgt_eqb_true.
  - destruct (isd (ts t)) eqn:D'; [|reflexivity]. apply tgt_eqb_true in D'. apply (ts_back _ _ L) in D'. subst t.
    assert (X : isd (TDef d) = true) by now apply tgt_eqb_true. congruence.
Qed.

Lemma local_renamed : local (renamed d new) = true.
Proof. pose proof (proj1 O) as L. destruct d; try discriminate; reflexivity. Qed.

Lemma file_renamed V V' k file :
  (forall o, rel new isd t' (offers V o) (offers V' o)) -> w_members V' = w_members V ->
  (forall o x, library V' o x = library V o x) -> In file files -> fits (edited es k) isd (uses V file) ->
  rel new isd t' (bound V file) (bound V' (map (ren (edited es k) new) file))
  /\ uses V' (map (ren (edited es k) new) file) = map (use_renamed d new) (uses V file).
Proof.
  intros R M Lb I F.
  assert (A : Forall (okr (edited es k) new isd t' V V') file).
  { apply Forall_forall. intros e _. apply ren_ok; auto.
    - exact (proj1 FR).
    - intros s x D. apply tgt_eqb_true in D. injection D as D. unfold t'. now rewrite <- D.
    - intros s x D. apply tgt_eqb_true in D. injection D as D. unfold t'. now rewrite <- D.
    - intros t D. apply tgt_eqb_true in D. exists d. split; [exact D|exact (proj1 O)].
    - exists (renamed d new). split; [reflexivity|apply local_renamed]. }
  destruct (all_ren _ _ _ _ _ _ file A [] []) as [B C].
  - apply rel_nil.
  - eapply fresh_nm; eauto.
  - exact F.
  - split; [exact B|]. unfold uses. rewrite C. apply map_ext. intros [[b s] t]. reflexivity.
Qed.

Lemma lib_renamed j :
  w_members (meaning W 0 (firstn j (ren_files es new 0 files))) = w_members (meaning W 0 (firstn j files))
  /\ forall o x, library (meaning W 0 (firstn j (ren_files es new 0 files))) o x = library (meaning W 0 (firstn j files)) o x.
Proof.
  split.
  - now rewrite (proj1 (meaning_lib (firstn j files) W 0)), (proj1 (meaning_lib (firstn j (ren_files es new 0 files)) W 0)).
  - intros o x. now rewrite (proj2 (meaning_lib (firstn j files) W 0)), (proj2 (meaning_lib (firstn j (ren_files es new 0 files)) W 0)).
Qed.

Lemma world_renamed j : j <= length files ->
  forall o, rel new isd t' (offers (meaning W 0 (firstn j files)) o)
                           (offers (meaning W 0 (firstn j (ren_files es new 0 files))) o).
Proof.
  induction j as [|j IH]; intros J o.
  - cbn. destruct FR as [Z [A [B _]]]. pose proof (proj1 O) as L.
    assert (X : forall x t, x <> 0 -> find x (offers W o) = Some t -> isd t = false).
    { intros x t _ F. destruct (isd t) eqn:D; [|reflexivity]. apply tgt_eqb_true in D. subst t. exfalso.
      destruct o as [f|v|]; cbn in F; [| |discriminate].
      - rewrite (find_map texp) in F. destruct (find x (w_exports W f)) as [e|] eqn:Q; [|discriminate]. cbn in F. injection F as F.
        destruct O as [_ [O2 _]]. apply (proj2 (O2 _ _ _ Q)). now apply texp_holds.
      - rewrite (find_map TVal) in F. destruct (find x (members W v)); discriminate. }
    assert (Y : find new (offers W o) = None).
    { destruct o as [f|v|]; cbn; [| |reflexivity].
      - now rewrite (find_map texp), A.
      - now rewrite (find_map TVal), B. }
    split; auto.
    intros x t Zx F D. rewrite (X x t Zx F) in D. discriminate.
  - destruct (nth_error files j) as [file|] eqn:E.
    2:{ apply nth_error_None in E. lia. }
    assert (E' : nth_error (ren_files es new 0 files) j = Some (map (ren (edited es j) new) file)).
    { rewrite ren_files_nth, E. reflexivity. }
    rewrite (firstn_snoc _ _ _ E), (firstn_snoc _ _ _ E'), !meaning_snoc. cbn [Nat.add].
    rewrite !firstn_length, ren_files_length. replace (Init.Nat.min j (length files)) with j by lia.
    destruct (file_renamed (meaning W 0 (firstn j files)) (meaning W 0 (firstn j (ren_files es new 0 files))) j file) as [R _].
    + apply IH. lia.
    + apply lib_renamed.
    + apply lib_renamed.
    + eapply nth_error_In; eauto.
    + now apply means_fits.
    + assert (H : rel new isd t' (offers (meaning W 0 (firstn j files)) o) (offers (meaning W 0 (firstn j (ren_files es new 0 files))) o))
        by (apply IH; lia).
      destruct o as [f|v|].
      * rewrite !offers_meaning. destruct (Nat.eqb f j); [|exact H]. apply rel_map; [apply isd_ts| |exact R].
        unfold t'. apply ts_local, local_renamed.
      * exact H.
      * exact H.
Qed.

(** Every name means what it meant. *)
Theorem rename_keeps k :
  means W (ren_files es new 0 files) k = map (use_renamed d new) (means W files k).
Proof.
  unfold means. rewrite ren_files_nth. cbn [Nat.add]. destruct (nth_error files k) as [file|] eqn:E; [|reflexivity].
  cbn [option_map]. assert (K : k < length files) by (apply nth_error_Some; congruence).
  apply file_renamed.
  - apply world_renamed. lia.
  - apply lib_renamed.
  - apply lib_renamed.
  - eapply nth_error_In; eauto.
  - now apply means_fits.
Qed.
End Rename.

Theorem rename_edits W n new d f0 m files :
  2 <= n -> plain_world W -> tame_project W n 0 files -> open_project W n d f0 files ->
  (forall file, In file files -> stars_all file = false) ->
  (forall file, In file files -> ~ In 0 (marks_all file)) ->
  fresh W files new -> no_source W files d -> length files <= m -> forall k s,
  In (k, s) (edits (infos W n 0 files) d f0 m) <-> exists b, In (b, s, TDef d) (means W files k).
Proof.
  intros N PW T O NS SP FR SRC LEN k s. unfold edits. rewrite (project_uses W n d f0 files m N PW T O LEN).
  unfold means. split.
  - intros [Z [file [E U]]]. exists false. rewrite E. now rewrite (same_uses W n new files N PW T NS FR k file E).
  - intros [b U]. destruct (nth_error files k) as [file|] eqn:E; [|destruct U].
    pose proof (means_fits W n new d f0 m files N PW T O NS SP FR SRC LEN k file E _ _ _ U) as [A _].
    assert (D : tgt_eqb (TDef d) d = true) by now apply tgt_eqb_true. rewrite D in A.
    apply edited_in in A. unfold edits in A. rewrite (project_uses W n d f0 files m N PW T O LEN) in A.
    destruct A as [Z [g [E' V]]]. rewrite E in E'. injection E' as <-. split; [exact Z|]. exists file. auto.
Qed.

(** The edits change names only. *)
Lemma map_fst_put S new l : map fst (map (putp S new) l) = map fst l.
Proof. rewrite map_map. apply map_ext. reflexivity. Qed.

Lemma omark_put S new o : omark (option_map (putp S new) o) = omark o.
Proof. destruct o as [[s x]|]; reflexivity. Qed.

Lemma src_marks_ren S new c : src_marks (ren_src S new c) = src_marks c.
Proof. induction c; try reflexivity. cbn. now rewrite IHc. Qed.

Lemma im_marks_ren S new im : im_marks (ren_imports S new im) = im_marks im.
Proof.
  destruct im as [| |l]; try reflexivity. cbn. f_equal. rewrite map_map. apply map_ext. intros [path o].
  now rewrite map_fst_put, omark_put.
Qed.

Lemma pmarks_ren S new p : map fst (pvars (ren_pat S new p)) = map fst (pvars p).
Proof. now rewrite pvars_ren, map_fst_put. Qed.

Lemma qmarks_ren S new q : qmarks (ren_param S new q) = qmarks q.
Proof. destruct q; try reflexivity. apply pmarks_ren. Qed.

Lemma marks_all_ren S new l :
  Forall (fun e => marks (ren S new e) = marks e) l -> marks_all (map (ren S new) l) = marks_all l.
Proof. induction 1 as [|e l He Hl IH]; [reflexivity|]. cbn. now rewrite He, IH. Qed.

Lemma marks_ren S new e : marks (ren S new e) = marks e.
Proof.
  induction e using ast_ind'; cbn [ren marks]; fold marks_all in *;
    rewrite ?pmarks_ren, ?src_marks_ren, ?omark_put, ?im_marks_ren; try reflexivity; try congruence;
    try (now apply marks_all_ren).
  - destruct i as [e|]; [|reflexivity]. now rewrite H.
  - f_equal. f_equal. rewrite IHe. f_equal. induction H as [|[q e'] l He Hl IH]; [reflexivity|].
    cbn. cbn in He. now rewrite qmarks_ren, He, IH.
  - rewrite IHe1, IHe2. destruct e3; [now rewrite H|reflexivity].
  - rewrite IHe. f_equal. f_equal; [now apply marks_all_ren|]. destruct c; [now rewrite H0|reflexivity].
  - rewrite IHe. destruct s; [now rewrite H|reflexivity].
Qed.

Theorem ren_files_same l new files : forall k,
  length (ren_files l new k files) = length files
  /\ ren_files [] new k files = files
  /\ forall file, In file (ren_files l new k files) -> exists f, In f files /\ marks_all file = marks_all f.
Proof.
  intros k. split; [apply ren_files_length|]. split.
  - revert k. induction files as [|f files IH]; intros k; [reflexivity|]. cbn [ren_files]. rewrite IH. f_equal.
    apply map_none. apply Forall_forall. intros e _. apply ren_none.
  - revert k. induction files as [|f files IH]; intros k file I; [destruct I|]. destruct I as [<-|I].
    + exists f. split; [now left|]. apply marks_all_ren. apply Forall_forall. intros e _. apply marks_ren.
    + destruct (IH _ _ I) as [g [A B]]. exists g. split; [now right|exact B].
Qed.
