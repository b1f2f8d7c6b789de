(** In a project the search finds every reference. *)
From Coq Require Import List Arith Bool Lia.
From Verif Require Import ScopeModel ScopeSpec ScopeProof ScopeImport ScopeCheck ScopeFile RefsModel RefsSpec RefsProof RefsFile.
Import ListNotations.

Lemma infos_nth n files : forall W k j,
  nth_error (infos W n k files) j
  = option_map (fun file => analyse (project W n k (firstn j files)) n true file) (nth_error files j).
Proof.
  induction files as [|file files IH]; intros W k j; [destruct j; reflexivity|].
  destruct j as [|j]; [reflexivity|]. cbn [infos nth_error firstn project]. apply IH.
Qed.

Lemma infos_length n files : forall W k, length (infos W n k files) = length files.
Proof. induction files as [|file files IH]; intros W k; [reflexivity|]. cbn. now rewrite IH. Qed.

Lemma project_other n files : forall W k f,
  f < k \/ k + length files <= f -> w_exports (project W n k files) f = w_exports W f.
Proof.
  induction files as [|file files IH]; intros W k f H; [reflexivity|]. cbn [project length] in *.
  rewrite IH by lia. cbn [provide w_exports]. destruct (Nat.eqb f k) eqn:E; [|reflexivity].
  apply Nat.eqb_eq in E. lia.
Qed.

Lemma project_own n files : forall W k i file,
  nth_error files i = Some file ->
  w_exports (project W n k files) (k + i) = exports (project W n k (firstn i files)) n file.
Proof.
  induction files as [|g files IH]; intros W k i file H; [destruct i; discriminate|].
  destruct i as [|i].
  - injection H as ->. cbn [project firstn]. rewrite project_other by lia. cbn [provide w_exports].
    rewrite Nat.add_0_r, Nat.eqb_refl. reflexivity.
  - cbn [project firstn]. replace (k + S i) with (S k + i) by lia. now apply IH.
Qed.

Lemma nth_firstn {A} (l : list A) : forall i j, i < j -> nth_error (firstn j l) i = nth_error l i.
Proof.
  induction l as [|a l IH]; intros i j H; [now rewrite firstn_nil|].
  destruct j as [|j]; [lia|]. destruct i as [|i]; [reflexivity|]. cbn. apply IH. lia.
Qed.

Lemma firstn_firstn_lt {A} (l : list A) i j : i < j -> firstn i (firstn j l) = firstn i l.
Proof. intros H. rewrite firstn_firstn. f_equal. lia. Qed.

(** What file [j] of a project is told of the exports of file [f]. *)
Lemma project_sees W n files j f y e :
  j <= length files ->
  find y (w_exports (project W n 0 (firstn j files)) f) = Some e ->
  (exists i, f < j /\ nth_error (infos W n 0 files) f = Some i /\ find y (i_exports i) = Some e)
  \/ find y (w_exports W f) = Some e.
Proof.
  intros J H. destruct (Nat.lt_ge_cases f j) as [F|F].
  - left. destruct (nth_error files f) as [file|] eqn:E.
    2:{ apply nth_error_None in E. lia. }
    exists (analyse (project W n 0 (firstn f files)) n true file). split; [exact F|]. split.
    + rewrite infos_nth, E. reflexivity.
    + cbn [analyse i_exports].
      pose proof (project_own n (firstn j files) W 0 f file) as X. rewrite nth_firstn in X by exact F.
      rewrite firstn_firstn_lt in X by exact F. cbn [Nat.add] in X. rewrite <- (X E). exact H.
  - right. rewrite project_other in H; [exact H|]. right. rewrite firstn_length. lia.
Qed.

Lemma holds_exported d ex e : find (dname d) ex = Some e -> holds d e -> is_exported d ex = true.
Proof.
  intros F H. unfold is_exported. rewrite F.
  destruct e as [d1|d1 s1 [[d2| | | |]|] t1| | |]; try destruct H; destruct (decl_eq_dec _ _); congruence.
Qed.

Lemma in_find {A} (x : nat) (l : list (nat * A)) a : find x l = Some a -> In (x, a) l.
Proof.
  induction l as [|[y b] l IH]; [discriminate|]. cbn. destruct (Nat.eqb x y) eqn:E; [|auto].
  apply Nat.eqb_eq in E. intros [= ->]. subst. now left.
Qed.

Section Project.
Variables (W : world) (n : nat) (d : decl) (f0 : nat) (files : list (list ast)).
Hypothesis O : open_project W n d f0 files.

Lemma project_from j file :
  nth_error files j = Some file -> from (project W n 0 (firstn j files)) d (marks_all file) (imports_of (project W n 0 (firstn j files)) n file) ->
  j = f0 \/ exists f i e, f < j /\ In f (imports_of (project W n 0 (firstn j files)) n file)
    /\ nth_error (infos W n 0 files) f = Some i /\ find (dname d) (i_exports i) = Some e /\ holds d e /\ In (dname d) (i_idents i).
Proof.
  intros E [X|[f [y [e [F [X H]]]]]].
  - left. destruct O as [_ [_ [_ O4]]]. eapply O4; eauto.
  - right. destruct O as [_ [O2 [O3 _]]].
    assert (J : j <= length files) by (apply Nat.lt_le_incl, nth_error_Some; congruence).
    destruct (project_sees _ _ _ _ _ _ _ J X) as [[i [A [B C]]]|C].
    + destruct (O3 _ _ B _ _ C) as [_ D]. destruct (D H) as [-> D']. exists f, i, e. auto 10.
    + destruct (O2 _ _ _ C) as [_ N]. contradiction.
Qed.

Lemma world_ok j : j <= length files -> forall f y e,
  find y (w_exports (project W n 0 (firstn j files)) f) = Some e -> keys e = [] /\ (holds d e -> y = dname d).
Proof.
  intros J f y e H. destruct O as [_ [O2 [O3 _]]].
  destruct (project_sees _ _ _ _ _ _ _ J H) as [[i [A [B C]]]|C].
  - destruct (O3 _ _ B _ _ C) as [K D]. split; [exact K|]. intros X. apply D, X.
  - destruct (O2 _ _ _ C) as [K N]. split; [exact K|]. intros X. contradiction.
Qed.

(** A file that hands the definition on is reached. *)
Lemma handed_reached : forall j i e,
  nth_error (infos W n 0 files) j = Some i -> find (dname d) (i_exports i) = Some e -> holds d e ->
  reached (infos W n 0 files) d f0 j.
Proof.
  induction j as [j IH] using (well_founded_induction lt_wf). intros i e E F H.
  rewrite infos_nth in E. destruct (nth_error files j) as [file|] eqn:EF; [|discriminate]. cbn in E. injection E as <-.
  assert (J : j <= length files) by (apply Nat.lt_le_incl, nth_error_Some; congruence).
  destruct (file_from (project W n 0 (firstn j files)) n d file (proj1 O) (world_ok j J)) as [_ X].
  cbn [analyse i_exports] in F.
  destruct (project_from j file EF (X _ _ F H)) as [->|[f [i [e' [A [B [C [D [G K]]]]]]]]]; [apply reached_here|].
  eapply reached_next; [eapply (IH f A); eauto| |].
  - exists i. split; [exact C|]. split; [exact K|]. eapply holds_exported; eauto.
  - exists i, (analyse (project W n 0 (firstn j files)) n true file). split; [exact C|]. split.
    + rewrite infos_nth, EF. reflexivity.
    + split; [|split; [reflexivity|exact B]].
      rewrite infos_nth in C. destruct (nth_error files f); [|discriminate]. cbn in C. injection C as <-. reflexivity.
Qed.

Theorem project_references m : length files <= m -> forall k s,
  In (k, s) (out (references (infos W n 0 files) d f0 m)) <-> refers (infos W n 0 files) d k s.
Proof.
  intros Hm k s. rewrite search_finds by (rewrite infos_length; exact Hm). split; [tauto|].
  intros R. pose proof R as [i [r [E [Z [F Rf]]]]].
  pose proof E as E'. rewrite infos_nth in E'. destruct (nth_error files k) as [file|] eqn:EF; [|discriminate].
  cbn in E'. injection E' as E'.
  assert (J : k <= length files) by (apply Nat.lt_le_incl, nth_error_Some; congruence).
  destruct (file_from (project W n 0 (firstn k files)) n d file (proj1 O) (world_ok k J)) as [X _].
  assert (Bf : In (s, r) (buf (run (project W n 0 (firstn k files)) n false file))).
  { apply in_find. rewrite <- E' in F. exact F. }
  destruct (X _ _ Bf Rf) as [Mn Fr].
  split; [|split; [|exact R]].
  - destruct (project_from k file EF Fr) as [->|[f [i' [e' [A [B [C [D [G K]]]]]]]]]; [apply reached_here|].
    eapply reached_next; [eapply handed_reached; eauto| |].
    + exists i'. split; [exact C|]. split; [exact K|]. eapply holds_exported; eauto.
    + exists i', i. split; [exact C|]. split; [exact E|]. split; [|split; [rewrite <- E'; reflexivity|rewrite <- E'; exact B]].
      rewrite infos_nth in C. destruct (nth_error files f); [|discriminate]. cbn in C. injection C as <-. reflexivity.
  - exists i. split; [exact E|]. rewrite <- E'. exact Mn.
Qed.
End Project.

Lemma tame_nth n files : forall W k j file, tame_project W n k files -> nth_error files j = Some file ->
  tame_project W n k (firstn j files)
  /\ tame_all (project W n k (firstn j files)) file [] = true /\ NoDup (marks_all file).
Proof.
  induction files as [|g files IH]; intros W k j file T E; [destruct j; discriminate|].
  destruct T as [T1 [T2 T3]]. destruct j as [|j].
  - injection E as ->. cbn. auto.
  - cbn [firstn project tame_project]. destruct (IH _ _ _ _ T3 E) as [A [B C]]. auto.
Qed.

(** The references found are the names that Typst takes for the definition. *)
Theorem project_uses W n d f0 files m :
  2 <= n -> plain_world W -> tame_project W n 0 files -> open_project W n d f0 files ->
  length files <= m -> forall k s,
  In (k, s) (out (references (infos W n 0 files) d f0 m))
  <-> s <> 0 /\ exists file, nth_error files k = Some file
      /\ In (false, s, TDef d) (uses (project W n 0 (firstn k files)) file).
Proof.
  intros N PW T O Hm k s. rewrite project_references by assumption. unfold refers. split.
  - intros [i [r [E [Z [F R]]]]]. split; [exact Z|].
    rewrite infos_nth in E. destruct (nth_error files k) as [file|] eqn:EF; [|discriminate]. cbn in E. injection E as <-.
    exists file. split; [reflexivity|]. destruct (tame_nth _ _ _ _ _ _ T EF) as [A [B C]].
    destruct (file_resolves _ n file N (project_plain _ _ _ _ N PW A) B C) as [_ [_ [_ X]]].
    apply (X d s (proj1 O)). exists r. split; [exact F|exact R].
  - intros [Z [file [EF U]]]. destruct (tame_nth _ _ _ _ _ _ T EF) as [A [B C]].
    destruct (file_resolves _ n file N (project_plain _ _ _ _ N PW A) B C) as [_ [_ [_ X]]].
    apply (X d s (proj1 O)) in U. destruct U as [r [F R]].
    exists (analyse (project W n 0 (firstn k files)) n true file), r. split; [rewrite infos_nth, EF; reflexivity|]. auto.
Qed.
