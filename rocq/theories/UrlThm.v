From Coq Require Import String List Arith Bool Lia.
From Verif Require Import UrlModel UrlSpec UrlProof.
Import ListNotations.

(** C176: the address of a file leads back to it. *)
Theorem C176_file : forall lossy l, Forall plain l -> l <> [] -> hd_error l <> Some (lit "untitled") ->
  exists u, path_to_url (Abs l) = Some u /\ u_scheme u = lit "file" /\ url_to_path lossy u = Some (Abs l).
Proof.
  intros lossy l P N H. exists (from_file_path l). split; [|split; [reflexivity|]].
  - destruct l as [|n r]; [congruence|]. cbn [path_to_url]. rewrite (same_no n (lit "untitled")); [reflexivity|]. intros ->. now apply H.
  - assert (F : names (flat_map (fun s => 47 :: decode s) (split (tl (u_path (from_file_path l))))) = l) by exact (file_names l P).
    unfold url_to_path. change (same (u_scheme (from_file_path l)) (lit "file")) with true. change (u_host (from_file_path l)) with (@None bytes). cbv iota.
    destruct (same (u_path (from_file_path l)) [47]) eqn:E.
    + exfalso. apply same_spec in E. rewrite E in F. cbn in F. congruence.
    + unfold to_file_path. change (u_opaque (from_file_path l)) with false. change (u_host (from_file_path l)) with (@None bytes). cbv iota. now rewrite F.
Qed.
Print Assumptions C176_file.
(** So does that of a document without a file, of names that an address can have. *)
Theorem C176_untitled_partial : forall lossy l, Forall plain l -> sendable l -> (forall t, In t [lit "/untitled/"; text (lit "untitled" :: l)] -> lossy t = t) ->
  exists u, path_to_url (Abs (lit "untitled" :: l)) = Some u /\ url_to_path lossy u = Some (Abs (lit "untitled" :: l)).
Proof.
  intros lossy l P S E. cbn [path_to_url]. change (same (lit "untitled") (lit "untitled")) with true. cbv iota.
  destruct l as [|m [|k l]].
  - exists (untitled_url (join [])). split; [reflexivity|]. unfold url_to_path. change (same (u_scheme (untitled_url (join []))) (lit "file")) with false. change (same (u_scheme (untitled_url (join []))) (lit "untitled")) with true. cbv iota zeta.
    change (lit "/untitled" ++ flat_map (fun s => 47 :: decode s) (split match u_path (untitled_url (join [])) with 47 :: r => r | p => p end)) with (lit "/untitled/"). rewrite E by now left. reflexivity.
  - destruct (same m (lit "nEoViM-BuG")) eqn:Q.
    + apply same_spec in Q. subst m. exists empty_url. now split.
    + exists (untitled_url (join [m])). split; [reflexivity|]. apply untitled_back; trivial; [discriminate|]. apply E. right. now left.
  - eexists. split; [reflexivity|]. apply untitled_back; trivial; [discriminate|]. apply E. right. now left.
Qed.
Print Assumptions C176_untitled_partial.
(** A file without a root has the address of a document without a file. *)
Theorem C176_rootless_partial : forall lossy l, l <> [] -> Forall plain l -> sendable l -> lossy (text (lit "untitled" :: l)) = text (lit "untitled" :: l) ->
  exists u, path_res_to_url (Rootless l) = Some u /\ url_to_path lossy u = Some (Abs (lit "untitled" :: l)).
Proof. intros lossy l N P S E. eexists. split; [reflexivity|]. now apply untitled_back. Qed.
Print Assumptions C176_rootless_partial.
Theorem C176_resolved : forall p, path_res_to_url (Resolved p) = path_to_url p.
Proof. reflexivity. Qed.
Print Assumptions C176_resolved.
(** Different paths have different addresses. *)
Theorem C176_distinct_partial : forall l m u, Forall plain l -> Forall plain m -> l <> [] -> m <> [] ->
  (forall r, l = lit "untitled" :: r -> sendable r) -> (forall r, m = lit "untitled" :: r -> sendable r) ->
  path_to_url (Abs l) = Some u -> path_to_url (Abs m) = Some u -> l = m.
Proof.
  intros l m u P Q L M SL SM A B.
  assert (G : forall k, Forall plain k -> k <> [] -> (forall r, k = lit "untitled" :: r -> sendable r) -> path_to_url (Abs k) = Some u -> url_to_path (fun x => x) u = Some (Abs k)).
  { clear. intros k P N S E. destruct k as [|n r]; [congruence|]. destruct (same n (lit "untitled")) eqn:X.
    - apply same_spec in X. subst n. inversion P; subst. destruct (C176_untitled_partial (fun x => x) r) as (u' & A & B); trivial; [now apply S|]. congruence.
    - destruct (C176_file (fun x => x) (n :: r)) as (u' & A & _ & B); trivial.
      + cbn. intros [= ->]. rewrite same_refl in X. discriminate.
      + congruence. }
  apply G in A, B; trivial. congruence.
Qed.
Print Assumptions C176_distinct_partial.
(** Addresses are refused exactly for relative paths. *)
Theorem C176_relative : forall p, path_to_url p = None <-> exists l, p = Rel l.
Proof.
  intros [[|n l]|l]; cbn [path_to_url]; split; try discriminate; try (intros (k & H); discriminate).
  - destruct (same n (lit "untitled")); [|discriminate]. destruct l as [|m [|]]; try discriminate. destruct (same m _); discriminate.
  - intros _. now exists l.
  - reflexivity.
Qed.
Print Assumptions C176_relative.
(** An address is no path, and there is a panic, exactly if it is not that of a document without a file and is on another host or has no parts. *)
Theorem C176_panic : forall lossy u, url_to_path lossy u = None <->
  u_scheme u <> lit "untitled" /\ ~ (u_scheme u = lit "file" /\ u_host u = None /\ u_path u = [47]) /\
  (u_opaque u = true \/ exists h, u_host u = Some h /\ h <> lit "localhost").
Proof.
  intros lossy u. assert (T : to_file_path u = None <-> (u_opaque u = true \/ exists h, u_host u = Some h /\ h <> lit "localhost")).
  { unfold to_file_path. destruct (u_opaque u); [tauto|]. destruct (u_host u) as [h|].
    - destruct (same h (lit "localhost")) eqn:E.
      + apply same_spec in E. split; [discriminate|]. intros [H|(h' & [= <-] & H)]; [discriminate|contradiction].
      + split; [|reflexivity]. intros _. right. exists h. split; [reflexivity|]. intros ->. rewrite same_refl in E. discriminate.
    - split; [discriminate|]. intros [H|(h & H & _)]; discriminate. }
  unfold url_to_path. destruct (same (u_scheme u) (lit "file")) eqn:F.
  - apply same_spec in F. rewrite F. assert (lit "file" <> lit "untitled") by discriminate. destruct (u_host u) as [h|] eqn:H0.
    + rewrite T. split; [|tauto]. intros X. split; [assumption|]. split; [intros (_ & Y & _); discriminate|exact X].
    + destruct (same (u_path u) [47]) eqn:Q.
      * apply same_spec in Q. split; [discriminate|]. intros (_ & N & _). exfalso. apply N. now repeat split.
      * rewrite T. split; [|tauto]. intros X. split; [assumption|]. split; [|exact X]. intros (_ & _ & Y). rewrite Y in Q. discriminate.
  - assert (NF : u_scheme u <> lit "file") by (intros E; rewrite E in F; discriminate). destruct (same (u_scheme u) (lit "untitled")) eqn:U.
    + apply same_spec in U. split; [discriminate|]. intros [N _]. contradiction.
    + assert (NU : u_scheme u <> lit "untitled") by (intros E; rewrite E in U; discriminate). rewrite T. split; [|tauto].
      intros X. split; [assumption|]. split; [|exact X]. intros (Y & _). contradiction.
Qed.
Print Assumptions C176_panic.
Example C176_panic_case : url_to_path (fun x => x) (mkUrl (lit "vscode-vfs") (Some (lit "github")) false (lit "/a/b.typ")) = None /\
  url_to_path (fun x => x) (mkUrl (lit "git") None false (lit "/a/b.typ")) = Some (Abs [lit "a"; lit "b.typ"]).
Proof. now split. Qed.

Definition file0 : list bytes := [lit "home"; lit "my notes"; lit "100% #1.typ"].
Definition plainb (n : bytes) : bool := negb (same n []) && negb (existsb (Nat.eqb 47) n) && negb (same n [46]) && negb (same n [46; 46]) && forallb (fun c => c <? 256) n.
Lemma plainb_spec n : plainb n = true -> plain n.
Proof.
  unfold plainb. rewrite !andb_true_iff, !negb_true_iff. intros ((((A & B) & C) & D) & E).
  assert (X : forall m, same n m = false -> n <> m) by (intros m H ->; rewrite same_refl in H; discriminate).
  repeat split; try (apply X; assumption).
  - intros I. enough (existsb (Nat.eqb 47) n = true) by congruence. apply existsb_exists. exists 47. now split.
  - apply Forall_forall. intros c I. rewrite forallb_forall in E. now apply Nat.ltb_lt, E.
Qed.
Example C176_nonvacuous : Forall plain file0 /\ path_to_url (Abs file0) = Some (mkUrl (lit "file") None false (lit "/home/my%20notes/100%25%20%231.typ")) /\
  Forall plain [lit "Untitled-1"] /\ sendable [lit "Untitled-1"] /\ path_to_url (Abs [lit "untitled"; lit "Untitled-1"]) = Some (mkUrl (lit "untitled") None true (lit "Untitled-1")).
Proof.
  split; [repeat (constructor; [apply plainb_spec; reflexivity|]); constructor|]. split; [reflexivity|].
  split; [repeat (constructor; [apply plainb_spec; reflexivity|]); constructor|]. split; [|reflexivity]. split.
  - constructor; [|constructor]. apply Forall_forall. intros c I. assert (forallb (fun c => negb (existsb (Nat.eqb c) [37; 63; 35; 9; 10; 13])) (lit "Untitled-1") = true) by reflexivity.
    rewrite forallb_forall in H. specialize (H c I). apply negb_true_iff in H. intros J. enough (existsb (Nat.eqb c) [37; 63; 35; 9; 10; 13] = true) by congruence.
    apply existsb_exists. exists c. split; [exact J|apply Nat.eqb_refl].
  - intros n [<-|[]]. apply Nat.ltb_lt. reflexivity.
Qed.

(** What is in the way: a percent sign in a name without a file is taken for an encoding, and two documents have one address. *)
Theorem C176_percent_refuted : exists l m u, Forall plain l /\ Forall plain m /\ l <> m /\
  path_to_url (Abs (lit "untitled" :: l)) = Some u /\ url_to_path (fun x => x) u = Some (Abs (lit "untitled" :: m)).
Proof.
  exists [lit "100%25"], [lit "100%"]. eexists. split; [|split; [|split; [discriminate|split; reflexivity]]].
  - constructor; [apply plainb_spec; reflexivity|constructor].
  - constructor; [apply plainb_spec; reflexivity|constructor].
Qed.
Print Assumptions C176_percent_refuted.
Theorem C176_hash_refuted : exists l m u, Forall plain l /\ Forall plain m /\ l <> m /\
  path_to_url (Abs (lit "untitled" :: l)) = Some u /\ path_to_url (Abs (lit "untitled" :: m)) = Some u.
Proof.
  exists [lit "a#1"], [lit "a#2"]. eexists. split; [|split; [|split; [discriminate|split; reflexivity]]].
  - constructor; [apply plainb_spec; reflexivity|constructor].
  - constructor; [apply plainb_spec; reflexivity|constructor].
Qed.
Print Assumptions C176_hash_refuted.
(** The root of the files is taken for a buffer without a name. *)
Theorem C176_root_refuted : exists u, path_to_url (Abs []) = Some u /\ url_to_path (fun x => x) u <> Some (Abs []).
Proof. eexists. split; [reflexivity|]. discriminate. Qed.
Print Assumptions C176_root_refuted.
