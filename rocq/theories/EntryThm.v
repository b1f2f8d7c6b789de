(** Theorems about the choice of project root and main file (C50, C78). *)
From Coq Require Import List NArith Arith Bool Lia.
From Verif Require Import DigModel PageModel PathModel PathSpec PathProof EntryModel EntrySpec EntryProof.
Import ListNotations.

(** C50: whatever is cached, and whatever else is resolved in between, all resolutions of one
    path give the same root and main file.  Missing: paths that end with "..". *)
Theorem C50_stable_partial : forall toml r c es e i j a b, named e \/ parent e = None ->
  nth_error es i = Some (Some e) -> nth_error es j = Some (Some e) ->
  nth_error (snd (resolves toml r c es)) i = Some a -> nth_error (snd (resolves toml r c es)) j = Some b -> a = b.
Proof. intros toml r c es e i j a b. exact (resolves_same toml r es c e i j a b). Qed.
Print Assumptions C50_stable_partial.
(** C50: without a path the answer depends on the settings alone. *)
Theorem C50_none : forall toml toml' r c c', snd (resolve toml r c None) = snd (resolve toml' r c' None).
Proof. intros. now rewrite !(proj2 (resolve_none _ r _)). Qed.
Print Assumptions C50_none.
(** C50: refuted for a path that ends with "..": the second answer is another. *)
Theorem C50_dots_refuted : exists toml r e a b, path_ok e /\ is_abs e = true /\
  snd (resolves toml r [] [Some e; Some e]) = [a; b] /\ a <> b.
Proof.
  exists (fun _ => false), (mkR None [] None), [RootC; Nor [97%N]; ParC], (mkE (Some [RootC; Nor [97%N]]) (Some (Some [RootC; Nor [97%N]], [ParC]))), new_detached.
  split; [|split; [reflexivity|split; [reflexivity|discriminate]]]. cbn. repeat constructor; try discriminate. intros [H|[]]; discriminate.
Qed.
Print Assumptions C50_dots_refuted.
(** C50, the root alone: a change of settings that changes nothing restarts all projects and
    loads all fonts again, since [root] gives [None] the second time. *)
Theorem C50_settings_restart : exists toml r, restarts toml r r [] = true.
Proof. exists (fun _ => false), (mkR None [] (Some [RootC; Nor [97%N]; Nor [98%N]])). reflexivity. Qed.
Print Assumptions C50_settings_restart.
(** It does not if the root or no entry is set, or the entry lies in a folder or a package. *)
Theorem C50_settings_kept : forall toml r c,
  (r_root r <> None \/ resolve_default r = None \/
   (exists e x, resolve_default r = Some e /\ In x (r_roots r) /\ inside e x) \/
   (exists e d, resolve_default r = Some e /\ path_ok e /\ nearest toml e d)) ->
  (forall e, resolve_default r = Some e -> cget e c <> Some None) -> restarts toml r r c = false.
Proof.
  intros toml r c H. apply restarts_not. destruct H as [H|[H|[H|(e & d & E & OK & (s & Q) & T & _)]]]; auto.
  right. right. right. exists e. pose proof (found_spec toml e (path_ok_single e OK)) as F. destruct (found toml e) as [y|]; [eauto|].
  destruct Q as [Q1 Q2]. rewrite (F d s Q1 Q2) in T. discriminate.
Qed.
Print Assumptions C50_settings_kept.
Example C50_nonvacuous : named [RootC; Nor [97%N]; Nor [98%N]] /\
  resolves (fun _ => false) (mkR None [] None) [] [Some [RootC; Nor [97%N]; Nor [98%N]]; None; Some [RootC; Nor [97%N]; Nor [98%N]]] =
    ([([RootC; Nor [97%N]; Nor [98%N]], None)],
     [mkE (Some [RootC; Nor [97%N]]) (Some (Some [RootC; Nor [97%N]], [Nor [98%N]])); new_detached; mkE (Some [RootC; Nor [97%N]]) (Some (Some [RootC; Nor [97%N]], [Nor [98%N]]))]) /\
  restarts (fun _ => false) (mkR None [[RootC; Nor [97%N]]] (Some [Nor [98%N]])) (mkR None [[RootC; Nor [97%N]]] (Some [Nor [98%N]])) [] = false.
Proof. split; [now exists [RootC; Nor [97%N]], [98%N]|split; reflexivity]. Qed.

(** C78: the main file leads to the requested file, for every state of the cache and every
    tree, whenever it can be read. *)
Theorem C78_main_leads : forall toml r c e p, path_ok e -> main_place (snd (resolve toml r c (Some e))) = Some p -> p = walk [] e.
Proof. exact main_leads. Qed.
Print Assumptions C78_main_leads.
(** C78: for absolute paths of names it can be read, and the root is above the file. *)
Theorem C78_main_found : forall toml r c (e : path) ns, ns <> [] -> e = RootC :: map Nor ns ->
  main_place (snd (resolve toml r c (Some e))) = Some (walk [] e) /\
  exists x, e_root (snd (resolve toml r c (Some e))) = Some x /\ inside e x.
Proof. exact main_found. Qed.
Print Assumptions C78_main_found.
(** C78: the root is the configured one, or the first folder that contains the file, or the
    nearest directory with typst.toml, or the directory of the file.  Missing: what is cached
    from another tree. *)
Theorem C78_root_partial : forall toml r c e, path_ok e -> cget e c = None ->
  let d := snd (root toml r c (Some e)) in
  (forall x, r_root r = Some x -> d = Some x) /\
  (r_root r = None ->
    (forall a x b, r_roots r = a ++ x :: b -> inside e x -> (forall y, In y a -> ~ inside e y) -> d = Some x) /\
    ((forall y, In y (r_roots r) -> ~ inside e y) ->
      (forall x, nearest toml e x -> d = Some x) /\
      (nowhere toml e -> forall x, parent e = Some x -> d = Some x))).
Proof. exact root_fresh. Qed.
Print Assumptions C78_root_partial.
(** C78: a default entry is absolute if the root is. *)
Theorem C78_default_absolute : forall r e, (forall x, r_root r = Some x -> is_abs x = true) -> (forall x, In x (r_roots r) -> is_abs x = true) ->
  (forall x, r_entry r = Some x -> path_ok x) -> resolve_default r = Some e -> is_abs e = true.
Proof.
  intros r e A B P. unfold resolve_default. destruct (r_entry r) as [x|] eqn:E; [|discriminate]. destruct (is_abs x) eqn:X; [congruence|].
  assert (J : forall q p, is_abs p = true -> is_abs (join p q) = true).
  { induction q as [|c q IH]; intros p H; [exact H|]. apply IH. destruct c; cbn; auto; destruct p; try discriminate; auto; cbn in *; destruct c; try discriminate; reflexivity. }
  unfold first_root. destruct (r_root r) as [d|]; [|destruct (r_roots r) as [|d ds]]; intros H; try discriminate; injection H as <-; apply J; auto. apply B. now left.
Qed.
Print Assumptions C78_default_absolute.
(** C78: refuted for cached answers: a package created later is not seen. *)
Theorem C78_stale_refuted : exists toml toml' r e d, path_ok e /\ nearest toml' e d /\ r_root r = None /\ r_roots r = [] /\
  snd (root toml' r (fst (root toml r [] (Some e))) (Some e)) <> Some d.
Proof.
  exists (fun _ => false), (fun d => path_eqb d [RootC]), (mkR None [] None), [RootC; Nor [97%N]; Nor [98%N]], [RootC].
  split; [cbn; repeat constructor; try discriminate; intros [H|[]]; discriminate|]. split; [|split; [reflexivity|split; [reflexivity|discriminate]]].
  split; [exists [Nor [97%N]; Nor [98%N]]; split; [reflexivity|left; discriminate]|]. split; [reflexivity|].
  intros d' s' E Q T. apply path_eqb_spec in T as ->. auto.
Qed.
Print Assumptions C78_stale_refuted.
(** C78: refuted for a path with ".." that leaves the folder it starts with: it is taken to lie
    in the folder, and cannot be read. *)
Theorem C78_escape_refuted : exists r e x y, path_ok e /\ is_abs e = true /\ named e /\ r_roots r = [x; y] /\
  inside (RootC :: map Nor (rev (walk [] e))) y /\
  forall toml c, e_root (snd (resolve toml r c (Some e))) = Some x /\ main_place (snd (resolve toml r c (Some e))) = None.
Proof.
  exists (mkR None [[RootC; Nor [97%N]]; [RootC; Nor [98%N]]] None), [RootC; Nor [97%N]; ParC; Nor [98%N]; Nor [99%N]], [RootC; Nor [97%N]], [RootC; Nor [98%N]].
  split; [cbn; repeat constructor; try discriminate; intros [H|[]]; discriminate|]. split; [reflexivity|]. split; [now exists [RootC; Nor [97%N]; ParC; Nor [98%N]], [99%N]|].
  split; [reflexivity|]. split; [now exists [Nor [99%N]]|]. intros toml c. split; reflexivity.
Qed.
Print Assumptions C78_escape_refuted.
Example C78_nonvacuous : path_ok [RootC; Nor [97%N]; Nor [98%N]; Nor [99%N]] /\
  nearest (fun d => path_eqb d [RootC; Nor [97%N]]) [RootC; Nor [97%N]; Nor [98%N]; Nor [99%N]] [RootC; Nor [97%N]] /\
  nowhere (fun _ => false) [RootC; Nor [97%N]] /\
  root (fun d => path_eqb d [RootC; Nor [97%N]]) (mkR None [[RootC; Nor [98%N]]] None) [] (Some [RootC; Nor [97%N]; Nor [98%N]; Nor [99%N]]) =
    ([([RootC; Nor [97%N]; Nor [98%N]; Nor [99%N]], Some [RootC; Nor [97%N]])], Some [RootC; Nor [97%N]]) /\
  main_place (snd (resolve (fun d => path_eqb d [RootC; Nor [97%N]]) (mkR None [] None) [] (Some [RootC; Nor [97%N]; Nor [98%N]; Nor [99%N]]))) = Some [[99%N]; [98%N]; [97%N]].
Proof.
  split; [cbn; repeat constructor; try discriminate; intros [H|[]]; discriminate|].
  split; [|split; [intros d s _ _; reflexivity|split; reflexivity]]. split; [exists [Nor [98%N]; Nor [99%N]]; split; [reflexivity|left; discriminate]|]. split; [reflexivity|].
  intros d' s' _ _ T. apply path_eqb_spec in T as ->. auto.
Qed.
