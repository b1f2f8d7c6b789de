(** Theorems about the ids of workspaces. *)
From Coq Require Import List NArith Bool Lia.
From Verif Require Import DigModel DigProof PageModel PathModel PathSpec PathProof EntryModel EntryProof WsModel WsSpec WsProof.
Import ListNotations.
Local Open Scope nat_scope.

(** * C154: the ids of workspaces *)

(** The id of a root leads to the root, and does so for ever. *)
Theorem C154_path : forall i r id i', reached i -> path_ok r -> workspace_id r i = Some (id, i') ->
  (id < 65536)%N /\ forall j, later i' j -> path_of id j = Some (clean r).
Proof.
  intros i r id i' R Hr H. destruct (step_good _ _ _ _ Hr (reached_good _ R) H) as (_ & P & L & _). split; [auto|]. intros j Hj. apply (later_path i' j id); auto. apply (reached_step i r id i'); auto.
Qed.
Print Assumptions C154_path.
(** What an id means never changes. *)
Theorem C154_stable : forall i j id p, reached i -> later i j -> path_of id i = Some p -> path_of id j = Some p.
Proof. intros i j id p R L H. apply (later_path i j id p); auto. Qed.
Print Assumptions C154_stable.
(** Roots of the same id are the same directory. *)
Theorem C154_distinct : forall i r1 id i1 j r2 j', reached i -> path_ok r1 -> path_ok r2 ->
  workspace_id r1 i = Some (id, i1) -> later i1 j -> workspace_id r2 j = Some (id, j') -> clean r1 = clean r2.
Proof.
  intros i r1 id i1 j r2 j' R H1 H2 E1 L E2. destruct (C154_path _ _ _ _ R H1 E1) as (_ & P). pose proof (P j L) as Pj.
  assert (Rj : reached j) by (apply (reached_later i1 j); [apply (reached_step i r1 id i1); auto|auto]). destruct (step_good _ _ _ _ H2 (reached_good _ Rj) E2) as (_ & Q & _ & K & _). apply K in Pj. congruence.
Qed.
Print Assumptions C154_distinct.
(** A root without detours keeps its id, as long as no root has a detour. *)
Theorem C154_same_partial : forall i r id i1 roots j, plain_root r -> workspace_id r i = Some (id, i1) -> Forall plain_root roots -> interns roots i1 = Some j ->
  workspace_id r j = Some (id, j).
Proof.
  intros i r id i1 roots j (Hr & Hc) E F H. assert (G : get r i1 = Some id).
  { unfold workspace_id in E. destruct (get r i) as [x|] eqn:Gr; [injection E as <- <-; auto|]. destruct (N.leb _ 65535); [|discriminate]. injection E as <- <-. unfold get. cbn [to_id find fst]. rewrite Hc, path_eqb_refl. auto. }
  apply (plain_keeps roots i1 j r id F H) in G. unfold workspace_id. rewrite G. auto.
Qed.
Print Assumptions C154_same_partial.
(** A root with a detour gets a new id each time. *)
Theorem C154_detour_refuted : exists r i, path_ok r /\ reached i /\ exists id1 i1 id2 i2, workspace_id r i = Some (id1, i1) /\ workspace_id r i1 = Some (id2, i2) /\ id1 <> id2.
Proof.
  exists [RootC; Nor [97]%N; ParC; Nor [98]%N], start. split; [repeat constructor; try discriminate; intros [H|[]]; discriminate|]. split; [exists []; split; [constructor|auto]|].
  eexists _, _, _, _. split; [reflexivity|]. split; [reflexivity|]. discriminate.
Qed.
Print Assumptions C154_detour_refuted.
(** It also changes the id of the plain root. *)
Theorem C154_plain_refuted : exists r r', plain_root r /\ path_ok r' /\ exists id1 i1 id2 i2 id3 i3,
  workspace_id r start = Some (id1, i1) /\ workspace_id r' i1 = Some (id2, i2) /\ workspace_id r i2 = Some (id3, i3) /\ id1 <> id3.
Proof.
  exists [RootC; Nor [98]%N], [RootC; Nor [97]%N; ParC; Nor [98]%N]. split; [split; [repeat constructor; try discriminate; intros [H|[]]; discriminate|reflexivity]|]. split; [repeat constructor; try discriminate; intros [H|[]]; discriminate|].
  eexists _, _, _, _, _, _. split; [reflexivity|]. split; [reflexivity|]. split; [reflexivity|]. discriminate.
Qed.
Print Assumptions C154_plain_refuted.
(** So one directory can use up all ids. *)
Theorem C154_exhausted_refuted : exists r n, path_ok r /\ interns (repeat r n) start = None.
Proof.
  set (r := [RootC; Nor [97]%N; ParC; Nor [98]%N]). assert (Hr : path_ok r) by (repeat constructor; try discriminate; intros [H|[]]; discriminate). assert (Hc : clean r <> r) by discriminate.
  exists r, (N.to_nat 65536 + 1). split; [auto|]. destruct (detours r Hr Hc (N.to_nat 65536)) as (i & H & L & R); [lia|]. rewrite repeat_app, interns_app, H. cbn [repeat interns]. unfold workspace_id. rewrite (detour_new r i R Hc), L.
  destruct (N.leb_spec (N.of_nat (N.to_nat 65536)) 65535) as [X|X]; [rewrite Nnat.N2Nat.id in X; lia|auto].
Qed.
Print Assumptions C154_exhausted_refuted.
Example C154_nonvacuous : exists i id i' id2 i2,
  interns [[RootC; Nor [97]%N]; [RootC; Nor [97]%N; Nor [98]%N]] start = Some i /\ workspace_id [RootC; Nor [97]%N] i = Some (id, i') /\ id = 0%N /\
  workspace_id [RootC; Nor [99]%N] i' = Some (id2, i2) /\ id2 = 2%N /\ path_of id2 i2 = Some [RootC; Nor [99]%N].
Proof. eexists _, _, _, _, _. split; [reflexivity|]. split; [reflexivity|]. split; [reflexivity|]. split; [reflexivity|]. split; reflexivity. Qed.

(** * C155: the paths of files *)

(** A file of a workspace is its path below the root of the workspace. *)
Theorem C155_workspace : forall i r v f i', reached i -> path_ok r -> workspace_file (Some r) v i = Some (f, i') ->
  is_workspace_file f = true /\ is_package_file f = false /\ vp f = v /\
  forall packages j, later i' j ->
    resolve_root packages j f = Fine (Some (clean r)) /\
    path_for_id packages j f = match vresolve (clean r) v with Some p => Fine (Resolved p) | None => Fails end.
Proof.
  intros i r v f i' R Hr H. unfold workspace_file in H. destruct (workspace_id r i) as [[id i1]|] eqn:E; [|discriminate]. injection H as <- <-. destruct (C154_path _ _ _ _ R Hr E) as (L & P).
  split; [reflexivity|]. split; [reflexivity|]. split; [reflexivity|]. intros packages j Hj. specialize (P j Hj). unfold resolve_root, path_for_id. rewrite resolve_package by auto. rewrite P. auto.
Qed.
Print Assumptions C155_workspace.
(** An untitled file knows its root but has no path; a file without root has neither. *)
Theorem C155_untitled : forall i r v f i', reached i -> path_ok r -> rooted_untitled (Some r) v i = Some (f, i') ->
  forall packages j, later i' j -> resolve_root packages j f = Fine (Some (clean r)) /\ path_for_id packages j f = Fine (AtNoRoot v).
Proof.
  intros i r v f i' R Hr H packages j Hj. unfold rooted_untitled in H. destruct (workspace_id r i) as [[id i1]|] eqn:E; [|discriminate]. injection H as <- <-. destruct (C154_path _ _ _ _ R Hr E) as (L & P). specialize (P j Hj).
  unfold resolve_root, path_for_id. rewrite resolve_untitled by auto. rewrite P. auto.
Qed.
Print Assumptions C155_untitled.
Theorem C155_rootless : forall packages i v, workspace_file None v i = Some (rootless_file v, i) /\ is_workspace_file (rootless_file v) = false /\ is_package_file (rootless_file v) = false /\ rooted_untitled None v i = Some (rootless_file v, i) /\
  resolve_root packages i (rootless_file v) = Fine None /\ path_for_id packages i (rootless_file v) = Fine (AtNoRoot v).
Proof. intros packages i v. repeat split. Qed.
Print Assumptions C155_rootless.
(** A file of a package is its path below the root of the package. *)
Theorem C155_package : forall packages i p v, ns p <> ws -> let f := {| pkg := Some p; vp := v |} in
  is_package_file f = true /\ is_workspace_file f = false /\
  resolve_root packages i f = match packages p with Some r => Fine (Some r) | None => Fails end /\
  path_for_id packages i f = match packages p with Some r => match vresolve r v with Some q => Fine (Resolved q) | None => Fails end | None => Fails end.
Proof.
  intros packages i p v H f. assert (E : text_eqb (ns p) ws = false) by (destruct (text_eqb (ns p) ws) eqn:E; [apply text_eqb_spec in E; contradiction|auto]).
  unfold f, is_package_file, is_workspace_file, resolve_root, path_for_id, resolve. cbn [pkg vp]. rewrite E. auto.
Qed.
Print Assumptions C155_package.
(** No path leads out of its root, whatever the text of the virtual path. *)
Theorem C155_inside : forall packages i f s p, vp f = vpath s -> path_for_id packages i f = Fine (Resolved p) ->
  exists root names, resolve_root packages i f = Fine (Some root) /\ p = root ++ map Nor names.
Proof.
  intros packages i f s p Hv H. destruct (vpath_shape s) as (k & ns & E). rewrite E in Hv. unfold path_for_id, resolve_root in *. destruct (resolve f) as [[id|id| |]|]; try discriminate.
  - destruct (path_of id i) as [root|]; [|discriminate]. rewrite Hv in H. destruct (vresolve root (repeat ParC k ++ map Nor ns)) as [q|] eqn:V; [|discriminate]. injection H as <-. apply vresolve_shape in V. eauto.
  - destruct (pkg f) as [q|]; [|discriminate]. destruct (packages q) as [root|]; [|discriminate]. rewrite Hv in H. destruct (vresolve root (repeat ParC k ++ map Nor ns)) as [q'|] eqn:V; [|discriminate]. injection H as <-. apply vresolve_shape in V. eauto.
Qed.
Print Assumptions C155_inside.
(** A path of names below the root is found. *)
Theorem C155_names : forall i r ns f i', reached i -> path_ok r -> workspace_file (Some r) (map Nor ns) i = Some (f, i') ->
  forall packages j, later i' j -> path_for_id packages j f = Fine (Resolved (clean r ++ map Nor ns)).
Proof. intros i r ns f i' R Hr H packages j Hj. destruct (C155_workspace _ _ _ _ _ R Hr H) as (_ & _ & _ & K). destruct (K packages j Hj) as (_ & ->). rewrite vresolve_names. auto. Qed.
Print Assumptions C155_names.
Lemma parent_snoc d n : parent (d ++ [Nor n]) = Some d.
Proof. unfold parent. rewrite rev_app_distr. cbn [rev app]. rewrite rev_involutive. auto. Qed.
Lemma file_name_snoc d n : file_name (d ++ [Nor n]) = Some [Nor n].
Proof. unfold file_name. rewrite rev_app_distr. reflexivity. Qed.
(** The file of an absolute path is that path. *)
Theorem C155_parent : forall i names n f i', reached i -> Forall name_ok names -> file_with_parent_root (RootC :: map Nor (names ++ [n])) i = Some (f, i') ->
  exists g, f = Some g /\ forall packages j, later i' j -> path_for_id packages j g = Fine (Resolved (RootC :: map Nor (names ++ [n]))).
Proof.
  intros i names n f i' R Hn H. assert (E : RootC :: map Nor (names ++ [n]) = (RootC :: map Nor names) ++ [Nor n]) by (rewrite map_app; reflexivity).
  unfold file_with_parent_root in H. rewrite E in *. change (is_abs ((RootC :: map Nor names) ++ [Nor n])) with true in H. rewrite parent_snoc, file_name_snoc in H.
  change (vpath [Nor n]) with (map Nor [n]) in H. cbv match in H.
  match type of H with context [workspace_file ?a ?b ?c] => destruct (workspace_file a b c) as [[g i1]|] eqn:W end; [|discriminate]. injection H as <- <-. exists g. split; [auto|]. intros packages j Hj.
  rewrite (C155_names i (RootC :: map Nor names) [n] g i1 R) with (packages := packages) (j := j); auto.
  - rewrite canonical_clean; [reflexivity|]. right. left. eauto.
  - cbn. apply Forall_map. eapply Forall_impl; [|exact Hn]. auto.
Qed.
Print Assumptions C155_parent.
(** Files of the same id are the same path in the same root. *)
Theorem C155_distinct : forall i r1 v1 f i1 j r2 v2 j', reached i -> path_ok r1 -> path_ok r2 ->
  workspace_file (Some r1) v1 i = Some (f, i1) -> later i1 j -> workspace_file (Some r2) v2 j = Some (f, j') -> clean r1 = clean r2 /\ v1 = v2.
Proof.
  intros i r1 v1 f i1 j r2 v2 j' R H1 H2 E1 L E2. unfold workspace_file in *. destruct (workspace_id r1 i) as [[id i1']|] eqn:W1; [|discriminate]. injection E1 as <- <-. destruct (workspace_id r2 j) as [[id2 j1]|] eqn:W2; [|discriminate]. injection E2 as En Ev Ej. subst.
  assert (id2 = id) by (eapply print_inj; [| |exact En]; lia). subst. split; [|auto]. eapply C154_distinct; eauto.
Qed.
Print Assumptions C155_distinct.
(** A package that a document names in the namespace of workspaces is a panic. *)
Theorem C155_panic_refuted : exists f, reached start /\ forall packages, path_for_id packages start f = Panics /\ resolve_root packages start f = Panics.
Proof. exists {| pkg := Some {| ns := ws; name := [112; 57; 57]%N; ver := (1, 0, 0)%N |}; vp := [Nor [97]%N] |}. split; [exists []; split; [constructor|auto]|]. intros packages. split; reflexivity. Qed.
Print Assumptions C155_panic_refuted.
(** Or it is a file of the workspace under another id. *)
Theorem C155_alias_refuted : exists i i' f g, reached i /\ workspace_file (Some [RootC; Nor [97]%N]) [Nor [98]%N] i = Some (f, i') /\ f <> g /\ forall packages, path_for_id packages i' f = path_for_id packages i' g.
Proof.
  exists start. eexists _, _, {| pkg := Some {| ns := ws; name := [112; 43; 48]%N; ver := (1, 0, 0)%N |}; vp := [Nor [98]%N] |}. split; [exists []; split; [constructor|auto]|]. split; [reflexivity|]. split; [intros E; apply (f_equal (fun f => match pkg f with Some p => length (name p) | None => 0 end)) in E; vm_compute in E; discriminate|]. intros packages. reflexivity.
Qed.
Print Assumptions C155_alias_refuted.
Example C155_nonvacuous : exists f i g i2,
  workspace_file (Some [RootC; Nor [97]%N]) (vpath [Nor [98]%N; ParC; Nor [99]%N]) start = Some (f, i) /\ path_for_id (fun _ => None) i f = Fine (Resolved [RootC; Nor [97]%N; Nor [99]%N]) /\
  workspace_file (Some [RootC; Nor [97]%N]) (vpath [ParC; Nor [99]%N]) i = Some (g, i2) /\ path_for_id (fun _ => None) i2 g = Fails.
Proof. eexists _, _, _, _. split; [reflexivity|]. split; [reflexivity|]. split; reflexivity. Qed.
