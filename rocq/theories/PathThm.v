(** C51, C75-C77: paths. *)
From Coq Require Import List NArith Bool Lia.
From Verif Require Import DigModel PageModel PathModel PathSpec PathProof.
Import ListNotations.
Open Scope N_scope.

(** Names for the examples. *)
Definition na : list chr := [97].
Definition nb : list chr := [98].
Definition nc : list chr := [99].

(** C51: normalising the components of any text is idempotent and leaves names only. *)
Theorem C51_idempotent : forall s, let p := normalize (components s) in normalize p = p.
Proof. intros s. apply normalize_idem, components_ok. Qed.
Print Assumptions C51_idempotent.
Theorem C51_names_only : forall s, Forall (fun c => c <> CurC /\ c <> ParC) (normalize (components s)).
Proof. intros s. apply normalize_ok, components_ok. Qed.
Print Assumptions C51_names_only.
(** C51: an absolute path stays absolute and leads to the same place; two absolute paths to one
    place have the same normal form. *)
Theorem C51_absolute : forall s, is_abs (components s) = true ->
  is_abs (normalize (components s)) = true /\ (forall b, walk b (normalize (components s)) = walk b (components s)) /\
  (forall t, is_abs (components t) = true -> walk [] (components t) = walk [] (components s) -> normalize (components t) = normalize (components s)).
Proof.
  intros s A. pose proof (components_ok s) as P. destruct (normalize_ok _ P) as (_ & _ & B). rewrite A in B. split; [exact B|]. split.
  - intros b. rewrite (walk_absolute _ b B), (walk_absolute _ b A). now apply walk_normalize.
  - intros t C W. rewrite !normalize_spec by apply components_ok. unfold head_of. now rewrite A, C, W.
Qed.
Print Assumptions C51_absolute.
(** C51: in general the normal form is where the path leads from a directory without parents. *)
Theorem C51_form : forall s, normalize (components s) = (if is_abs (components s) then [RootC] else []) ++ map Nor (rev (walk [] (components s))).
Proof. intros s. apply normalize_spec, components_ok. Qed.
Print Assumptions C51_form.
Example C51_nonvacuous : components [47; 97; 47; 46; 47; 98; 47; 47; 46; 46; 47; 99] = [RootC; Nor na; Nor nb; ParC; Nor nc] /\
  normalize [RootC; Nor na; Nor nb; ParC; Nor nc] = [RootC; Nor na; Nor nc] /\ normalize [RootC; ParC; ParC; Nor na] = [RootC; Nor na].
Proof. repeat split. Qed.
(** C51: a relative path that starts with ".." is changed to one that leads elsewhere. *)
Theorem C51_relative_changes : exists s b, is_abs (components s) = false /\ walk b (normalize (components s)) <> walk b (components s).
Proof. exists [46; 46; 47; 97], [nb]. split; [reflexivity|]. vm_compute. discriminate. Qed.
Print Assumptions C51_relative_changes.

(** C75: from any absolute path there is a relative path to any other, and it leads there. *)
Theorem C75_absolute : forall fr to, is_abs (components fr) = true -> is_abs (components to) = true ->
  exists d, diff (components fr) (components to) = Some d /\ is_abs d = false /\ forall b, walk (walk b (components to)) d = walk b (components fr).
Proof. intros fr to A B. destruct (diff_abs _ _ (components_ok fr) (components_ok to) A B) as (d & D & R & _ & W). eauto. Qed.
Print Assumptions C75_absolute.
(** C75: the same for relative paths.  What is missing: the empty path, and paths to be left
    that go up further than the paths to reach. *)
Theorem C75_relative_partial : forall fr to, is_abs (components fr) = false -> is_abs (components to) = false -> components fr <> [] ->
  (ups (clean (components to)) <= ups (clean (components fr)))%nat ->
  exists d, diff (components fr) (components to) = Some d /\ is_abs d = false /\ forall b, walk (walk b (components to)) d = walk b (components fr).
Proof. intros fr to A B N U. destruct (diff_rel _ _ (components_ok fr) (components_ok to) N A B U) as (d & D & R & _ & W). eauto. Qed.
Print Assumptions C75_relative_partial.
(** C75: an absolute path is kept if the other one is relative; the other way round there is none. *)
Theorem C75_mixed : forall fr to d, is_abs (components fr) <> is_abs (components to) ->
  (diff (components fr) (components to) = Some d -> is_abs (components fr) = true /\ forall b, walk (walk b (components to)) d = walk b (components fr)) /\
  (is_abs (components fr) = false -> diff (components fr) (components to) = None).
Proof. intros fr to d. apply diff_mixed; apply components_ok. Qed.
Print Assumptions C75_mixed.
(** C75: the path that is offered for completion leads from the directory to the file. *)
Theorem C75_completion : forall file dir, is_abs (components file) = true -> is_abs (components dir) = true ->
  exists s, completion_label (components file) (components dir) = Some s /\ is_abs (components s) = false /\
    walk (walk [] (components dir)) (components s) = walk [] (components file).
Proof. intros f d. apply completion_leads; apply components_ok. Qed.
Print Assumptions C75_completion.
(** C75: writing a path with slashes and reading it gives a path to the same place, and writing
    again changes nothing. *)
Theorem C75_slash : forall s b, walk b (components (unix_slash (components s))) = walk b (components s) /\
  unix_slash (components (unix_slash (components s))) = unix_slash (components s).
Proof.
  intros s b. pose proof (components_ok s) as P. split; [now apply walk_slash|]. rewrite slash_components by auto.
  destruct (components s) as [|[| | |n] r]; try reflexivity. cbn [plain]. destruct r as [|[| | |n] r]; cbn in P; try reflexivity; inversion P; contradiction.
Qed.
Print Assumptions C75_slash.
(** C75: cleaning a path keeps where it leads and leaves no detours; it is idempotent. *)
Theorem C75_clean : forall s, canonical (clean (components s)) /\ clean (clean (components s)) = clean (components s) /\
  forall b, walk b (clean (components s)) = walk b (components s).
Proof.
  intros s. pose proof (components_ok s) as P. split; [now apply clean_canonical|]. split; [now apply clean_idem|]. intros b. apply clean_walk.
Qed.
Print Assumptions C75_clean.
Example C75_nonvacuous :
  let f := [47; 97; 47; 98; 47; 46; 46; 47; 99] in let t := [47; 97; 47; 98] in
  is_abs (components f) = true /\ is_abs (components t) = true /\ diff (components f) (components t) = Some [ParC; Nor nc] /\
  completion_label (components f) (components t) = Some [46; 46; 47; 99] /\
  diff [ParC; Nor na] [ParC; Nor nb] = Some [ParC; Nor na] /\ clean [Nor na; ParC; ParC; Nor nb] = [ParC; Nor nb] /\
  (ups (clean [ParC; Nor nb]) <= ups (clean [ParC; Nor na]))%nat.
Proof. repeat split; vm_compute; auto. Qed.
(** C75: from "../.." to ".." the answer is "..", and from "." to the empty path as well. *)
Theorem C75_up_refuted : exists fr to d b, components fr <> [] /\ diff (components fr) (components to) = Some d /\
  walk (walk b (components to)) d <> walk b (components fr).
Proof. exists [46; 46], [46; 46; 47; 46; 46], [ParC], [na; nb; nc]. repeat split; vm_compute; discriminate. Qed.
Print Assumptions C75_up_refuted.
Theorem C75_empty_refuted : exists to d b, diff [] (components to) = Some d /\ walk (walk b (components to)) d <> walk b [].
Proof. exists [46], [ParC], [na]. split; [reflexivity|]. vm_compute. discriminate. Qed.
Print Assumptions C75_empty_refuted.

(** C76: after a file was moved inside of a project at [rt], every reference that led to it
    leads to its new place; [b] is the directory of the referring file in the project. *)
Theorem C76_references : forall old new rt ov nv, is_abs (components old) = true -> is_abs (components new) = true ->
  walk [] (components old) = ov ++ rt -> walk [] (components new) = nv ++ rt ->
  exists d, rename_diff (components old) (components new) = Some d /\
    forall b s, walk b (components s) = ov -> walk b (components (edit_ref true d s)) = nv.
Proof.
  intros old new rt ov nv A B WO WN. destruct (rename_diff_abs _ _ (components_ok old) (components_ok new) A B) as (d & D & O & _). exists d. split; [exact D|].
  intros b s W. unfold edit_ref. rewrite walk_rename_ref by auto. rewrite W. apply (rename_diff_inside _ _ rt ov nv d (components_ok old) (components_ok new) A B WO WN D).
Qed.
Print Assumptions C76_references.
(** C76: references that lead elsewhere are left alone. *)
Theorem C76_others : forall d s, edit_ref false d s = s.
Proof. reflexivity. Qed.
Print Assumptions C76_others.
(** C76: a file that is renamed through a reference gets the place that the new text leads to.
    What is missing: new names that are absolute or go up less far than the reference. *)
Theorem C76_target_partial : forall old ref name b t, is_abs (components ref) = false -> is_abs (components name) = false ->
  components name <> [] -> (ups (clean (components ref)) <= ups (clean (components name)))%nat ->
  walk b (components ref) = walk [] (components old) -> rename_target (components old) ref name = Some t ->
  walk [] t = walk b (components name).
Proof. intros old ref name b t A B N U W E. apply (rename_target_leads (components old) ref name t b (components_ok old) A B N U W E). Qed.
Print Assumptions C76_target_partial.
Example C76_nonvacuous :
  let old := [47; 114; 47; 97] in let new := [47; 114; 47; 98; 47; 99] in
  walk [] (components old) = [na] ++ [[114]] /\ walk [] (components new) = [nc; nb] ++ [[114]] /\
  rename_diff (components old) (components new) = Some [ParC; Nor nb; Nor nc] /\
  walk [nc] (components [46; 46; 47; 97]) = [na] /\ rename_ref [ParC; Nor nb; Nor nc] [46; 46; 47; 97] = [46; 46; 47; 98; 47; 99] /\
  rename_target (components old) na nb = Some [RootC; Nor [114]; Nor nb] /\ walk [[114]] (components na) = walk [] (components old).
Proof. repeat split. Qed.
(** C76: the references inside of the moved file are not changed, and lead elsewhere from its
    new directory ([tl] of its place) unless it moved within its directory. *)
Theorem C76_moved_file_refuted : exists ov nv s, walk (tl nv) (components s) <> walk (tl ov) (components s).
Proof. exists [na], [nc; nb], nb. vm_compute. discriminate. Qed.
Print Assumptions C76_moved_file_refuted.
(** C76: if the file is renamed through a reference, a new name that goes up less far than the
    reference is refused or, when only ".." remains, taken for another place. *)
Theorem C76_target_refuted : exists old ref name b, walk b (components ref) = walk [] (components old) /\ rename_target (components old) ref name = None.
Proof. exists [47; 97], [46; 46; 47; 97], nb, [nc]. split; reflexivity. Qed.
Print Assumptions C76_target_refuted.

(** C77: a path that is stored in the lock file leads back to the same place if the lock file is
    in the current directory. *)
Theorem C77_same_directory : forall base inp, is_abs (components base) = true ->
  exists s, from_user_sys (components base) (components inp) = Some s /\
    walk [] (to_abs_path (components base) s) = walk (walk [] (components base)) (components inp).
Proof. intros base inp. apply lock_leads; apply components_ok. Qed.
Print Assumptions C77_same_directory.
Example C77_nonvacuous : from_user_sys [RootC; Nor na] [RootC; Nor nb; Nor nc] = Some [46; 46; 47; 98; 47; 99] /\
  to_abs_path [RootC; Nor na] [46; 46; 47; 98; 47; 99] = [RootC; Nor na; ParC; Nor nb; Nor nc].
Proof. split; reflexivity. Qed.
(** C77: if the program runs in another directory than that of the lock file, even an absolute
    input is read back as another file. *)
Theorem C77_other_directory_refuted : exists cwd base inp s, is_abs cwd = true /\ is_abs base = true /\ is_abs (components inp) = true /\
  from_user_sys cwd (components inp) = Some s /\ walk [] (to_abs_path base s) <> walk [] (components inp).
Proof. exists [RootC; Nor na], [RootC; Nor na; Nor nb], [47; 97; 47; 98; 47; 99], [98; 47; 99]. repeat split; vm_compute; discriminate. Qed.
Print Assumptions C77_other_directory_refuted.
