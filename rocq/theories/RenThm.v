(** Theorems about renaming. *)
From Coq Require Import List Arith Bool Lia.
From Verif Require Import ScopeModel ScopeSpec RefsModel RefsSpec RefsProject RefsThm RenModel RenSpec RenProof RenProject.
Import ListNotations.

(** * C108: renaming a definition *)

(** Partial: in the projects of C107 without imports of everything at the
    top of a file, to a name that occurs nowhere, and if no import takes
    what it imports from the definition: after the edits every name of every
    file means what it meant, the definition under its new name. *)
Theorem C108_keeps_partial W n new d f0 m files :
  2 <= n -> plain_world W -> tame_project W n 0 files -> open_project W n d f0 files ->
  (forall file, In file files -> stars_all file = false) ->
  (forall file, In file files -> ~ In 0 (marks_all file)) ->
  fresh W files new -> no_source W files d -> length files <= m -> forall k,
  means W (ren_files (edits (infos W n 0 files) d f0 m) new 0 files) k
  = map (use_renamed d new) (means W files k).
Proof. exact (rename_keeps W n new d f0 m files). Qed.
Print Assumptions C108_keeps_partial.

(** The edits are at names that mean the definition, and at all of them. *)
Theorem C108_edits_partial W n new d f0 m files :
  2 <= n -> plain_world W -> tame_project W n 0 files -> open_project W n d f0 files ->
  (forall file, In file files -> stars_all file = false) ->
  (forall file, In file files -> ~ In 0 (marks_all file)) ->
  fresh W files new -> no_source W files d -> length files <= m -> forall k s,
  In (k, s) (edits (infos W n 0 files) d f0 m) <-> exists b, In (b, s, TDef d) (means W files k).
Proof. exact (rename_edits W n new d f0 m files). Qed.
Print Assumptions C108_edits_partial.

(** Whatever the files and the edits: the files stay, and nothing in them
    changes but names; without edits nothing does. *)
Theorem C108_files l new files k :
  length (ren_files l new k files) = length files
  /\ ren_files [] new k files = files
  /\ forall file, In file (ren_files l new k files) -> exists f, In f files /\ marks_all file = marks_all f.
Proof. exact (ren_files_same l new files k). Qed.
Print Assumptions C108_files.

(** [#let x(y) = y; #x], [#import "0": x; #x],
    [#{ import "1": *; x; { let x = x; x } }], [#{ import "1": x as z; z }]. *)
Definition h2 : list ast :=
  [Blk [Import 30 (SFile 31 (Some 1) 31) None Star; Id 32 1;
        Blk [Let (PVar 33 1) (Some (Id 34 1)); Id 35 1]]].
Definition h3 : list ast :=
  [Blk [Import 40 (SFile 41 (Some 1) 31) None (Items [([(42, 1)], Some (43, 5))]); Id 44 5]].
Definition work4 : list (list ast) := [g0; g1; h2; h3].

Ltac not_in := vm_compute; let F := fresh in intros F; repeat (destruct F as [F|F]; [discriminate|]); destruct F.

Lemma work4_open : open_project bare 2 dx 0 work4.
Proof.
  split; [reflexivity|]. split; [intros f y e H; discriminate H|]. split.
  - intros k i H. do 4 (destruct k as [|k]; [injection H as <-;
      intros y e F; revert F; vm_compute; repeat (destruct y as [|y]; try discriminate); intros [= <-];
      repeat split; auto|]). destruct k; discriminate.
  - intros k file H. do 4 (destruct k as [|k]; [injection H as <-; vm_compute; intros F;
      repeat (destruct F as [F|F]; [try discriminate; try reflexivity|]); try destruct F|]). destruct k; discriminate.
Qed.

Ltac each := let I := fresh in intros ? I; repeat (destruct I as [<-|I]; [|]); try destruct I.

Example C108_nonvacuous_hyp :
  plain_world bare /\ tame_project bare 2 0 work4 /\ open_project bare 2 dx 0 work4
  /\ (forall file, In file work4 -> stars_all file = false)
  /\ (forall file, In file work4 -> ~ In 0 (marks_all file))
  /\ fresh bare work4 7 /\ no_source bare work4 dx.
Proof.
  split; [intros f x e []|]. split; [tame_tac|]. split; [exact work4_open|].
  split; [each; reflexivity|]. split; [each; not_in|]. split.
  - split; [discriminate|]. split; [reflexivity|]. split; [reflexivity|]. each;
      (split; intros x F; vm_compute in F; repeat (destruct F as [<-|F]; [try split; discriminate|]); destruct F).
  - intros k s t. do 4 (destruct k as [|k]; [vm_compute; intros H;
      repeat (destruct H as [H|H];
        [first [discriminate|injection H as <- <-; split; [discriminate|
           let F := fresh in intros F; repeat (destruct F as [F|F]; [discriminate|]); destruct F]]|]); destruct H|]).
    intros H. destruct k; destruct H.
Qed.

Example C108_nonvacuous :
  let l := edits (infos bare 2 0 work4) dx 0 4 in
  l = [(2, 34); (2, 32); (3, 44); (3, 43); (3, 42); (1, 23); (1, 22); (0, 14); (0, 11)]
  /\ ren_files l 7 0 work4
     = [[Fun 10 (Some (11, 7)) [(QPos (PVar 12 2), Lit)] (Id 13 2); Id 14 7];
        [Import 20 (SFile 21 (Some 0) 30) None (Items [([(22, 7)], None)]); Id 23 7];
        [Blk [Import 30 (SFile 31 (Some 1) 31) None Star; Id 32 7;
              Blk [Let (PVar 33 1) (Some (Id 34 7)); Id 35 1]]];
        [Blk [Import 40 (SFile 41 (Some 1) 31) None (Items [([(42, 7)], Some (43, 7))]); Id 44 7]]].
Proof. vm_compute. split; reflexivity. Qed.

(** What renaming a definition of a project to a name spoils: after the
    edits a name no longer means what it meant. *)
Definition spoilt (W : world) (files : list (list ast)) (d : decl) (new : nat) : Prop :=
  tame_project W 2 0 files
  /\ exists k, means W (ren_files (edits (infos W 2 0 files) d 0 (length files)) new 0 files) k
       <> map (use_renamed d new) (means W files k).

(** The new name is taken: [#let x() = none; #let y = 0; #x] with [x] renamed
    to [y].  The server does not look. *)
Theorem C108_capture_refuted : exists files new, new <> 0 /\ spoilt bare files dx new.
Proof.
  exists [[Fun 10 (Some (11, 1)) [] Lit; Let (PVar 12 2) (Some Lit); Id 14 1]], 2.
  split; [discriminate|]. split; [tame_tac|]. exists 0. vm_compute. discriminate.
Qed.
Print Assumptions C108_capture_refuted.

(** The name of a variable that means a module: [#let x = m; #import x: *]. *)
Theorem C108_source_refuted : exists files d new, fresh bare files new /\ spoilt bare files d new.
Proof.
  exists [[Let (PVar 11 1) (Some Lit); Import 20 (SName 21 1) None Star]], (DVar 11 1), 2.
  split.
  - split; [discriminate|]. split; [reflexivity|]. split; [reflexivity|]. each;
      (split; intros x F; vm_compute in F; repeat (destruct F as [<-|F]; [try split; discriminate|]); destruct F).
  - split; [tame_tac|]. exists 0. vm_compute. discriminate.
Qed.
Print Assumptions C108_source_refuted.

(** [#import "0" as m; #m.x]: the field keeps the old name. *)
Theorem C108_field_refuted : exists files new k, fresh bare files new
  /\ means bare (ren_files (edits (infos bare 2 0 files) dx 0 (length files)) new 0 files) k
     <> map (use_renamed dx new) (means bare files k).
Proof.
  exists [g0; [Import 20 (SFile 21 (Some 0) 30) (Some (22, 5)) Whole; Field (Id 23 5) 24 1]], 7, 1.
  split.
  - split; [discriminate|]. split; [reflexivity|]. split; [reflexivity|]. each;
      (split; intros x F; vm_compute in F; repeat (destruct F as [<-|F]; [try split; discriminate|]); destruct F).
  - vm_compute. discriminate.
Qed.
Print Assumptions C108_field_refuted.

(** [#import "0": x as y] hands the definition on as [y], which is edited;
    [#import "1": y; #y] is not. *)
Theorem C108_alias_refuted : exists files new, fresh bare files new /\ spoilt bare files dx new.
Proof.
  exists [g0; [Import 20 (SFile 21 (Some 0) 30) None (Items [([(22, 1)], Some (23, 5))])];
          [Import 30 (SFile 31 (Some 1) 31) None (Items [([(32, 5)], None)]); Id 33 5]], 7.
  split.
  - split; [discriminate|]. split; [reflexivity|]. split; [reflexivity|]. each;
      (split; intros x F; vm_compute in F; repeat (destruct F as [<-|F]; [try split; discriminate|]); destruct F).
  - split; [tame_tac|]. exists 2. vm_compute. discriminate.
Qed.
Print Assumptions C108_alias_refuted.
