(** Theorems about the search for references. *)
From Coq Require Import List Arith Bool Lia.
From Verif Require Import ScopeModel ScopeSpec ScopeProof ScopeImport ScopeCheck ScopeFile.
From Verif Require Import RefsModel RefsSpec RefsProof RefsFile RefsProject.
Import ListNotations.

(** * C107: the references to a definition in the files of a workspace *)

(** The search finds what the tables of the files it reaches say, whatever
    the files. *)
Theorem C107_finds P d f0 n : length P <= n -> forall k s,
  In (k, s) (out (references P d f0 n))
  <-> reached P d f0 k /\ mentions_name P d k /\ refers P d k s.
Proof. exact (search_finds P d f0 n). Qed.
Print Assumptions C107_finds.

(** It comes to an end: each file is visited at most once more than the
    first. *)
Theorem C107_ends P d f0 n : length P <= n -> work (references P d f0 n) = [].
Proof. exact (search_ends P d f0 n). Qed.
Print Assumptions C107_ends.

(** No reference is reported twice if no file imports a later one. *)
Theorem C107_once P d f0 n :
  (forall k i f, nth_error P k = Some i -> In f (i_imports i) -> f < k) ->
  NoDup (out (references P d f0 n)).
Proof. intros A. apply search_once. now apply acyclic_once. Qed.
Print Assumptions C107_once.

(** Partial: in an acyclic project, of the files of which the table is right
    (C103), which hand the definition on under its own name in files that
    mention the name, and do not hand on what is selected from an unknown
    module: the references are the names that mean the definition. *)
Theorem C107_project_partial W n d f0 files m :
  2 <= n -> plain_world W -> tame_project W n 0 files -> open_project W n d f0 files ->
  length files <= m -> forall k s,
  In (k, s) (out (references (infos W n 0 files) d f0 m))
  <-> s <> 0 /\ exists file, nth_error files k = Some file
      /\ In (false, s, TDef d) (uses (project W n 0 (firstn k files)) file).
Proof. exact (project_uses W n d f0 files m). Qed.
Print Assumptions C107_project_partial.

(** Files whose tables are wrong do not spoil the search: what any table of
    an open project says is found. *)
Theorem C107_tables_partial W n d f0 files m :
  open_project W n d f0 files -> length files <= m -> forall k s,
  In (k, s) (out (references (infos W n 0 files) d f0 m)) <-> refers (infos W n 0 files) d k s.
Proof. intros O. exact (project_references W n d f0 files O m). Qed.
Print Assumptions C107_tables_partial.

(** A library without anything; the definition [x] (name 1) of file 0, a
    function. *)
Definition bare : world :=
  {| w_global := fun _ => None; w_math := fun _ => None; w_std := 9; w_stdval := 109;
     w_members := fun _ => None; w_field := fun _ _ => None; w_exports := fun _ => [] |}.
Definition dx : decl := DFunc 11 1.

(** [#let x(y) = y; #x], [#import "0": x; #x],
    [#import "1": *; #x; #{ let x = x; x }], [#{ import "2": x as z; z }]. *)
Definition g0 : list ast := [Fun 10 (Some (11, 1)) [(QPos (PVar 12 2), Lit)] (Id 13 2); Id 14 1].
Definition g1 : list ast :=
  [Import 20 (SFile 21 (Some 0) 30) None (Items [([(22, 1)], None)]); Id 23 1].
Definition g2 : list ast :=
  [Import 30 (SFile 31 (Some 1) 31) None Star; Id 32 1;
   Blk [Let (PVar 33 1) (Some (Id 34 1)); Id 35 1]].
Definition g3 : list ast :=
  [Blk [Import 40 (SFile 41 (Some 2) 32) None (Items [([(42, 1)], Some (43, 5))]); Id 44 5]].
Definition four : list (list ast) := [g0; g1; g2; g3].

Fixpoint distinct (l : list nat) : bool :=
  match l with [] => true | x :: l' => negb (existsb (Nat.eqb x) l') && distinct l' end.

Lemma distinct_NoDup l : distinct l = true -> NoDup l.
Proof.
  induction l as [|x l IH]; intros H; [constructor|]. cbn in H. apply andb_prop in H. destruct H as [A B].
  constructor; [|auto]. intros I. apply negb_true_iff in A.
  assert (T : existsb (Nat.eqb x) l = true) by (apply existsb_exists; exists x; split; [exact I|apply Nat.eqb_refl]).
  congruence.
Qed.

Ltac tame_tac := repeat (split; [vm_compute; reflexivity|split; [apply distinct_NoDup; reflexivity|]]); exact I.

Example C107_nonvacuous_hyp :
  plain_world bare /\ tame_project bare 2 0 four /\ open_project bare 2 dx 0 four.
Proof.
  split; [intros f x e []|]. split; [tame_tac|].
  split; [reflexivity|]. split; [intros f y e H; discriminate H|]. split.
  - intros k i H. do 4 (destruct k as [|k]; [injection H as <-;
      intros y e F; revert F; vm_compute; repeat (destruct y as [|y]; try discriminate); intros [= <-];
      repeat split; auto|]). destruct k; discriminate.
  - intros k file H. do 4 (destruct k as [|k]; [injection H as <-; vm_compute; intros F;
      repeat (destruct F as [F|F]; [try discriminate; try reflexivity|]); try destruct F|]). destruct k; discriminate.
Qed.

Example C107_nonvacuous :
  out (references (infos bare 2 0 four) dx 0 4)
  = [(3, 44); (3, 43); (3, 42); (2, 34); (2, 32); (1, 23); (1, 22); (0, 14); (0, 11)].
Proof. vm_compute. reflexivity. Qed.

Example C107_nonvacuous_uses :
  In (false, 44, TDef dx) (uses (project bare 2 0 (firstn 3 four)) g3)
  /\ In (false, 34, TDef dx) (uses (project bare 2 0 (firstn 2 four)) g2)
  /\ In (false, 35, TDef (DVar 33 1)) (uses (project bare 2 0 (firstn 2 four)) g2).
Proof. vm_compute. tauto. Qed.

(** A name that means the definition and is not reported. *)
Definition missed (files : list (list ast)) (k s : nat) : Prop :=
  exists file, tame_project bare 2 0 files /\ nth_error files k = Some file
    /\ In (false, s, TDef dx) (uses (project bare 2 0 (firstn k files)) file)
    /\ ~ In (k, s) (out (references (infos bare 2 0 files) dx 0 (length files))).

Ltac missed_tac := eexists; split; [tame_tac|split; [reflexivity|split; [vm_compute; tauto|]]];
  vm_compute; let F := fresh in intros F; repeat (destruct F as [F|F]; [discriminate|]); destruct F.

(** [#import "0": *] hands [x] on without mentioning it:
    [#import "1": x; #x] is not searched. *)
Theorem C107_star_refuted : exists files k s, missed files k s.
Proof.
  exists [g0; [Import 20 (SFile 21 (Some 0) 30) None Star];
          [Import 30 (SFile 31 (Some 1) 31) None (Items [([(32, 1)], None)]); Id 33 1]], 2, 33.
  missed_tac.
Qed.
Print Assumptions C107_star_refuted.

(** [#import "0": x as y] hands [x] on as [y]: [#import "1": y; #y] is not
    searched. *)
Theorem C107_alias_refuted : exists files k s, missed files k s.
Proof.
  exists [g0; [Import 20 (SFile 21 (Some 0) 30) None (Items [([(22, 1)], Some (23, 5))])];
          [Import 30 (SFile 31 (Some 1) 31) None (Items [([(32, 5)], None)]); Id 33 5]], 2, 33.
  missed_tac.
Qed.
Print Assumptions C107_alias_refuted.

(** [#import "0" as m; #m.x]: fields of modules are not references. *)
Theorem C107_field_refuted : exists files k s file,
  nth_error files k = Some file
  /\ In (false, s, TDef dx) (uses (project bare 2 0 (firstn k files)) file)
  /\ ~ In (k, s) (out (references (infos bare 2 0 files) dx 0 (length files))).
Proof.
  exists [g0; [Import 20 (SFile 21 (Some 0) 30) (Some (22, 5)) Whole; Field (Id 23 5) 24 1]], 1, 24.
  eexists. split; [reflexivity|]. split; [vm_compute; tauto|].
  vm_compute. intros F. repeat (destruct F as [F|F]; [discriminate|]). destruct F.
Qed.
Print Assumptions C107_field_refuted.

(** Of a definition in a file of a package only the references in that file
    are found. *)
Theorem C107_package_refuted : exists P k s,
  P = [analyse bare 2 false g0; analyse (provide bare 0 (exports bare 2 g0)) 2 true g1]
  /\ refers P dx k s /\ ~ In (k, s) (out (references P dx 0 (length P))).
Proof.
  eexists _, 1, 23. split; [reflexivity|]. split.
  - eexists _, _. split; [reflexivity|]. split; [discriminate|]. split; [vm_compute; reflexivity|vm_compute; reflexivity].
  - vm_compute. intros F. repeat (destruct F as [F|F]; [discriminate|]). destruct F.
Qed.
Print Assumptions C107_package_refuted.

(** Two files that import each other: the references in the first are
    reported twice. *)
Theorem C107_cycle_refuted : exists P f0,
  (forall k i, nth_error P k = Some i -> i_ws i = true)
  /\ ~ NoDup (out (references P dx f0 (length P))).
Proof.
  exists [mkinfo true [(11, as_def dx)] [(1, EDecl dx)] [1] [1];
          mkinfo true [(22, mkref (DImport 22 1) (Some (EDecl dx)) (Some (EDecl dx)) None)]
            [(1, ERef (DImport 22 1) (Some (EDecl dx)) (Some (EDecl dx)) None)] [1] [0]], 0.
  split.
  - intros k i H. do 2 (destruct k as [|k]; [now injection H as <-|]). destruct k; discriminate.
  - vm_compute. intros N. inversion N as [|? ? N1 _]. apply N1. cbn. tauto.
Qed.
Print Assumptions C107_cycle_refuted.
