(** Theorems about what the names of a file refer to. *)
From Coq Require Import List Arith Bool Lia.
From Verif Require Import ScopeModel ScopeSpec ScopeProof ScopeImport ScopeCheck ScopeFile.
Import ListNotations.

(** A library with a module [calc] (name 4, value 100) that has [abs] (name
    5, value 101), a file 1 that exports [x] (name 1) and a file 2 that
    exports nothing. *)
Definition lib : world :=
  {| w_global := fun x => if Nat.eqb x 4 then Some 100 else None;
     w_math := fun _ => None; w_std := 9; w_stdval := 109;
     w_members := fun v => if Nat.eqb v 100 then Some [(5, 101)] else None;
     w_field := fun v x => if Nat.eqb v 100 && Nat.eqb x 5 then Some 101 else None;
     w_exports := fun f => if Nat.eqb f 1 then [(1, EDecl (DVar 1000 1))] else [] |}.

Lemma lib_plain : plain_world lib.
Proof.
  intros f x e H. cbn in H. destruct (Nat.eqb f 1); [|destruct H].
  destruct H as [H|[]]. now injection H as <- <-.
Qed.

Fixpoint nodup (l : list nat) : bool :=
  match l with [] => true | x :: l' => negb (existsb (Nat.eqb x) l') && nodup l' end.

Lemma nodup_NoDup l : nodup l = true -> NoDup l.
Proof.
  induction l as [|x l IH]; intros H; [constructor|]. cbn in H. apply andb_prop in H. destruct H as [A B].
  constructor; [|auto]. intros I. apply negb_true_iff in A.
  assert (T : existsb (Nat.eqb x) l = true) by (apply existsb_exists; exists x; split; [exact I|apply Nat.eqb_refl]).
  congruence.
Qed.

Lemma tame_last n files file : forall W k,
  tame_project W n k (files ++ [file]) ->
  tame_project W n k files
  /\ tame_all (project W n k files) file [] = true /\ NoDup (marks_all file).
Proof.
  induction files as [|g files IH]; intros W k T.
  - destruct T as [A [B _]]. cbn. auto.
  - destruct T as [T1 [T2 T3]]. destruct (IH _ _ T3) as [A [B C]]. split; [|split; assumption].
    split; [exact T1|]. split; [exact T2|exact A].
Qed.

(** * C103: what a name refers to *)

(** Partial: in the files of an acyclic project without the constructs of
    the refutations below. *)
Theorem C103_project_resolves_partial W n k files file :
  2 <= n -> plain_world W -> tame_project W n k (files ++ [file]) ->
  forall W', W' = project W n k files ->
  forall s t, In (false, s, t) (uses W' file) ->
  exists r, resolves W' n file s = Some r /\ tgt_of_ref r = t.
Proof.
  intros N PW T W' -> s t I.
  pose proof (tame_last n files file W k T) as H.
  destruct H as [A [B C]].
  destruct (file_resolves (project W n k files) n file N (project_plain n files W k N PW A) B C) as [_ [_ [R _]]].
  auto.
Qed.
Print Assumptions C103_project_resolves_partial.

(** File 5 is [#import "1": *; #let f(y, z: x) = {let w = y; w + z + x}; #let x = x; #for i in x { f(i) }]
    and file 6 is [#import "5": f, x as y; #import calc as c; #f(y, c)]. *)
Definition f5 : list ast :=
  [Import 10 (SFile 11 (Some 1) 20) None Star;
   Fun 12 (Some (13, 3)) [(QPos (PVar 14 2), Lit); (QNamed 15 6, Id 16 1)]
     (Blk [Let (PVar 17 7) (Some (Id 18 2)); Group [Id 19 7; Id 20 6; Id 21 1]]);
   Let (PVar 22 1) (Some (Id 23 1));
   For (PVar 24 8) (Id 25 1) (Blk [Group [Id 26 3; Id 27 8]])].
Definition f6 : list ast :=
  [Import 30 (SFile 31 (Some 5) 21) None (Items [([(32, 3)], None); ([(33, 1)], Some (34, 2))]);
   Import 35 (SName 36 4) (Some (37, 10)) Whole;
   Group [Id 38 3; Id 39 2; Id 40 10]].

Example C103_nonvacuous_hyp : 2 <= 2 /\ plain_world lib /\ tame_project lib 2 5 ([f5] ++ [f6]).
Proof.
  split; [lia|]. split; [exact lib_plain|].
  split; [reflexivity|]. split; [apply nodup_NoDup; reflexivity|].
  split; [vm_compute; reflexivity|]. split; [apply nodup_NoDup; reflexivity|exact I].
Qed.

Example C103_nonvacuous_f5 :
  In (false, 16, TDef (DVar 1000 1)) (uses lib f5) /\ In (false, 21, TDef (DVar 1000 1)) (uses lib f5)
  /\ In (false, 23, TDef (DVar 1000 1)) (uses lib f5) /\ In (false, 25, TDef (DVar 22 1)) (uses lib f5)
  /\ In (false, 26, TDef (DFunc 13 3)) (uses lib f5) /\ In (false, 27, TDef (DVar 24 8)) (uses lib f5).
Proof. vm_compute. tauto. Qed.

Example C103_nonvacuous_f6 :
  let W := project lib 2 5 [f5] in
  In (false, 38, TDef (DFunc 13 3)) (uses W f6) /\ In (false, 34, TDef (DVar 22 1)) (uses W f6)
  /\ In (false, 39, TDef (DVar 22 1)) (uses W f6) /\ In (false, 40, TVal 100) (uses W f6).
Proof. vm_compute. tauto. Qed.

(** The constructs of which the table says something else, each in a file
    whose spans are distinct. *)

Ltac misread_tac := split; [apply nodup_NoDup; reflexivity|]; split; [vm_compute; tauto|];
  let r := fresh "r" in intros r; vm_compute; intros [= <-]; discriminate.

(** [#let x = (); #for x in x {}]: the iterable is taken to be the loop's own
    variable. *)
Theorem C103_for_iterable_refuted : exists file s t,
  NoDup (marks_all file) /\ misread lib 2 file s t.
Proof.
  exists [Let (PVar 10 1) (Some Lit); For (PVar 11 1) (Id 12 1) (Blk [])], 12, (TDef (DVar 10 1)).
  misread_tac.
Qed.
Print Assumptions C103_for_iterable_refuted.

(** [#let x = 1; #let f(x, y: x) = y]: the default is taken to be the
    parameter before it. *)
Theorem C103_default_refuted : exists file s t,
  NoDup (marks_all file) /\ misread lib 2 file s t.
Proof.
  exists [Let (PVar 10 1) (Some Lit);
          Fun 11 (Some (12, 3)) [(QPos (PVar 13 1), Lit); (QNamed 14 2, Id 15 1)] (Id 16 2)],
         15, (TDef (DVar 10 1)).
  misread_tac.
Qed.
Print Assumptions C103_default_refuted.

(** [= #let x = 1 \n #x]: what a heading, a list item, a term defines is not
    known after it. *)
Theorem C103_item_refuted : exists file s t,
  NoDup (marks_all file) /\ misread lib 2 file s t.
Proof.
  exists [Item [Let (PVar 10 1) (Some Lit)]; Id 11 1], 11, (TDef (DVar 10 1)).
  misread_tac.
Qed.
Print Assumptions C103_item_refuted.

(** [#let x = 1; #{ ((x,) = (2,)) }; ...]: the target of a destructuring
    assignment is taken to be a new variable. *)
Theorem C103_assign_refuted : exists file s t,
  NoDup (marks_all file) /\ misread lib 2 file s t.
Proof.
  exists [Let (PVar 10 1) (Some Lit); Assign (PTuple [PVar 11 1]) Lit], 11, (TDef (DVar 10 1)).
  misread_tac.
Qed.
Print Assumptions C103_assign_refuted.

(** [#import "2": b.x] where file 2 exports nothing and [#import "1": b.x]
    where file 1 exports [x] but not [b]: the last name of the path is
    looked up in the module itself. *)
Theorem C103_item_path_refuted : exists file s t,
  NoDup (marks_all file) /\ misread lib 2 file s t.
Proof.
  exists [Import 10 (SFile 11 (Some 1) 20) None (Items [([(12, 2); (13, 1)], None)])], 13, TUnknown.
  misread_tac.
Qed.
Print Assumptions C103_item_path_refuted.

(** [#import "1.typ" as m; #{ import m; m }] with a file named [n.typ]: the
    plain import binds the name of the file. *)
Theorem C103_rebound_module_refuted : exists file s t,
  NoDup (marks_all file) /\ misread lib 2 file s t.
Proof.
  exists [Let (PVar 10 20) (Some Lit); Import 11 (SFile 12 (Some 1) 20) (Some (13, 2)) Whole;
          Import 14 (SName 15 2) None Whole; Id 16 20], 16, (TDef (DVar 10 20)).
  misread_tac.
Qed.
Print Assumptions C103_rebound_module_refuted.

(** [#import calc: abs; #abs]: the table has neither a definition nor a
    value for [abs]. *)
Theorem C103_library_item_refuted : exists file s t,
  NoDup (marks_all file) /\ misread lib 2 file s t.
Proof.
  exists [Import 10 (SName 11 4) None (Items [([(12, 5)], None)]); Id 13 5], 13, (TVal 101).
  misread_tac.
Qed.
Print Assumptions C103_library_item_refuted.

(** [#import "1.typ" as m; #m.x]: there is no entry for a field of a
    module. *)
Theorem C103_field_refuted : exists file s t,
  NoDup (marks_all file) /\ misread lib 2 file s t.
Proof.
  exists [Import 10 (SFile 11 (Some 1) 20) (Some (12, 2)) Whole; Field (Id 13 2) 14 1], 14, (TDef (DVar 1000 1)).
  split; [apply nodup_NoDup; reflexivity|]. split; [vm_compute; tauto|].
  intros r. vm_compute. discriminate.
Qed.
Print Assumptions C103_field_refuted.

(** * C104: what a file exports *)

(** Partial: in a file that imports everything of no module where its own
    names are defined. *)
Theorem C104_exports_partial W n file :
  2 <= n -> plain_world W -> tame_all W file [] = true -> NoDup (marks_all file) -> stars_all file = false ->
  (forall x, x <> 0 -> find x (bound W file) = option_map texp (find x (exports W n file)))
  /\ forall d, local d = true -> dname d <> 0 ->
     (is_exported d (exports W n file) = true <-> find (dname d) (bound W file) = Some (TDef d)).
Proof.
  intros N PW T ND S. pose proof (file_exports W n file N PW T ND S) as X. split; [exact X|].
  intros d L Z. rewrite (X _ Z). unfold is_exported.
  assert (D : forall d', (if decl_eq_dec d' d then true else false) = true <-> d' = d).
  { intros d'. destruct (decl_eq_dec d' d); split; auto; discriminate. }
  assert (R : forall d', (match d' with DMod f _ => TMod f | _ => TDef d' end) = TDef d <-> d' = d).
  { intros d'. destruct d'; split; intros H; try discriminate; try (subst; discriminate); congruence. }
  destruct (find (dname d) (exports W n file)) as [e|]; cbn [option_map]; [|split; discriminate].
  destruct e as [d'|d' st0 [[d''| | | |]|] te| | |]; cbn [texp rtgt];
    try (split; [discriminate|intros H; discriminate]).
  - rewrite D, <- R. split; [congruence|]. intros H. injection H. auto.
  - rewrite D, <- R. split; [congruence|]. intros H. injection H. auto.
  - destruct te; split; discriminate.
Qed.
Print Assumptions C104_exports_partial.

(** With such imports at least the names are right. *)
Theorem C104_names_partial W n file :
  2 <= n -> plain_world W -> tame_all W file [] = true -> NoDup (marks_all file) ->
  forall x, x <> 0 -> (find x (exports W n file) = None <-> find x (bound W file) = None).
Proof. exact (file_names W n file). Qed.
Print Assumptions C104_names_partial.

Definition f7 : list ast :=
  [Import 10 (SFile 11 (Some 1) 20) None (Items [([(12, 1)], Some (13, 2))]);
   Let (PVar 14 1) (Some (Blk [Let (PVar 15 3) (Some Lit); Id 16 3]));
   Let (PVar 17 1) (Some (Id 18 1))].

Example C104_nonvacuous :
  tame_all lib f7 [] = true /\ NoDup (marks_all f7) /\ stars_all f7 = false
  /\ find 1 (bound lib f7) = Some (TDef (DVar 17 1)) /\ find 2 (bound lib f7) = Some (TDef (DVar 1000 1))
  /\ find 3 (bound lib f7) = None
  /\ is_exported (DVar 17 1) (exports lib 2 f7) = true /\ is_exported (DVar 14 1) (exports lib 2 f7) = false.
Proof. split; [reflexivity|]. split; [apply nodup_NoDup; reflexivity|]. vm_compute. tauto. Qed.

(** [#import "1": *; #let x = 2] where file 1 exports [x]: the file exports
    the imported [x]. *)
Theorem C104_exports_refuted : exists file x,
  tame_all lib file [] = true /\ NoDup (marks_all file) /\ x <> 0
  /\ find x (bound lib file) = Some (TDef (DVar 12 x))
  /\ option_map texp (find x (exports lib 2 file)) = Some (TDef (DVar 1000 x)).
Proof.
  exists [Let (PVar 9 2) (Some Lit); Import 10 (SFile 11 (Some 1) 20) None Star;
          Import 14 (SFile 15 (Some 2) 21) None Star; Let (PVar 12 1) (Some Lit)], 1.
  split; [reflexivity|]. split; [apply nodup_NoDup; reflexivity|]. split; [lia|]. split; reflexivity.
Qed.
Print Assumptions C104_exports_refuted.

(** * C105: the references to a definition *)

(** Partial: in files without the constructs of C103's refutations, and the
    sources of imports set aside. *)
Theorem C105_references_partial W n file :
  2 <= n -> plain_world W -> tame_all W file [] = true -> NoDup (marks_all file) ->
  forall d s, local d = true ->
  ((exists r, resolves W n file s = Some r /\ is_ref d r = true) <-> In (false, s, TDef d) (uses W file)).
Proof. intros N PW T ND. destruct (file_resolves W n file N PW T ND) as [_ [_ [_ H]]]. exact H. Qed.
Print Assumptions C105_references_partial.

Example C105_nonvacuous :
  option_map (is_ref (DVar 22 1)) (resolves lib 2 f5 22) = Some true
  /\ option_map (is_ref (DVar 22 1)) (resolves lib 2 f5 25) = Some true
  /\ option_map (is_ref (DVar 22 1)) (resolves lib 2 f5 23) = Some false
  /\ option_map (is_ref (DVar 1000 1)) (resolves lib 2 f5 23) = Some true.
Proof. vm_compute. tauto. Qed.

(** [#let p = "a.typ"; #import p: *]: the use of [p] is not a reference to
    it. *)
Theorem C105_import_source_refuted : exists file d s,
  tame_all lib file [] = true /\ NoDup (marks_all file)
  /\ local d = true /\ In (true, s, TDef d) (uses lib file) /\ resolves lib 2 file s = None.
Proof.
  exists [Let (PVar 10 1) (Some Lit); Import 11 (SName 12 1) None Star], (DVar 10 1), 12.
  split; [reflexivity|]. split; [apply nodup_NoDup; reflexivity|]. vm_compute. tauto.
Qed.
Print Assumptions C105_import_source_refuted.

(** * C106: the analysis of names comes to an end, and no scope is lost *)

(** Whatever the file and whatever the stage, the stack of scopes never
    runs empty. *)
Theorem C106_scopes_paired W n i file : crashed (run W n i file) = false.
Proof. exact (run_no_crash W n i file). Qed.
Print Assumptions C106_scopes_paired.

(** A block leaves the scopes as it found them. *)
Theorem C106_block_restores W n es w :
  last (check W n (Blk es) w) = last w /\ up (check W n (Blk es) w) = up w
  /\ crashed (check W n (Blk es) w) = crashed w.
Proof. exact (block_restores W n es w). Qed.
Print Assumptions C106_block_restores.

(** Partial: in files without the constructs of C103's refutations two
    steps suffice to follow any reference. *)
Theorem C106_follow_partial W n file :
  2 <= n -> plain_world W -> tame_all W file [] = true -> NoDup (marks_all file) ->
  stuck (run W n false file) = false.
Proof. intros N PW T ND. destruct (file_resolves W n file N PW T ND) as [H _]. exact H. Qed.
Print Assumptions C106_follow_partial.

Definition f8 : list ast :=
  [Import 10 (SFile 11 (Some 1) 20) (Some (12, 2)) Whole;
   Import 13 (SName 14 2) None (Items [([(15, 1)], None)])].

Example C106_nonvacuous :
  crashed (with_scope (set_scopes (SLex []) []) (start false)) = true
  /\ tame_all lib f8 [] = true /\ nodup (marks_all f8) = true
  /\ stuck (run lib 1 false f8) = true /\ stuck (run lib 2 false f8) = false.
Proof. vm_compute. tauto. Qed.

(** [#import "2.typ" as x: x; #import x: y] where file 2 exports no [x]:
    however many steps are allowed, following the second import's source
    does not end. *)
Definition circle : list ast :=
  [Import 10 (SFile 11 (Some 2) 20) (Some (12, 1)) (Items [([(13, 1)], None)]);
   Import 14 (SName 15 1) None (Items [([(16, 2)], None)])].

Definition sel_x : expr := ESel (DRef 13 1) (EDecl (DModAlias 12 1)).
Definition ref_x : expr := ERef (DImport 13 1) (Some sel_x) (Some sel_x) None.
Definition lost (r : st * option expr) : Prop := stuck (fst r) = true /\ snd r = None.

Lemma circle_stuck w : eval_ident lib w 1 false = (Some ref_x, None) -> forall n,
  lost (fold_expr lib n (Some (EDecl (DModAlias 12 1))) w)
  /\ lost (fold_expr lib n (Some ref_x) w)
  /\ lost (fold_expr lib n (Some sel_x) w).
Proof.
  intros E. induction n as [|n [A [B C]]]; [cbn; unfold lost; cbn; tauto|].
  split; [|split].
  - cbn [fold_expr is_def dname]. rewrite E. exact B.
  - unfold ref_x. cbn [fold_expr]. exact C.
  - unfold sel_x. cbn [fold_expr]. destruct A as [A1 A2].
    destruct (fold_expr lib n (Some (EDecl (DModAlias 12 1))) w) as [w1 l]. cbn in A1, A2. subst l. split; [exact A1|reflexivity].
Qed.

Theorem C106_follow_refuted : exists file, NoDup (marks_all file)
  /\ forall n, stuck (run lib n false file) = true.
Proof.
  exists circle. split; [apply nodup_NoDup; reflexivity|]. intros n.
  unfold run, circle. cbn [fold_left].
  set (w := check lib n _ (start false)).
  assert (E : eval_ident lib w 1 false = (Some ref_x, None)) by reflexivity.
  destruct (circle_stuck w E n) as [_ [[S1 S2] _]].
  clearbody w. cbn [check]. unfold check_module_import, check_import. cbn [eval_src]. rewrite E. cbn [fold_cc].
  destruct (fold_expr lib n (Some ref_x) w) as [w1 l]. cbn in S1, S2. subst l.
  cbn. unfold insert. cbn. destruct (last w1); exact S1.
Qed.
Print Assumptions C106_follow_refuted.
