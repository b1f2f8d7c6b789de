(** C115-C118: the coverage of a run, and the session of the debugger. *)
From Coq Require Import String Ascii List Arith Bool Lia.
From Verif Require Import CovModel CovSpec CovProof CovRunProof CovTreeProof CovCountProof.
Import ListNotations.
Local Open Scope nat_scope.
Local Open Scope list_scope.

(** ** C115: instrumenting a file only adds *)

Theorem C115_adds : forall root, contexts_ok root ->
  exists parts,
    flat_map part_text parts = fst (instrument root) /\
    trims root (flat_map kept_text parts) /\
    (no_context root -> flat_map kept_text parts = src root) /\
    calls 0 parts (length (snd (instrument root))).
Proof.
  intros root H. exists (map part_of (fst (visit Visit root 0))).
  destruct (instrument_pieces root) as [H1 H2]. rewrite H1, H2, part_texts.
  pose proof (kept_visit root Visit 0 H) as Hk.
  split; [reflexivity|]. split; [exact Hk|]. split.
  - intro Hn. apply trims_src; [exact Hn|exact Hk].
  - apply (calls_visit root Visit 0).
Qed.
Print Assumptions C115_adds.

Theorem C115_places : forall root,
  Forall (fun m => fst m = 0 \/ In (fst m) (spans_of root)) (snd (instrument root)).
Proof. intro root. rewrite (proj2 (instrument_pieces root)). apply placed_visit. Qed.
Print Assumptions C115_places.

(** A show rule that is followed by a semicolon: a line break comes between them. *)
Definition show_semi : node :=
  Node KToken 1 [] [leaf 2 (codes "#");
    Node KShow 3 [] [leaf 4 (codes "show"); leaf 5 (codes ":"); leaf 6 (codes " "); Node KExpr 7 (codes "f") []];
    leaf 8 (codes ";")].

Theorem C115_break_refuted : exists root before,
  contexts_ok root /\ ~ In 10 (src root) /\
  (exists a, src root = a ++ codes "f;") /\
  fst (instrument root) = before ++ [10] ++ codes ";".
Proof.
  exists show_semi. eexists. split; [|split; [|split]].
  - cbn. repeat split; discriminate.
  - cbn. intuition discriminate.
  - exists (codes "#show: "). reflexivity.
  - vm_compute. match goal with |- ?l = _ => instantiate (1 := removelast (removelast l)) end. reflexivity.
Qed.
Print Assumptions C115_break_refuted.

(** [#context {1};] *)
Definition a_context : node :=
  Node KToken 1 [] [leaf 2 (codes "#");
    Node KContext 3 [] [leaf 4 (codes "context"); leaf 5 (codes "  ");
      Node KBlock 6 [] [leaf 7 (codes "{"); Node KToken 8 [] [Node KExpr 9 (codes "1") []]; leaf 10 (codes "}")]];
    leaf 11 (codes ";")].

Example C115_nonvacuous :
  contexts_ok a_context /\
  fst (instrument a_context) =
    codes "#context ({" ++ [10] ++ codes "__cov_pc(0);" ++ [10] ++ codes "{1}" ++ [10] ++ codes "__cov_pc(1);" ++ [10] ++ codes "});" /\
  snd (instrument a_context) = [(7, OpenBrace); (10, CloseBrace)] /\
  no_context show_semi /\ length (snd (instrument show_semi)) = 1.
Proof.
  split; [|repeat split; try (intro; discriminate)].
  cbn. repeat split; try discriminate. exists 4, [leaf 5 (codes "  ")].
  exists (Node KBlock 6 [] [leaf 7 (codes "{"); Node KToken 8 [] [Node KExpr 9 (codes "1") []]; leaf 10 (codes "}")]).
  repeat split; [|discriminate]. intros c [<-|[]]. reflexivity.
Qed.

(** ** C116: the program runs as before, and bodies are reported *)

Theorem C116_result_partial : forall es n, program es n -> spans_ok n -> Forall tidy es ->
  exists es' n', program es' n' /\ src n' = fst (instrument n) /\
    forall L k, alike (snd (run_program L k es)) (snd (run_program L k es')).
Proof.
  intros es n Hp Hs Ht. destruct (program_text es n Hp Hs) as (es' & n' & H1 & H2 & H3).
  exists es', n'. split; [exact H1|]. split; [exact H3|]. intros L k.
  apply (proj1 (run_same L es k es' _ Ht H2)).
Qed.
Print Assumptions C116_result_partial.

Theorem C116_report_partial : forall es n, program es n -> spans_ok n -> Forall tidy es ->
  Forall no_pc es -> Forall (reportable false) es ->
  exists es' n', program es' n' /\ src n' = fst (instrument n) /\
    forall L k,
      alike (snd (run_program L k es)) (snd (run_program L k es')) /\
      map (nth_error (snd (instrument n))) (pcs (fst (run_program L k es'))) = map Some (report (fst (run_program L k es))).
Proof.
  intros es n Hp Hs Ht Hn Hr. destruct (program_text es n Hp Hs) as (es' & n' & H1 & H2 & H3).
  exists es', n'. split; [exact H1|]. split; [exact H3|]. intros L k.
  destruct (run_same L es k es' _ Ht H2) as [Ha Hb]. auto.
Qed.
Print Assumptions C116_report_partial.

(** The calls made are among the marks: no call of an instrumented program is outside the table of counts. *)
Theorem C116_bounds : forall es n, program es n -> spans_ok n -> Forall tidy es ->
  Forall no_pc es -> Forall (reportable false) es ->
  exists es' n', program es' n' /\ src n' = fst (instrument n) /\
    forall L k, Forall (fun i => i < length (snd (instrument n))) (pcs (fst (run_program L k es'))).
Proof.
  intros es n Hp Hs Ht Hn Hr. destruct (C116_report_partial es n Hp Hs Ht Hn Hr) as (es' & n' & H1 & H2 & H3).
  exists es', n'. split; [exact H1|]. split; [exact H2|]. intros L k. destruct (H3 L k) as [_ H4].
  apply Forall_forall. intros i Hi. apply nth_error_Some. intro Hc.
  assert (Hx : In (nth_error (snd (instrument n)) i) (map Some (report (fst (run_program L k es))))).
  { rewrite <- H4. apply in_map. exact Hi. }
  rewrite Hc in Hx. apply in_map_iff in Hx. destruct Hx as (x & Hx & _). discriminate.
Qed.
Print Assumptions C116_bounds.

(** A language for examples: everything else is a literal, [no] is false. *)
Definition L0 : lang :=
  {| lit := fun t => Some t; prim := fun _ a b => Some (a ++ b);
     truth := fun t => Some (negb (eqt t (codes "no"))); joins := fun a b => Some (a ++ b);
     items := fun t => Some (map (fun c => [c]) t) |}.

Lemma white_sp : forall s, white [leaf s [32]].
Proof. intro s. constructor; [|constructor]. exists s, [32]. split; [reflexivity|]. split; [discriminate|]. constructor; [cbn; tauto|constructor]. Qed.
Lemma white_nil : white [].
Proof. constructor. Qed.

(** [#if no [a] else if yes [b];]: the second branch is run and not reported. *)
Definition content (s : nat) (t : list nat) : node :=
  Node KExpr s [] [leaf (s + 1) (codes "["); Node KToken (s + 2) [] [Node KExpr (s + 3) t []]; leaf (s + 4) (codes "]")].
Definition sp (s : nat) : node := leaf s [32].

Definition elseif_tree : node :=
  Node KToken 1 []
   [leaf 2 (codes "#");
    Node KIf 3 [] (leaf 4 (codes "if") :: [sp 5] ++ Node KExpr 6 (codes "no") [] :: [sp 7] ++ content 10 (codes "a") ::
      [sp 20] ++ leaf 21 (codes "else") :: [sp 22] ++
      [Node KIf 30 [] (leaf 31 (codes "if") :: [sp 32] ++ Node KExpr 33 (codes "yes") [] :: [sp 34] ++ [content 40 (codes "b")])]);
    leaf 50 (codes ";")].
Definition elseif : list expr :=
  [EIf2 (EAtom (codes "no")) 11 14 (EContent [EText (codes "a")]) 31 40
     (EIf1 (EAtom (codes "yes")) 41 44 (EContent [EText (codes "b")]))].

Lemma content_tree : forall s t, t <> [] -> tree (EContent [EText t]) (content s t).
Proof. intros s t H. apply tree_content. apply markup_text; [exact H|constructor]. Qed.

Lemma elseif_program : program elseif elseif_tree.
Proof.
  exists 1. eexists. split; [reflexivity|].
  apply (markup_code 2 _ _ 50 []); [|constructor].
  apply (tree_if2 (EAtom (codes "no")) (EContent [EText (codes "a")])
    (EIf1 (EAtom (codes "yes")) 41 44 (EContent [EText (codes "b")]))
    (Node KExpr 6 (codes "no") []) (content 10 (codes "a"))
    (Node KIf 30 [] (leaf 31 (codes "if") :: [sp 32] ++ Node KExpr 33 (codes "yes") [] :: [sp 34] ++ [content 40 (codes "b")]))
    3 4 21 [sp 5] [sp 7] [sp 20] [sp 22]); try apply white_sp; try discriminate; try exact I;
    try (apply content_tree; discriminate); try (apply tree_atom; discriminate).
  apply (tree_if1 (EAtom (codes "yes")) (EContent [EText (codes "b")]) (Node KExpr 33 (codes "yes") []) (content 40 (codes "b")) 30 31 [sp 32] [sp 34]);
    try apply white_sp; try discriminate; try exact I; try (apply content_tree; discriminate); try (apply tree_atom; discriminate).
Qed.

Ltac spans := cbn; repeat split; try lia; repeat (constructor; [cbn; intuition discriminate|]); constructor.

Lemma elseif_spans : spans_ok elseif_tree.
Proof. spans. Qed.

Theorem C116_report_refuted : exists es n L k s,
  program es n /\ spans_ok n /\ Forall tidy es /\ Forall no_pc es /\
  In (s, OpenBrace) (report (fst (run_program L k es))) /\ ~ In (s, OpenBrace) (snd (instrument n)).
Proof.
  exists elseif, elseif_tree, L0, 1, 41.
  split; [exact elseif_program|]. split; [exact elseif_spans|].
  split; [constructor; [cbn; tauto|constructor]|]. split; [constructor; [cbn; tauto|constructor]|].
  split; vm_compute; intuition discriminate.
Qed.
Print Assumptions C116_report_refuted.

(** [#let f = y => yes;#if no [a] else if f(let z = 1) [b];#z;] with [no], [yes] literals:
    the variable is lost. *)
Definition scope_tree : node :=
  Node KToken 1 []
   [leaf 2 (codes "#");
    Node KExpr 3 [] (leaf 4 (codes "let") :: [sp 5] ++ Node KExpr 6 (codes "f") [] :: [] ++ leaf 7 (codes "=") :: [] ++
      [Node KClosure 8 [] (Node KToken 9 [] [Node KExpr 10 (codes "y") []] :: [] ++ leaf 11 (codes "=>") :: [] ++ [Node KExpr 12 (codes "yes") []])]);
    leaf 13 (codes ";");
    leaf 102 (codes "#");
    Node KIf 103 [] (leaf 104 (codes "if") :: [sp 105] ++ Node KExpr 106 (codes "no") [] :: [sp 107] ++ content 110 (codes "a") ::
      [sp 120] ++ leaf 121 (codes "else") :: [sp 122] ++
      [Node KIf 130 [] (leaf 131 (codes "if") :: [sp 132] ++
         Node KExpr 133 [] [Node KExpr 134 (codes "f") []; Node KToken 135 [] [leaf 136 (codes "(");
           Node KExpr 137 [] (leaf 138 (codes "let") :: [sp 139] ++ Node KExpr 140 (codes "z") [] :: [] ++ leaf 141 (codes "=") :: [] ++ [Node KExpr 142 (codes "1") []]);
           leaf 143 (codes ")")]] :: [sp 144] ++ [content 150 (codes "b")])]);
    leaf 160 (codes ";");
    leaf 161 (codes "#"); Node KExpr 162 (codes "z") []; leaf 163 (codes ";")].
Definition scope_prog : list expr :=
  [ELet (codes "f") (EClo (codes "y") 0 0 (EAtom (codes "yes")));
   EIf2 (EAtom (codes "no")) 111 114 (EContent [EText (codes "a")]) 131 150
     (EIf1 (EApp (EAtom (codes "f")) (ELet (codes "z") (EAtom (codes "1")))) 151 154 (EContent [EText (codes "b")]));
   EAtom (codes "z")].

Lemma scope_program : program scope_prog scope_tree.
Proof.
  exists 1. eexists. split; [reflexivity|].
  apply (markup_code 2 _ _ 13 []); [|apply (markup_code 102 _ _ 160 []); [|apply (markup_code 161 _ _ 163 []); [apply tree_atom; discriminate|constructor]]].
  - apply tree_let; try apply white_sp; try apply white_nil; try discriminate.
    apply (tree_clo (codes "y") (EAtom (codes "yes")) (Node KExpr 12 (codes "yes") [])); try apply white_nil; try discriminate.
    apply tree_atom; discriminate.
  - apply (tree_if2 (EAtom (codes "no")) (EContent [EText (codes "a")])
      (EIf1 (EApp (EAtom (codes "f")) (ELet (codes "z") (EAtom (codes "1")))) 151 154 (EContent [EText (codes "b")]))
      (Node KExpr 106 (codes "no") []) (content 110 (codes "a"))
      (Node KIf 130 [] (leaf 131 (codes "if") :: [sp 132] ++
         Node KExpr 133 [] [Node KExpr 134 (codes "f") []; Node KToken 135 [] [leaf 136 (codes "(");
           Node KExpr 137 [] (leaf 138 (codes "let") :: [sp 139] ++ Node KExpr 140 (codes "z") [] :: [] ++ leaf 141 (codes "=") :: [] ++ [Node KExpr 142 (codes "1") []]);
           leaf 143 (codes ")")]] :: [sp 144] ++ [content 150 (codes "b")]))
      103 104 121 [sp 105] [sp 107] [sp 120] [sp 122]); try apply white_sp; try discriminate; try exact I;
      try (apply content_tree; discriminate); try (apply tree_atom; discriminate).
    apply (tree_if1 (EApp (EAtom (codes "f")) (ELet (codes "z") (EAtom (codes "1")))) (EContent [EText (codes "b")])
      (Node KExpr 133 [] [Node KExpr 134 (codes "f") []; Node KToken 135 [] [leaf 136 (codes "(");
           Node KExpr 137 [] (leaf 138 (codes "let") :: [sp 139] ++ Node KExpr 140 (codes "z") [] :: [] ++ leaf 141 (codes "=") :: [] ++ [Node KExpr 142 (codes "1") []]);
           leaf 143 (codes ")")]])
      (content 150 (codes "b")) 130 131 [sp 132] [sp 144]);
      try apply white_sp; try discriminate; try exact I; try (apply content_tree; discriminate).
    apply tree_app; [apply tree_atom; discriminate|].
    apply tree_let; try apply white_sp; try apply white_nil; try discriminate. apply tree_atom; discriminate.
Qed.

(** every word is a literal but [z] *)
Definition L1 : lang :=
  {| lit := fun t => if eqt t (codes "z") then None else Some t; prim := fun _ _ _ => None;
     truth := fun t => Some (negb (eqt t (codes "no"))); joins := fun a b => Some (a ++ b);
     items := fun _ => None |}.

Theorem C116_result_refuted : exists es n es' n' L k,
  program es n /\ spans_ok n /\ program es' n' /\ src n' = fst (instrument n) /\
  (exists v env fl, snd (run_program L k es) = Ok v env fl) /\ snd (run_program L k es') = Err.
Proof.
  assert (Hs : spans_ok scope_tree) by spans.
  destruct (program_text scope_prog scope_tree scope_program Hs) as (es' & n' & H1 & H2 & H3).
  exists scope_prog, scope_tree, es', n', L1, 1.
  split; [exact scope_program|]. split; [exact Hs|]. split; [exact H1|]. split; [exact H3|].
  assert (He : es' = fst (seqT (T None) scope_prog 0)) by (rewrite H2; reflexivity).
  rewrite He. split; [eexists; eexists; eexists; vm_compute; reflexivity|vm_compute; reflexivity].
Qed.
Print Assumptions C116_result_refuted.

(** [#let f = y => {y};#while no {1};#f(2);] *)
Definition prog_tree : node :=
  Node KToken 1 []
   [leaf 2 (codes "#");
    Node KExpr 3 [] (leaf 4 (codes "let") :: [sp 5] ++ Node KExpr 6 (codes "f") [] :: [] ++ leaf 7 (codes "=") :: [] ++
      [Node KClosure 8 [] (Node KToken 9 [] [Node KExpr 10 (codes "y") []] :: [] ++ leaf 11 (codes "=>") :: [] ++
         [Node KBlock 20 [] [leaf 21 (codes "{"); Node KToken 22 [] ([] ++ Node KExpr 23 (codes "y") [] :: []); leaf 24 (codes "}")]])]);
    leaf 13 (codes ";");
    leaf 30 (codes "#");
    Node KWhile 31 [] (leaf 32 (codes "while") :: [sp 33] ++ Node KExpr 34 (codes "no") [] :: [sp 35] ++
      [Node KBlock 40 [] [leaf 41 (codes "{"); Node KToken 42 [] ([] ++ Node KExpr 43 (codes "1") [] :: []); leaf 44 (codes "}")]]);
    leaf 50 (codes ";");
    leaf 51 (codes "#");
    Node KExpr 52 [] [Node KExpr 53 (codes "f") []; Node KToken 54 [] [leaf 55 (codes "("); Node KExpr 56 (codes "2") []; leaf 57 (codes ")")]];
    leaf 58 (codes ";")].
Definition prog : list expr :=
  [ELet (codes "f") (EClo (codes "y") 21 24 (EBlock 21 24 [EAtom (codes "y")]));
   EWhile (EAtom (codes "no")) 41 44 (EBlock 41 44 [EAtom (codes "1")]);
   EApp (EAtom (codes "f")) (EAtom (codes "2"))].

Lemma block_tree : forall s o c s1 s2 t, t <> [] ->
  tree (EBlock o c [EAtom t]) (Node KBlock s [] [leaf o (codes "{"); Node KToken s1 [] ([] ++ Node KExpr s2 t [] :: []); leaf c (codes "}")]).
Proof. intros. apply tree_block. apply code_cons; [apply white_nil|apply tree_atom; assumption|apply code_nil, white_nil|left; reflexivity]. Qed.

Lemma prog_program : program prog prog_tree.
Proof.
  exists 1. eexists. split; [reflexivity|].
  apply (markup_code 2 _ _ 13 []); [|apply (markup_code 30 _ _ 50 []); [|apply (markup_code 51 _ _ 58 []); [|constructor]]].
  - apply tree_let; try apply white_sp; try apply white_nil; try discriminate.
    apply (tree_clo (codes "y") (EBlock 21 24 [EAtom (codes "y")])
      (Node KBlock 20 [] [leaf 21 (codes "{"); Node KToken 22 [] ([] ++ Node KExpr 23 (codes "y") [] :: []); leaf 24 (codes "}")]));
      try apply white_nil; try discriminate. apply block_tree. discriminate.
  - apply (tree_while (EAtom (codes "no")) (EBlock 41 44 [EAtom (codes "1")]) (Node KExpr 34 (codes "no") [])
      (Node KBlock 40 [] [leaf 41 (codes "{"); Node KToken 42 [] ([] ++ Node KExpr 43 (codes "1") [] :: []); leaf 44 (codes "}")]) 31 32 [sp 33] [sp 35]);
      try apply white_sp; try discriminate; try exact I; [apply tree_atom; discriminate|apply block_tree; discriminate].
  - apply tree_app; apply tree_atom; discriminate.
Qed.

Example C116_nonvacuous :
  program prog prog_tree /\ spans_ok prog_tree /\ Forall tidy prog /\ Forall no_pc prog /\ Forall (reportable false) prog /\
  report (fst (run_program L0 3 prog)) = [(21, OpenBrace); (24, CloseBrace)] /\
  snd (instrument prog_tree) = [(21, OpenBrace); (24, CloseBrace); (41, OpenBrace); (44, CloseBrace)] /\
  match snd (run_program L0 3 prog) with Ok v _ Go => v = VBase (codes "2") | _ => False end.
Proof.
  split; [exact prog_program|]. split; [spans|].
  split; [repeat (constructor; [cbn; tauto|]); constructor|].
  split; [repeat (constructor; [cbn; tauto|]); constructor|].
  split; [repeat (constructor; [cbn; tauto|]); constructor|].
  split; [vm_compute; reflexivity|]. split; vm_compute; reflexivity.
Qed.

(** ** C117: the counts *)

Theorem C117_counts_partial : forall base l, legal base l ->
  exists w, run base l world0 = Some w /\
    forall f root, In (Read f) l -> base f = Some root ->
      exists h, hits (counts w) f = Some h /\ length h = length (snd (instrument root)) /\
        forall i, i < length h -> nth_error h i = Some (Nat.min 255 (calls_of f i l)).
Proof.
  intros base l H. destruct (legal_inv base l H) as (w & Hr & HI). exists w. split; [exact Hr|].
  intros f root Hin Hb. destruct (inv_some _ _ _ HI f root Hin Hb) as (p & h & A & B & C & D & E).
  exists h. unfold hits. rewrite A, B. auto.
Qed.
Print Assumptions C117_counts_partial.

Theorem C117_once : forall base l, legal base l ->
  exists w, run base l world0 = Some w /\
    (forall f, In (Read f) l -> source base f w = (w, option_map (fun root => fst (instrument root)) (base f))) /\
    (forall f, ~ In (Read f) l -> hits (counts w) f = None).
Proof.
  intros base l H. destruct (legal_inv base l H) as (w & Hr & HI). exists w. split; [exact Hr|]. split.
  - intros f Hin. unfold source. destruct (get f (given w)) as [r|] eqn:E.
    + rewrite (inv_text _ _ _ HI f r E). reflexivity.
    + apply (inv_given _ _ _ HI) in E. tauto.
  - intros f Hin. unfold hits. rewrite (inv_none _ _ _ HI f (or_introl Hin)). reflexivity.
Qed.
Print Assumptions C117_once.

Theorem C117_report_partial : forall base l, legal base l ->
  exists w, run base l world0 = Some w /\
    forall f root range, In (Read f) l -> base f = Some root ->
      let m := snd (instrument root) in
      exists h, hits (counts w) f = Some h /\
        details range h 0 m =
          Some (flat_map (fun '(k, (s, _)) => match range s with Some r => [(0 <? calls_of f k l, r)] | None => [] end)
                  (combine (seq 0 (length m)) m)) /\
        summary (counts w) f = Some (length (filter (fun k => 0 <? calls_of f k l) (seq 0 (length m))), length m).
Proof.
  intros base l H. destruct (legal_inv base l H) as (w & Hr & HI). exists w. split; [exact Hr|].
  intros f root range Hin Hb m. destruct (inv_some _ _ _ HI f root Hin Hb) as (p & h & A & B & C & D & E).
  exists h. unfold summary, hits. rewrite A, B, D. fold m in C |- *. split; [reflexivity|]. split.
  - apply details_eq. intros k Hk. cbn [Nat.add]. apply E. lia.
  - rewrite (covered_eq (fun k => calls_of f k l) h 0) by (intros k Hk; cbn [Nat.add]; apply E; exact Hk).
    rewrite C. reflexivity.
Qed.
Print Assumptions C117_report_partial.

(** A document that makes a call of its own: [#__cov_pc(7);]. *)
Definition own_tree : node :=
  Node KToken 1 [] [leaf 2 (codes "#");
    Node KExpr 3 [] [Node KExpr 4 (codes "__cov_pc") []; Node KToken 5 [] [leaf 6 (codes "("); Node KExpr 7 (codes "7") []; leaf 8 (codes ")")]];
    leaf 9 (codes ";")].

Theorem C117_panic_refuted : exists es n L k,
  program es n /\ spans_ok n /\ pcs (fst (run_program L k es)) = [7] /\ fst (instrument n) = src n /\
  run (fun _ => Some n) [Read 0; Call 0 7] world0 = None.
Proof.
  exists [EPc 7], own_tree, L0, 1. split.
  - exists 1. eexists. split; [reflexivity|]. apply (markup_code 2 _ _ 9 []); [|constructor]. apply tree_pc.
    repeat split; cbn; try lia; try discriminate; constructor; [lia|constructor].
  - split; [spans|]. repeat split.
Qed.
Print Assumptions C117_panic_refuted.

(** [#let f = y => y;#f(1);]: both marks have no place. *)
Definition noplace_tree : node :=
  Node KToken 1 [] [leaf 2 (codes "#");
    Node KExpr 3 [] (leaf 4 (codes "let") :: [sp 5] ++ Node KExpr 6 (codes "f") [] :: [] ++ leaf 7 (codes "=") :: [] ++
      [Node KClosure 8 [] (Node KToken 9 [] [Node KExpr 10 (codes "y") []] :: [] ++ leaf 11 (codes "=>") :: [] ++ [Node KExpr 12 (codes "y") []])]);
    leaf 13 (codes ";")].

(** Marks that the summary counts and the report leaves out. *)
Theorem C117_placeless_refuted : exists root w,
  spans_ok root /\ run (fun _ => Some root) [Read 0] world0 = Some w /\
  summary (counts w) 0 = Some (0, 2) /\
  forall range h, range 0 = None -> hits (counts w) 0 = Some h -> details range h 0 (snd (instrument root)) = Some [].
Proof.
  exists noplace_tree. eexists. split; [spans|]. split; [reflexivity|]. split; [reflexivity|].
  intros range h Hr Hh. vm_compute in Hh. injection Hh as <-.
  change (snd (instrument noplace_tree)) with [(0, OpenBrace); (0, CloseBrace)]. cbn. rewrite Hr. reflexivity.
Qed.
Print Assumptions C117_placeless_refuted.

Example C117_nonvacuous :
  legal (fun _ => Some prog_tree) [Read 0; Call 0 0; Call 0 1; Read 0; Call 0 0] /\
  exists w, run (fun _ => Some prog_tree) [Read 0; Call 0 0; Call 0 1; Read 0; Call 0 0] world0 = Some w /\
    hits (counts w) 0 = Some [2; 1; 0; 0] /\ summary (counts w) 0 = Some (2, 4) /\
    details (fun s => Some (s, s + 1)) [2; 1; 0; 0] 0 (snd (instrument prog_tree)) =
      Some [(true, (21, 22)); (true, (24, 25)); (false, (41, 42)); (false, (44, 45))].
Proof.
  split.
  - apply (legal_call _ [Read 0; Call 0 0; Call 0 1; Read 0] 0 0 prog_tree); [|cbn; tauto|reflexivity|vm_compute; lia].
    apply (legal_read _ [Read 0; Call 0 0; Call 0 1] 0).
    apply (legal_call _ [Read 0; Call 0 0] 0 1 prog_tree); [|cbn; tauto|reflexivity|vm_compute; lia].
    apply (legal_call _ [Read 0] 0 0 prog_tree); [|cbn; tauto|reflexivity|vm_compute; lia].
    apply (legal_read _ [] 0). constructor.
  - eexists. split; [vm_compute; reflexivity|]. repeat split.
Qed.

(** ** C118: sessions of the debugger *)

Theorem C118_cleared : forall now, set_session now None = (None, true).
Proof. reflexivity. Qed.
Print Assumptions C118_cleared.

(** Whatever the sessions started one after the other: none is ever installed and nothing is ever compiled. *)
Theorem C118_never : forall ids now, now = None ->
  fold_left (fun '(s, l) id => let '(s1, l1) := start_session s id in (s1, l ++ l1)) ids (now, []) =
  (None, map (fun _ => Terminated) ids).
Proof.
  intros ids now ->.
  assert (H : forall acc, fold_left (fun '(s, l) id => let '(s1, l1) := start_session s id in (s1, l ++ l1)) ids (None, acc) =
    (None, acc ++ map (fun _ => Terminated) ids)).
  { induction ids as [|a ids IH]; intro acc; cbn; [rewrite app_nil_r; reflexivity|]. rewrite IH, <- app_assoc. reflexivity. }
  apply (H []).
Qed.
Print Assumptions C118_never.

Theorem C118_start_refuted : exists id, ~ In Compiled (snd (start_session None id)).
Proof. exists 0. cbn. intuition discriminate. Qed.
Print Assumptions C118_start_refuted.

Theorem C118_ends : forall now id, exists l, snd (start_session now id) = l ++ [Terminated] /\ ~ In Terminated l.
Proof. intros now id. exists []. split; [reflexivity|tauto]. Qed.
Print Assumptions C118_ends.

Example C118_nonvacuous : fst (set_session (Some 3) None) = None /\ start_session (Some 3) 4 = (Some 3, [Terminated]).
Proof. split; reflexivity. Qed.
