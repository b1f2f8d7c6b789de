(** Theorems about the lexical hierarchy and document symbols (C46). *)
From Coq Require Import List Arith Bool Lia.
From Verif Require Import LexModel LexSpec LexProof.
Import ListNotations.

(** C46: the analysis does not panic; everything found is in the hierarchy once and in order, and
    headings are below headings of lower level, blocks, or nothing. *)
Theorem C46_hierarchy : forall m root, exists hs, get_lexical_hierarchy m root = Some hs /\ flat_map infos hs = finds m None root CRef /\ well_placed (Hier (mkInfo 0 LRoot (0, 0)) hs).
Proof. exact hierarchy_total. Qed.
Print Assumptions C46_hierarchy.
(** C46: variables, functions, headings and labels are found, at any depth of markup and code. *)
Theorem C46_found : forall root par y i, inside None root par y -> defines par y i -> In i (finds Symbol None root CRef).
Proof. exact found. Qed.
Print Assumptions C46_found.
(** C46: the request answers with some of what is found, in order and each once, and with symbols only. *)
Theorem C46_sound : forall root, exists ds, document_symbols root = Some ds /\ subseq (flat_map dinfos ds) (finds Symbol None root CRef) /\ Forall (fun i => shown (i_kind i)) (flat_map dinfos ds).
Proof. exact symbols_sound'. Qed.
Print Assumptions C46_sound.
(** C46: in the answer, headings are at the top or below headings of lower level. *)
Theorem C46_levels : forall root ds, document_symbols root = Some ds -> Forall levels_ok ds.
Proof. exact symbols_levels. Qed.
Print Assumptions C46_levels.
(** C46, in part: everything found before the first comment or list item is in the answer, and if there
    is none of these then the answer is everything.  (Missing: what follows them, see below.) *)
Theorem C46_all_partial : forall root ds a b, document_symbols root = Some ds -> finds Symbol None root CRef = a ++ b -> Forall (fun i => shown (i_kind i)) a ->
  exists c, flat_map dinfos ds = a ++ c /\ (b = [] -> c = []).
Proof. exact symbols_before'. Qed.
Print Assumptions C46_all_partial.

(** C46: an item (and in the other mode a block, content or other bracketed node) holds exactly what is
    found inside it. *)
Theorem C46_blocks : forall m root par k r e p cs, inside None root par (Node k r e p cs) -> (k = KItem \/ (m = Braced /\ k = KBraced)) ->
  exists hs h d, get_lexical_hierarchy m root = Some hs /\ In h hs /\ sub (Hier (mkInfo 0 LBlock r) d) h /\ flat_map infos d = found_nodes (map (fun x => (x, finds m (Some k) x CRef)) cs) 0 None.
Proof. exact blocks. Qed.
Print Assumptions C46_blocks.

(** [#let name = 1] at [at_]. *)
Definition a_let (name at_ : nat) : node :=
  Node KLet (at_, at_ + 9) true false [Node KPlain (at_, at_ + 3) false false []; Node (KSpace false) (at_ + 3, at_ + 4) false false []; Ident name (at_ + 4, at_ + 5);
    Node KPlain (at_ + 6, at_ + 7) false false []; Node KOther (at_ + 8, at_ + 9) true true []].
(** [#let name() = 1]. *)
Definition a_fun (name at_ : nat) : node :=
  Node KLet (at_, at_ + 9) true false [Node KPlain (at_, at_ + 3) false false [];
    Node KClosure (at_ + 4, at_ + 9) true true [Ident name (at_ + 4, at_ + 5); Node KParams (at_ + 5, at_ + 7) false false []; Node KOther (at_ + 8, at_ + 9) true true []]].
(** A heading. *)
Definition a_head (d t at_ : nat) : node :=
  Node (KHeading d) (at_, at_ + 5) true false [Node KPlain (at_, at_ + 1) false false []; Node (KMarkup (Some t)) (at_ + 2, at_ + 5) false false []].
Definition hash (at_ : nat) : node := Node KHash (at_, at_ + 1) false false [].
Definition comment (at_ : nat) : node := Node KLineComment (at_, at_ + 2) false false [].
Definition doc (cs : list node) : node := Node (KMarkup (Some 0)) (0, 100) false false cs.
(** Two headings with a variable and a function. *)
Definition plain_doc : node := doc [a_head 1 11 0; hash 8; a_let 12 9; a_head 2 13 20; hash 29; a_fun 14 30].
Example C46_nonvacuous : document_symbols plain_doc =
  Some [DSym 11 (LHeading 1) (2, 5) [DSym 12 LVariable (13, 14) []; DSym 13 (LHeading 2) (22, 25) [DSym 14 LFunction (34, 39) []]]] /\
  Forall (fun i => shown (i_kind i)) (finds Symbol None plain_doc CRef) /\
  (exists par y, inside None plain_doc par y /\ defines par y (mkInfo 14 LFunction (34, 39))).
Proof.
  split; [vm_compute; reflexivity|]. split; [repeat constructor|]. eexists _, (a_fun 14 30). split.
  - eapply In_child with (x := a_fun 14 30); [reflexivity| |reflexivity|apply In_self]. cbn. auto 10.
  - eapply D_fun. reflexivity.
Qed.
(** A heading inside an item stays there. *)
Definition item_doc : node := doc [a_head 1 11 0; Node KItem (10, 30) true false [Node (KMarkup (Some 0)) (12, 30) false false [a_head 1 12 13]]; hash 31; a_let 13 32].
Example C46_blocks_nonvacuous : get_lexical_hierarchy Symbol item_doc =
  Some [Hier (mkInfo 11 (LHeading 1) (2, 5)) [Hier (mkInfo 0 LBlock (10, 30)) [Hier (mkInfo 12 (LHeading 1) (15, 18)) []]; Hier (mkInfo 13 LVariable (36, 37)) []]] /\
  inside None item_doc (Some (KMarkup (Some 0))) (Node KItem (10, 30) true false [Node (KMarkup (Some 0)) (12, 30) false false [a_head 1 12 13]]).
Proof. split; [vm_compute; reflexivity|]. eapply In_child; [reflexivity|right; left; reflexivity|reflexivity|apply In_self]. Qed.
(** A variable after a comment, and the same without the comment. *)
Definition commented : node := doc [comment 0; hash 3; a_let 12 4].
Definition uncommented : node := doc [hash 3; a_let 12 4].
(** C46 fails: a comment makes the following definition disappear. *)
Theorem C46_comment_refuted : exists root root' ds ds' i, (exists par y, inside None root par y /\ defines par y i) /\ document_symbols root = Some ds /\ document_symbols root' = Some ds' /\
  (exists r e p c cs, root = Node (KMarkup (Some 0)) r e p (c :: cs) /\ root' = Node (KMarkup (Some 0)) r e p cs) /\ In i (flat_map dinfos ds') /\ ~ In i (flat_map dinfos ds).
Proof.
  exists commented, uncommented. eexists _, _, (mkInfo 12 LVariable (8, 9)). split.
  - eexists _, (a_let 12 4). split; [eapply In_child with (x := a_let 12 4); [reflexivity| |reflexivity|apply In_self]; cbn; auto|]. eapply D_var. reflexivity.
  - split; [vm_compute; reflexivity|]. split; [vm_compute; reflexivity|]. split; [do 5 eexists; split; reflexivity|]. split; [now left|]. intros [].
Qed.
Print Assumptions C46_comment_refuted.
(** C46 fails: definitions in a list item are lost with it. *)
Theorem C46_item_refuted : exists root ds i, (exists par y, inside None root par y /\ defines par y i) /\ document_symbols root = Some ds /\ ~ In i (flat_map dinfos ds).
Proof.
  exists (doc [Node KItem (0, 20) true false [Node (KMarkup (Some 0)) (2, 20) false false [hash 2; a_let 12 3]]]). eexists _, (mkInfo 12 LVariable (7, 8)). split.
  - eexists _, (a_let 12 3). split; [|eapply D_var; reflexivity]. eapply In_child; [reflexivity|left; reflexivity|reflexivity|]. eapply In_child; [reflexivity|left; reflexivity|reflexivity|]. eapply In_child; [reflexivity|right; left; reflexivity|reflexivity|apply In_self].
  - split; [vm_compute; reflexivity|]. intros [].
Qed.
Print Assumptions C46_item_refuted.
(** A function whose body has a heading of level 1, in a section of level 1: the heading ends the
    section, and the variable that follows the function in the section is listed below it. *)
Definition escaping : node := doc [a_head 1 11 0; hash 8;
  Node KLet (9, 40) true false [Node KClosure (13, 40) true true [Ident 14 (13, 14); Node KParams (14, 16) false false []; Node KOther (17, 40) true true [Node (KMarkup (Some 0)) (18, 39) false false [a_head 1 15 20]]]];
  hash 41; a_let 12 42].
Example C46_escaping : document_symbols escaping =
  Some [DSym 11 (LHeading 1) (2, 5) [DSym 14 LFunction (13, 40) []]; DSym 15 (LHeading 1) (22, 25) [DSym 12 LVariable (46, 47) []]].
Proof. vm_compute. reflexivity. Qed.
