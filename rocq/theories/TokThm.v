(** The theorems about semantic tokens (C34, C35, C69). *)
From Coq Require Import List NArith Arith Bool Lia.
From Verif Require Import TextModel TextSpec TextProof TokModel TokSpec TokProof.
Import ListNotations.

(** ** C34 *)
(** With one line per token: for tokens that follow each other without gaps. *)
Theorem C34_single_line_partial : forall e t ps,
  concat (map fst ps) = t -> (forall x, In x ps -> fst x <> []) ->
  exists s, push_all e t false (toks 0 ps) pst0 = Some s /\ covers e t ps (decode (p_out s)).
Proof. exact covers_pieces. Qed.
Print Assumptions C34_single_line_partial.
(** With multi-line tokens: for all tokens in order. *)
Theorem C34_multi_line : forall e t gs z,
  t = gap_text gs ++ z -> (forall x, In x gs -> snd (fst x) <> []) ->
  exists s, push_all e t true (gap_toks 0 gs) pst0 = Some s /\ places e t [] gs (decode (p_out s)).
Proof.
  intros e t gs z T F. destruct (places_multi e t gs [] z pst0 (Inv0 true e t) T F) as (s & new & A & B & C).
  exists s. split; [exact A|]. rewrite B. exact C.
Qed.
Print Assumptions C34_multi_line.
(** The fixture typst_lsp_issue_401.typ: [#] and a string of three lines. *)
Definition hash_ : text := [35]%N.
Definition str_ : text := [34; 108; 105; 110; 101; 10; 10; 98; 114; 101; 97; 107; 34]%N.
Definition ps401 : list (text * label) := [(hash_, (1, 0)); (str_, (1, 0))].
Example C34_nonvacuous :
  (forall x, In x ps401 -> fst x <> []) /\
  option_map (fun s => flat (p_out s)) (push_all Utf16 (hash_ ++ str_) false (toks 0 ps401) pst0) =
  Some [0;0;1;1;0; 0;1;6;1;0; 1;0;1;1;0; 1;0;6;1;0].
Proof. split; [intros x [<-|[<-|[]]]; discriminate|]. vm_compute. reflexivity. Qed.
(** [é\n𝄞 bc], tokens for [é] and [b]. *)
Definition gs34 : list (text * text * label) := [([], [233%N], (1, 0)); ([10%N; 119070%N; 32%N], [98%N], (2, 4))].
Example C34_multi_nonvacuous :
  (forall x, In x gs34 -> snd (fst x) <> []) /\
  option_map (fun s => decode (p_out s)) (push_all Utf16 (gap_text gs34 ++ [99%N]) true (gap_toks 0 gs34) pst0) =
  Some [mkAbs 0 0 1 1 0; mkAbs 1 3 1 2 4].
Proof. split; [intros x [<-|[<-|[]]]; discriminate|]. vm_compute. reflexivity. Qed.
(** With one line per token a gap with a line end is fatal: the length of the rest
    of the line of the last token underflows. *)
Theorem C34_gap_refuted : exists t gs z, t = gap_text gs ++ z /\ (forall x, In x gs -> snd (fst x) <> []) /\
  push_all Utf8 t false (gap_toks 0 gs) pst0 = None /\ push_all Utf16 t false (gap_toks 0 gs) pst0 = None.
Proof.
  exists [97; 10; 32; 98]%N, [([], [97%N], (1, 0)); ([10%N; 32%N], [98%N], (1, 0))], [].
  split; [reflexivity|]. split; [intros x [<-|[<-|[]]]; discriminate|]. split; vm_compute; reflexivity.
Qed.
Print Assumptions C34_gap_refuted.

(** ** C69 *)
(** On regular trees every character gets the label of its leaf, in fragments of one line each. *)
Theorem C69_tokens_cover_partial : forall e n, regular n -> exists out,
  semantic_tokens e false n = Some out /\ covers e (str n) (leaves 0 n) (decode out).
Proof. exact tree_covers. Qed.
Print Assumptions C69_tokens_cover_partial.
Theorem C69_multi_line_partial : forall e n, regular n -> exists out,
  semantic_tokens e true n = Some out /\
  places e (str n) [] (map (fun x => ([], fst x, snd x)) (nonempty (leaves 0 n))) (decode out).
Proof. exact tree_places. Qed.
Print Assumptions C69_multi_line_partial.
(** In UTF-16 they do not overlap. *)
Theorem C69_no_overlap_partial : forall n out, regular n -> semantic_tokens Utf16 false n = Some out -> disjoint (decode out).
Proof.
  intros n out R H. destruct (tree_covers Utf16 n R) as (out' & A & B). rewrite H in A. injection A as <-.
  exact (covers_disjoint _ _ _ B).
Qed.
Print Assumptions C69_no_overlap_partial.
(** The fixture heading.typ: [=== #text("Text in heading")]. *)
Definition heading_ : node :=
  Inner None 0 [Inner (Some 16) 0 [
    Leaf (Some 16) 0 [61; 61; 61]%N; Leaf None 0 [32]%N;
    Inner None 0 [
      Leaf (Some 5) 0 [35]%N;
      Inner None 0 [
        Leaf (Some 5) 0 [116; 101; 120; 116]%N;
        Inner None 0 [
          Leaf (Some 10) 0 [40]%N;
          Leaf (Some 1) 0 [34; 84; 101; 120; 116; 32; 105; 110; 32; 104; 101; 97; 100; 105; 110; 103; 34]%N;
          Leaf (Some 10) 0 [41]%N]]]]].
Example C69_nonvacuous :
  regular heading_ /\
  option_map flat (semantic_tokens Utf16 false heading_) =
  Some [0;0;3;16;0; 0;3;1;22;0; 0;1;1;5;0; 0;1;4;5;0; 0;4;1;10;0; 0;1;17;1;0; 0;17;1;10;0] /\
  exists out, semantic_tokens Utf16 false heading_ = Some out /\ disjoint (decode out).
Proof.
  assert (R : regular heading_) by (cbn; intuition discriminate). split; [exact R|]. split; [vm_compute; reflexivity|].
  destruct (tree_covers Utf16 heading_ R) as (out & A & B). exists out. split; [exact A|]. exact (covers_disjoint _ _ _ B).
Qed.
(** [= Title]: the title is a text token and, at the same position, a heading token. *)
Theorem C69_heading_refuted : exists n out, semantic_tokens Utf16 false n = Some out /\ ~ disjoint (decode out) /\
  decode out = [mkAbs 0 0 1 16 0; mkAbs 0 1 1 22 0; mkAbs 0 2 5 22 0; mkAbs 0 2 5 16 0].
Proof.
  exists (Inner None 0 [Inner (Some 16) 0 [Leaf (Some 16) 0 [61]%N; Leaf None 0 [32]%N; Inner None 0 [Leaf None 0 [84; 105; 116; 108; 101]%N]]]).
  eexists. split; [vm_compute; reflexivity|]. split; [vm_compute; lia|reflexivity].
Qed.
Print Assumptions C69_heading_refuted.
(** In UTF-8 lengths count bytes and columns count characters: [é] covers its neighbour. *)
Theorem C69_utf8_refuted : exists n out, regular n /\ semantic_tokens Utf8 false n = Some out /\ ~ disjoint (decode out) /\
  decode out = [mkAbs 0 0 2 22 0; mkAbs 0 1 1 10 0].
Proof.
  exists (Inner None 0 [Leaf None 0 [233]%N; Leaf (Some 10) 0 [44]%N]). eexists. split; [cbn; auto|].
  split; [vm_compute; reflexivity|]. split; [vm_compute; lia|reflexivity].
Qed.
Print Assumptions C69_utf8_refuted.

(** ** C35 *)
Theorem C35_delta_applies : forall from to, apply_edits (flat from) (token_delta from to) = flat to.
Proof. exact token_delta_applies. Qed.
Print Assumptions C35_delta_applies.
Theorem C35_delta_empty : forall from to, token_delta from to = [] <-> from = to.
Proof. exact token_delta_empty. Qed.
Print Assumptions C35_delta_empty.
(** The replaced numbers exist and are whole tokens. *)
Theorem C35_delta_in_range : forall from to x, In x (token_delta from to) ->
  e_start x + e_delete x <= length (flat from) /\ (exists a, e_start x = 5 * a) /\ (exists d, e_delete x = 5 * d).
Proof.
  intros from to x H. destruct (token_delta_parts from to) as (pre & a & b & suf & -> & -> & E). rewrite E in H.
  rewrite flat_length, !app_length.
  destruct a; [destruct b; [destruct H|]|]; destruct H as [<-|[]]; cbn [e_start e_delete]; (split; [lia|eauto]).
Qed.
Print Assumptions C35_delta_in_range.
Definition tk_ (n : nat) : stok := mkStok 0 n 1 22 0.
Example C35_nonvacuous :
  token_delta [tk_ 1; tk_ 2; tk_ 3; tk_ 2] [tk_ 1; tk_ 4; tk_ 2] = [mkEdit 5 10 [tk_ 4]] /\
  token_delta [tk_ 1; tk_ 1] [tk_ 1] = [mkEdit 5 5 []].
Proof. split; reflexivity. Qed.
