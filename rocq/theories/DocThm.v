(** Theorems about the documentation of definitions and modules. *)
From Coq Require Import List Arith NArith Bool Lia.
From Verif Require Import DocModel DocSpec DocProof DocWalkProof DocTidyProof.
Import ListNotations.

(** [// a] and a newline. *)
Definition ca : text := [SLASH; SLASH; SP; 97%N].
Definition cb : text := [SLASH; SLASH; SP; 98%N].
Definition nl : tok := TSpace [NL].

(** * C127: which definition gets which comments *)

Theorem C127_exact : forall l d t, In (d, t) (documented l) <-> has_docs (XSeq l) d t.
Proof. exact documented_ok. Qed.
Print Assumptions C127_exact.

Theorem C127_due : forall l d t, due (XSeq l) d t -> In (d, t) (documented l).
Proof.
  intros l d t H. apply documented_ok. induction H; try (constructor; auto; fail).
  - eapply docs_seq; eauto.
  - eapply docs_in_seq; eauto.
  - eapply docs_in_other; eauto.
  - eapply docs_in_fun; eauto.
Qed.
Print Assumptions C127_due.

(** [f({ 1 // a }, x => x)]: the closure gets the comment in the block. *)
Definition leaky : list (tok + ex) := [inr (XOther [XSeq [inr (XOther []); inl (TSpace [SP]); inl (TLine ca); inl nl]; XFun 7 []])].
Theorem C127_leak_refuted : exists l d t, In (d, t) (documented l) /\ ~ due (XSeq l) d t.
Proof.
  exists leaky, 7, [97%N]. split; [left; vm_compute; auto|]. intros H.
  assert (X : forall x, due x 7 [97%N] -> x <> XSeq leaky /\ (forall y, In (inr y) leaky -> x <> y) /\
     x <> XSeq [inr (XOther []); inl (TSpace [SP]); inl (TLine ca); inl nl] /\ (forall n, x <> XFun n []) /\ x <> XOther []).
  { clear H. intros x H. induction H as [pre x post cs d t Hk Hc Ht Hd|x l d t Hi H IH|x l d t Hi H IH|x d' l d t Hi H IH|x d' d t H IH].
    - split; [|split; [|split; [|split]]]; try discriminate.
      + intros E. injection E as E. destruct pre as [|p pre]; cbn in E.
        * apply Hc. eapply (kept_fun []); eauto. exists [], []. split; auto. split; [|split; [constructor|auto]]. apply count_ok. cbn. eauto.
        * injection E as _ E. destruct pre; discriminate.
      + intros y [E|[]]. injection E as <-. discriminate.
      + intros E. injection E as E. destruct pre as [|p1 pre]; cbn in E; [injection E as -> _; inversion Ht; destruct l1; discriminate|].
        injection E as _ E. destruct pre as [|p2 pre]; cbn in E; [discriminate|]. injection E as _ E.
        destruct pre as [|p3 pre]; cbn in E; [discriminate|]. injection E as _ E. destruct pre as [|p4 pre]; cbn in E; [discriminate|]. injection E as _ E. destruct pre; discriminate.
    - destruct IH as (IH1 & IH2 & IH3 & IH4 & IH5). split; [|split; [|split; [|split]]]; try discriminate.
      + intros E. injection E as ->. eapply IH2; eauto.
      + intros y [E|[]]. injection E as <-. discriminate.
      + intros E. injection E as ->. destruct Hi as [E|[E|[E|[E|[]]]]]; try discriminate. injection E as <-. congruence.
    - destruct IH as (IH1 & IH2 & IH3 & IH4 & IH5). split; [|split; [|split; [|split]]]; try discriminate.
      + intros y [E|[]]. injection E as <-. intros E. injection E as ->. destruct Hi as [E1|[E1|[]]]; [apply IH3|apply (IH4 7)]; symmetry; exact E1.
      + intros E. injection E as ->. destruct Hi.
    - destruct IH as (IH1 & IH2 & IH3 & IH4 & IH5). split; [|split; [|split; [|split]]]; try discriminate.
      + intros y [E|[]]. injection E as <-. discriminate.
      + intros n E. injection E as -> ->. destruct Hi.
    - split; [|split; [|split; [|split]]]; try discriminate. intros y [E|[]]. injection E as <-. discriminate. }
  destruct (X _ H) as (X1 & _). auto.
Qed.
Print Assumptions C127_leak_refuted.

(** Two groups, the second in a block of the first definition. *)
Example C127_nonvacuous :
  documented [inl (TLine ca); inl nl; inl THash; inr (XLet 1 (Some (XSeq [inl (TLine cb); inl nl; inr (XFun 2 [])])));
              inl (TLine ca); inl nl; inl nl; inr (XLet 3 None)]
  = [(1, [97%N]); (2, [98%N])].
Proof. vm_compute. auto. Qed.
(** A comment after a definition on the same line is of the next definition. *)
Example C127_trailing : documented [inr (XLet 1 None); inl (TSpace [SP]); inl (TLine ca); inl nl; inr (XLet 2 None)] = [(2, [97%N])].
Proof. vm_compute. auto. Qed.
(** The space of several newlines in code does not end a group. *)
Example C127_code_blank : documented [inl (TLine ca); inl (TSpace [NL; NL; NL]); inr (XLet 2 None)] = [(2, [97%N])].
Proof. vm_compute. auto. Qed.

(** * C128: the text *)

Theorem C128_text : forall m t, fst (collect m) = Some t <-> comments m <> [] /\ doc_text (comments m) t.
Proof.
  intros m t. rewrite collect_ok. destruct (comments m) as [|c cs] eqn:E.
  - cbn. split; [discriminate|]. intros (H & _). congruence.
  - cbn [fst]. rewrite <- doc_text_ok by discriminate. split.
    + intros H. injection H as H. split; [discriminate|auto].
    + intros (_ & <-). auto.
Qed.
Print Assumptions C128_text.

(** An empty comment keeps the indentation of all. *)
Theorem C128_indent_refuted : exists m t, fst (collect m) = Some t /\ (exists u, t = SP :: u) /\
  forall c x, In c (comments m) -> says c x -> x <> [] -> exists u, x = SP :: u.
Proof.
  exists {| comments := [RLine ca; RLine [SLASH; SLASH]; RLine cb]; newlines := 0; strict := false |}, [SP; 97; NL; NL; SP; 98]%N.
  split; [vm_compute; auto|]. split; [eauto|]. intros c x [<-|[<-|[<-|[]]]] H Hx; apply content_ok in H; vm_compute in H; subst; eauto. congruence.
Qed.
Print Assumptions C128_indent_refuted.

Example C128_nonvacuous :
  fst (collect {| comments := [RLine [SLASH; SLASH; SLASH; SP; 97]; RBlock [SLASH; STAR; STAR; SP; 98; SP; STAR; SLASH]; RLine [SLASH; SLASH; SP; SP; 99]]%N; newlines := 0; strict := false |})
  = Some [SP; 97; NL; 98; NL; SP; SP; 99]%N /\
  fst (collect {| comments := [RLine [SLASH; SLASH; SLASH; SP; 97]; RLine [SLASH; SLASH; SP; SP; 99]]%N; newlines := 0; strict := false |})
  = Some [97; NL; SP; 99]%N.
Proof. vm_compute. auto. Qed.

(** * C129: modules *)

Theorem C129_module : forall l t, module_docs l = Some t <-> exists g cs, top_group l g /\ doc_notes g cs /\ cs <> [] /\ doc_text cs t.
Proof. exact module_ok. Qed.
Print Assumptions C129_module.

(** The documentation of the first definition is taken for that of the module. *)
Theorem C129_own_refuted : exists l d t, module_docs l = Some t /\ In (d, t) (documented l).
Proof.
  exists [inl (TLine (SLASH :: ca)); inl nl; inl THash; inr (XLet 1 None)], 1, [97%N]. split; [vm_compute; auto|left; vm_compute; auto].
Qed.
Print Assumptions C129_own_refuted.

Example C129_nonvacuous :
  module_docs [inl (TLine (SLASH :: ca)); inl nl; inl (TLine cb); inl nl; inl (TLine (SLASH :: cb)); inl TPar; inl (TLine (SLASH :: ca)); inr (XLet 1 None)] = Some [97; NL; 98]%N /\
  module_docs [inl TPar; inl (TLine (SLASH :: ca)); inl TPar; inr (XLet 1 None)] = None /\
  module_docs [inl (TElse true); inl (TLine (SLASH :: ca)); inl TPar; inr (XLet 1 None)] = None.
Proof. vm_compute. auto. Qed.

(** * C130: parameters *)

Theorem C130_exact : forall k s t ret ps, end_ k <> [] ->
  (identify k s = (t, ret, ps) <-> exists ls docs body r, in_lines s ls /\ reads k ls docs body r ps /\ ret = option_map snd r /\
     (docs <> [] -> lined docs t) /\ (docs = [] -> match r with None => t = s | Some _ => lined body t end)).
Proof. exact identify_ok. Qed.
Print Assumptions C130_exact.

(** [- Bx (int): aE] *)
Definition ab : marks := {| begin_ := [66%N]; end_ := [69%N] |}.
Definition xline : text := [MINUS; SP; 66; 120; SP; OPEN; 105; CLOSE; COLON; SP; 97; 69]%N.
Definition xparam : param := {| p_name := [120%N]; p_types := [105%N]; p_docs := [97%N] |}.

(** With parameters only, their text is the documentation too. *)
Theorem C130_docs_refuted : exists k s p, end_ k <> [] /\ in_lines s [s] /\ item k [s] p /\ identify k s = (s, None, [p]) /\ s <> [].
Proof.
  exists ab, xline, xparam. split; [discriminate|]. split; [apply (lines_ok xline)|]. split; [|split; [vm_compute; auto|discriminate]].
  assert (R : read_param [[120; SP; OPEN; 105; CLOSE; COLON; SP; 97]%N] = Some xparam) by (vm_compute; auto).
  apply read_ok in R. destruct R as (name & types & docs & Hh & E). rewrite E. cbn [join].
  apply (item_one ab xline [MINUS; SP; 66; 120; SP; OPEN; 105; CLOSE; COLON; SP; 97]%N [120; SP; OPEN; 105; CLOSE; COLON; SP; 97]%N); auto.
  - apply closes_ok. vm_compute. auto.
  - apply begins_ok. vm_compute. auto.
Qed.
Print Assumptions C130_docs_refuted.

(** A line of documentation, an item of two lines, an empty line, an item of
    one, and the type of the result. *)
Example C130_nonvacuous :
  identify ab ([100; NL; MINUS; SP; 66; 121; SP; OPEN; OPEN; CLOSE; CLOSE; COLON; SP; 98; NL; 99; 69; NL; NL]%N ++ xline ++ [NL; SP; MINUS; GT; SP; 105; NL]%N)
  = ([100%N], Some [105%N], [{| p_name := [121%N]; p_types := [OPEN; CLOSE]; p_docs := [98; NL; 99]%N |}; xparam]).
Proof. vm_compute. auto. Qed.

(** * C131: fences *)

Theorem C131_fences : forall failed typ err docs, exists n e,
  fallback failed typ err docs =
    repeat TICK 3 ++ [NL] ++ failed ++ e ++ [NL] ++ repeat TICK 3 ++ [NL; NL] ++ repeat TICK n ++ typ ++ [NL] ++ docs ++ [NL] ++ repeat TICK n ++ [NL] /\
  escaped err e /\ ~ occurs [TICK; TICK] e /\
  3 <= n /\ ~ occurs (repeat TICK n) docs /\ (n = 3 \/ occurs (repeat TICK (n - 1)) docs).
Proof.
  intros failed typ err docs. destruct (fence_ok docs) as (n & E & H1 & H2 & H3). exists n, (escape err).
  assert (He : escaped err (escape err)) by (apply escape_ok; auto).
  split; [unfold fallback; rewrite E; auto|]. split; auto. split; [eapply escaped_single; eauto|]. auto.
Qed.
Print Assumptions C131_fences.

Example C131_nonvacuous :
  fallback [102%N] [116%N] [TICK] [97; TICK; TICK; TICK]%N =
    [TICK; TICK; TICK; NL; 102; BACKSLASH; TICK; NL; TICK; TICK; TICK; NL; NL; TICK; TICK; TICK; TICK; 116; NL; 97; TICK; TICK; TICK; NL; TICK; TICK; TICK; TICK; NL]%N.
Proof. vm_compute. auto. Qed.
