(** Theorems about the linter. *)
From Coq Require Import List Bool Arith Lia.
From Verif Require Import LintModel LintSpec LintProof LintEval LintMust.
Import ListNotations.

Lemma has_trans p1 a b : has p1 a b -> forall p2 c, has p2 b c -> has (p2 ++ p1) a c.
Proof.
  induction 1; intros p2 y Hy; rewrite ?app_nil_r, ?app_assoc; auto.
  all: try (econstructor; eauto; fail).
Qed.
Lemma file_exact root d : In d (lint_file root) <-> expected [] root d.
Proof.
  assert (F : fits init []) by (split; [reflexivity|]; intros f []).
  destruct (step_all root init [] F eq_refl) as (_ & _ & H & _). unfold lint_file. rewrite H. cbn. tauto.
Qed.
Lemma discards_only b d : In d (discards b) -> exists n, d = Discard n.
Proof.
  assert (G : forall e s, (forall d, In d (l_diags s) -> exists n, d = Discard n) -> forall d, In d (l_diags (late e s)) -> exists n, d = Discard n).
  2: { apply G. intros x []. }
  assert (V : forall n k r s, (forall d, In d (l_diags s) -> exists n, d = Discard n) -> forall d, In d (l_diags (value n k r s)) -> exists n, d = Discard n).
  { intros n k r s H x Hx. unfold value in Hx. destruct (l_ctx s); auto. destruct (l_ri s) as [i|]; auto. destruct (warned i); auto. destruct k; auto.
    destruct (_ || _); auto. cbn in Hx. apply in_app_or in Hx. destruct Hx as [?|[<-|[]]]; eauto. }
  assert (L : forall es, Forall (fun e => forall s, (forall d, In d (l_diags s) -> exists n, d = Discard n) -> forall d, In d (l_diags (late e s)) -> exists n, d = Discard n) es ->
    forall s, (forall d, In d (l_diags s) -> exists n, d = Discard n) -> forall d, In d (l_diags (lates es s)) -> exists n, d = Discard n).
  { induction 1 as [|x xs Hx _ IHx]; intros s Hs; cbn [lates]; [exact Hs|]. apply Hx, IHx, Hs. }
  intro e. induction e using expr_rect'; intros st0 Hs; try (apply V; auto; fail); try exact Hs; try (apply (L _ H); auto; fail); try (apply IHe; auto; fail);
    try (apply IHe2; auto; fail).
  - cbn. apply IHe1. apply IHe2. exact Hs.
  - cbn. destruct e3 as [e|]; cbn.
    + apply H. apply IHe2. exact Hs.
    + apply IHe2. exact Hs.
  - destruct o; exact Hs.
Qed.

(** ** C100: where [break], [continue] and [return] may stand. *)
Theorem C100_exactly root n t : In (NoLoop n t) (lint_file root) <->
  exists p x, has p root x /\ (x = Break n \/ x = Continue n) /\ no_loop p /\ t = across p.
Proof.
  rewrite file_exact. split.
  - intros (p & x & H & G). rewrite app_nil_r in G. exists p, x. split; [auto|].
    destruct x; cbn in G; try tauto; try (destruct G as (es & m & h & _ & _ & _ & [=]); fail); try (destruct G as (_ & [=]); fail).
    + destruct G as (_ & G). apply discards_only in G. destruct G as (? & [=]).
    + destruct G as (_ & G). apply discards_only in G. destruct G as (? & [=]).
    + destruct G as (G & [= -> ->]). auto.
    + destruct G as (G & [= -> ->]). auto.
  - intros (p & x & H & Hx & N & ->). exists p, x. split; [auto|]. rewrite app_nil_r. destruct Hx as [->| ->]; cbn; auto.
Qed.
Print Assumptions C100_exactly.
(** [#for x in y { f(() => { break }) ; (z => break) }]: the second closure is looked at, the first is not. *)
Definition ex_break : expr :=
  Seq [For 1 (Ident 2) (Block [Call 3 (Ident 4) [Closure 5 [] (Block [Break 6])]; Paren (Closure 7 [Ident 8] (Break 9)); Break 10]); Continue 11].
Example C100_exactly_nonvacuous : lint_file ex_break = [NoLoop 9 (Some (1, 7)); NoLoop 11 None].
Proof. reflexivity. Qed.

Theorem C100_return root n : In (NoFunc n) (lint_file root) <-> exists p v, has p root (Return n v) /\ no_fun p.
Proof.
  rewrite file_exact. split.
  - intros (p & x & H & G). rewrite app_nil_r in G.
    destruct x; cbn in G; try tauto; try (destruct G as (es & m & h & _ & _ & _ & [=]); fail); try (destruct G as (_ & [=]); fail).
    + destruct G as (_ & G). apply discards_only in G. destruct G as (? & [=]).
    + destruct G as (_ & G). apply discards_only in G. destruct G as (? & [=]).
    + destruct G as (G & [= ->]). eauto.
  - intros (p & v & H & N). exists p, (Return n v). split; [auto|]. rewrite app_nil_r. cbn; auto.
Qed.
Print Assumptions C100_return.
Example C100_return_nonvacuous : lint_file (Seq [While 1 (Ident 2) (Block [Return 3 None]); Let (Some (Closure 4 [] (Return 5 (Some (Ident 6)))))]) = [NoFunc 3].
Proof. reflexivity. Qed.

(** The linter does not panic. *)
Theorem C100_no_crash root : panicked (lint root init) = false.
Proof.
  assert (F : fits init []) by (split; [reflexivity|]; intros f []).
  destruct (step_all root init [] F eq_refl) as (_ & H & _). exact H.
Qed.
Print Assumptions C100_no_crash.
Example C100_no_crash_nonvacuous : exists s, func s = None /\ panicked (mark_contextual s) = true.
Proof. exists init. split; reflexivity. Qed.

(** A file or function whose evaluation ends with a stray event has a warning. *)
Theorem C100_complete root body o q : body = root \/ function root body -> tame body = true -> ev Run body o q ->
  (q = Brk \/ q = Cnt -> exists n t, In (NoLoop n t) (lint_file root))
  /\ (body = root -> forall v, q = Ret v -> exists n, In (NoFunc n) (lint_file root)).
Proof.
  intros HB T X. pose proof (proj1 strays _ _ _ _ X eq_refl T) as S. split.
  - intro Hq. assert (exists n x, (x = Break n \/ x = Continue n) /\ has [] body x) as (n & x & Hx & Hh).
    { destruct Hq as [->| ->]; destruct S as (n & S); eauto. }
    destruct HB as [->|(p & f & HF)].
    + exists n, None. apply C100_exactly. exists [], x. split; [auto|]. split; [auto|]. cbn; auto.
    + exists n, (across (AFun f :: p)). apply C100_exactly. exists ([AFun f] ++ p), x. split; [|split; [auto|split; [exact Logic.I|auto]]].
      destruct HF as [HF|(ps & HF)]; eapply has_trans; [exact HF|apply (has_context []); auto|exact HF|apply (has_closure []); auto].
  - intros -> v ->. destruct S as (p & k & v' & S & N). exists k. apply C100_return. eauto.
Qed.
Print Assumptions C100_complete.
Example C100_complete_nonvacuous : exists root body o, function root body /\ tame body = true /\ ev Run body o Brk.
Proof.
  exists (Let (Some (Closure 1 [] (Block [Leaf 2 KOther; If (Ident 3) (Block [Break 4]) None])))), (Block [Leaf 2 KOther; If (Ident 3) (Block [Break 4]) None]), ([Val 2] ++ []).
  split; [exists [], 1; right; exists []; repeat constructor|]. split; [reflexivity|]. constructor. apply blk_plain; [reflexivity|constructor|].
  apply blk_stop; [|discriminate]. eapply ev_then; [constructor|]. constructor. apply blk_stop; [|discriminate]. apply (ev_break Run).
Qed.

(** In arguments of calls, and in the heads of loops, stray events go unnoticed. *)
Theorem C100_hidden_refuted : exists root, (exists o, ev Run root o Brk) /\ lint_file root = [].
Proof.
  exists (Seq [Call 1 (Ident 2) [Break 3]]). split; [|reflexivity]. exists [Val 1]. constructor. apply blk_stop; [|discriminate].
  eapply ev_call. eapply ops_cons; [constructor|]. eapply ops_cons; [apply (ev_break Run)|]. constructor.
Qed.
Print Assumptions C100_hidden_refuted.
Theorem C100_head_refuted : exists root, (exists o, ev Run root o Brk) /\ lint_file root = [].
Proof.
  exists (Seq [While 1 (Block [Break 2]) (Block [])]). split; [|reflexivity]. exists []. constructor. apply blk_stop; [|discriminate].
  apply (ev_while Run). eapply whl_end. constructor. apply blk_stop; [|discriminate]. apply (ev_break Run).
Qed.
Print Assumptions C100_head_refuted.
Theorem C100_closure_refuted : exists root n k, root = Call n (Ident k) [Closure 5 [] (Break 6)] /\ lint_file root = [] /\ exists o, ev Run (Break 6) o Brk.
Proof. eexists _, 1, 2. split; [reflexivity|]. split; [reflexivity|]. exists []. apply (ev_break Run). Qed.
Print Assumptions C100_closure_refuted.

(** ** C101: values and rules which a [return] discards. *)
(** Only functions with a [return] are looked at. *)
Theorem C101_only_with_return root n : In (Discard n) (lint_file root) ->
  exists p f, (exists b, has p root (Context f b) /\ returns b)
    \/ exists ps b, has p root (Closure f ps b) /\ ((exists e, In e ps /\ returns e) \/ returns b).
Proof.
  rewrite file_exact. intros (p & x & H & G). rewrite app_nil_r in G. exists p.
  destruct x; cbn in G; try tauto; try (destruct G as (es & m & h & _ & _ & _ & [=]); fail); try (destruct G as (_ & [=]); fail).
  - destruct G as (R & _). eexists. right. eauto.
  - destruct G as (R & _). eexists. left. eauto.
Qed.
Print Assumptions C101_only_with_return.
Lemma discard_from root n : In (Discard n) (lint_file root) -> exists body, function root body /\ In (Discard n) (discards body).
Proof.
  rewrite file_exact. intros (p & x & H & G). rewrite app_nil_r in G.
  destruct x; cbn in G; try tauto; try (destruct G as (es & m & h & _ & _ & _ & [=]); fail); try (destruct G as (_ & [=]); fail).
  - destruct G as (_ & D). exists x. split; [|auto]. exists p, n0. right. eauto.
  - destruct G as (_ & D). exists x. split; [|auto]. exists p, n0. left. eauto.
Qed.
Definition ex_discard : expr :=
  Let (Some (Closure 1 [Ident 2] (Block [SetR 3 None [] (Ident 4); Leaf 5 KOther; Leaf 6 KOther; Leaf 7 KTrivia; Let (Some (Leaf 8 KOther)); Return 9 (Some (Ident 10))]))).
Example C101_only_with_return_nonvacuous : lint_file ex_discard = [Discard 6].
Proof. reflexivity. Qed.

(** What is reported can be discarded: a value which can be joined at all is joined in an execution which ends with [return v]; a
    rule which can be in force is so in an execution which ends with [return]. *)
Theorem C101_may root n : (forall body, function root body -> tame body = true /\ NoDup (marks body)) -> In (Discard n) (lint_file root) ->
  exists body, function root body /\ In n (marks body)
    /\ ((exists o q, ev Run body o q /\ joined n o) -> exists o, ev Run body o (Ret true) /\ joined n o)
    /\ ((exists o q, ev Run body o q /\ ruled n o) -> exists o v, ev Run body o (Ret v) /\ ruled n o).
Proof.
  intros HT HD. apply discard_from in HD. destruct HD as (b & HF & HD). destruct (HT b HF) as (T & ND). exists b. split; [auto|].
  destruct (may_all b T ND (mkLt [] None CBlock) (fun _ => False)) as (_ & _ & M); try discriminate.
  destruct (M n HD) as [[]|(I & M1 & M2)]. split; [auto|]. split.
  - intro H. destruct (M1 H) as (o & q & X & J & [->|(_ & [])]). eauto.
  - intro H. destruct (M2 H) as (o & q & v & X & J & [->|(_ & [])]). eauto.
Qed.
Print Assumptions C101_may.
Lemma ex_discard_functions body : function ex_discard body ->
  body = Block [SetR 3 None [] (Ident 4); Leaf 5 KOther; Leaf 6 KOther; Leaf 7 KTrivia; Let (Some (Leaf 8 KOther)); Return 9 (Some (Ident 10))].
Proof.
  intros (p & n & HF). 
  assert (G : forall p x, has p ex_discard x -> (exists b, x = Context n b) \/ (exists ps b, x = Closure n ps b) -> x = Closure 1 [Ident 2] (Block [SetR 3 None [] (Ident 4); Leaf 5 KOther; Leaf 6 KOther; Leaf 7 KTrivia; Let (Some (Leaf 8 KOther)); Return 9 (Some (Ident 10))])).
  { clear p HF. intros p x H HX. unfold ex_discard in H.
    repeat match goal with
    | H : In _ [] |- _ => destruct H
    | H : In _ (_ :: _) |- _ => destruct H as [<-|H]
    | H : has _ _ _ |- _ => inversion H; subst; clear H; auto; try (destruct HX as [(? & [=])|(? & ? & [=])]; fail)
    end. }
  destruct HF as [HF|(ps & HF)]; apply G in HF; eauto; congruence.
Qed.
Example C101_may_nonvacuous : (forall body, function ex_discard body -> tame body = true /\ NoDup (marks body)) /\ In (Discard 6) (lint_file ex_discard)
  /\ exists body o q, function ex_discard body /\ ev Run body o q /\ joined 6 o.
Proof.
  split.
  - intros body HF. apply ex_discard_functions in HF. subst. split; [reflexivity|]. cbn. repeat constructor; cbn; intuition congruence.
  - split; [left; reflexivity|]. eexists _, _, _. split; [exists [], 1; right; eexists; unfold ex_discard; constructor; constructor|]. split.
    + constructor. eapply blk_set; [eapply ev_set; repeat (econstructor; eauto)|]. eapply blk_plain; [reflexivity|constructor|]. eapply blk_plain; [reflexivity|constructor|].
      eapply blk_plain; [reflexivity|constructor|]. eapply blk_plain; [reflexivity|eapply ev_let; apply ev_leaf|]. apply blk_stop; [eapply (ev_return Run); constructor|discriminate].
    + eapply joined_styled; [left; reflexivity|]. constructor. cbn. auto.
Qed.

(** In functions which end with [return] on every way, without [return] in loops, what is reported is always discarded. *)
Theorem C101_must_partial root n :
  (forall body, function root body -> tame body = true /\ NoDup (marks body) /\ no_return false body = true /\ ends body) ->
  In (Discard n) (lint_file root) ->
  exists body, function root body /\ In n (marks body) /\ forall o q, ev Run body o q -> joined n o -> q = Ret true.
Proof.
  intros HT HD. apply discard_from in HD. destruct HD as (b & HF & HD). destruct (HT b HF) as (T & ND & NR & E). exists b. split; [auto|].
  destruct (ends_must b E T NR ND (mkLt [] None CBlock)) as (_ & _ & M). destruct (M n HD) as [[]|H]. exact H.
Qed.
Print Assumptions C101_must_partial.
Example C101_must_nonvacuous : forall body, function ex_discard body -> tame body = true /\ NoDup (marks body) /\ no_return false body = true /\ ends body.
Proof.
  intros body HF. apply ex_discard_functions in HF. subst. split; [reflexivity|]. split; [cbn; repeat constructor; cbn; intuition congruence|]. split; [reflexivity|].
  apply (ends_block [_; _; _; _; _]). constructor.
Qed.

(** The last value in front of [return v] is reported. *)
Lemma silent_late es s : Forall silent es -> lates es s = s.
Proof.
  induction 1 as [|e es He Hes IH]; cbn [lates]; auto. rewrite IH. destruct e; cbn in He |- *; try tauto.
  destruct k; try tauto; unfold value; destruct (l_ctx s); auto; destruct (l_ri s); auto; destruct (warned r); auto.
Qed.
Lemma keep_diag e d s : In d (l_diags s) -> In d (l_diags (late e s)).
Proof. destruct s as [l r c]. intro H. destruct (late_diags e l r c) as (-> & _). apply in_or_app; auto. Qed.
Lemma keep_diags es d s : In d (l_diags s) -> In d (l_diags (lates es s)).
Proof. intro H. induction es; cbn [lates]; auto. apply keep_diag; auto. Qed.
Theorem C101_last root pre n es k v : function root (Block (pre ++ Leaf n KOther :: es ++ [Return k (Some v)])) -> Forall silent es ->
  In (Discard n) (lint_file root).
Proof.
  intros (p & f & HF) S. set (b := Block _) in *.
  assert (R : returns b). { exists [], k, (Some v). split; [|intros g []]. unfold b. eapply has_block; [|constructor]. apply in_or_app. right. right. apply in_or_app. right. left; auto. }
  assert (D : In (Discard n) (discards b)).
  { unfold discards, b. rewrite late_block. unfold expr_ctx. cbn [set_ctx l_diags]. rewrite lates_app. apply keep_diags. cbn [lates]. rewrite lates_app, silent_late by auto.
    cbn. left; auto. }
  apply file_exact. destruct HF as [HF|(ps & HF)]; exists p; eexists; (split; [exact HF|]); cbn; auto.
Qed.
Print Assumptions C101_last.
Example C101_last_nonvacuous : function ex_discard (Block ([SetR 3 None [] (Ident 4); Leaf 5 KOther] ++ Leaf 6 KOther :: [Leaf 7 KTrivia; Let (Some (Leaf 8 KOther))] ++ [Return 9 (Some (Ident 10))]))
  /\ Forall silent [Leaf 7 KTrivia; Let (Some (Leaf 8 KOther))].
Proof. split; [exists [], 1; right; eexists; unfold ex_discard; constructor; constructor|]. repeat constructor. Qed.

(** The warning is wrong when a conditional [return] is not taken: [{[a]; if c { return 1 }}]. *)
Theorem C101_fallthrough_refuted : exists f body n o, lint_file (Closure f [] body) = [Discard n] /\ tame body = true /\ ev Run body o Run /\ joined n o.
Proof.
  exists 1, (Block [Leaf 2 KOther; If (Ident 3) (Block [Return 4 (Some (Ident 5))]) None]), 2, ([Val 2] ++ [] ++ []). split; [reflexivity|]. split; [reflexivity|]. split.
  - constructor. apply blk_plain; [reflexivity|constructor|]. apply blk_plain; [reflexivity| |constructor]. eapply ev_skip. constructor.
  - constructor. left; auto.
Qed.
Print Assumptions C101_fallthrough_refuted.
(** So is the one for a [return] in the other branch only: [{[a]; if c {} else { return 1 }}]. *)
Theorem C101_else_refuted : exists f body n o, lint_file (Closure f [] body) = [Discard n] /\ tame body = true /\ ev Run body o Run /\ joined n o.
Proof.
  exists 1, (Block [Leaf 2 KOther; If (Ident 3) (Block []) (Some (Block [Return 4 (Some (Ident 5))]))]), 2, ([Val 2] ++ [] ++ []). split; [reflexivity|]. split; [reflexivity|]. split.
  - constructor. apply blk_plain; [reflexivity|constructor|]. apply blk_plain; [reflexivity| |constructor]. eapply ev_then; repeat constructor.
  - constructor. left; auto.
Qed.
Print Assumptions C101_else_refuted.
(** Also in a loop which is not entered: [{[a]; while c { return 1 }}]. *)
Theorem C101_loop_refuted : exists f body n o, lint_file (Closure f [] body) = [Discard n] /\ tame body = true /\ ev Run body o Run /\ joined n o.
Proof.
  exists 1, (Block [Leaf 2 KOther; While 6 (Ident 3) (Block [Return 4 (Some (Ident 5))])]), 2, ([Val 2] ++ [] ++ []). split; [reflexivity|]. split; [reflexivity|]. split.
  - constructor. apply blk_plain; [reflexivity|constructor|]. apply blk_plain; [reflexivity| |constructor]. apply (ev_while Run). eapply whl_end. constructor.
  - constructor. left; auto.
Qed.
Print Assumptions C101_loop_refuted.
(** A rule is reported in front of [return] without a value, which returns what was joined under the rule: [{set text(red); [a]; return}]. *)
Theorem C101_rules_refuted : exists f body n o, lint_file (Closure f [] body) = [Discard n] /\ tame body = true /\ ends body /\ ev Run body o (Ret false) /\ effective n o.
Proof.
  exists 1, (Block [SetR 2 None [] (Ident 3); Leaf 4 KOther; Return 5 None]), 2, [Styled 2 ([Val 4] ++ [])]. split; [reflexivity|]. split; [reflexivity|].
  split; [apply (ends_block [_; _]); constructor|]. split.
  - constructor. eapply blk_set; [eapply ev_set; repeat (econstructor; eauto)|]. apply blk_plain; [reflexivity|constructor|]. apply blk_stop; [|discriminate]. apply (ev_return0 Run).
  - eapply effective_here; [left; reflexivity|]. eapply visible_val. left; reflexivity.
Qed.
Print Assumptions C101_rules_refuted.
(** Nor is every value reported which is discarded: one for each [return], no results of calls, and nothing where the [return] cannot be seen. *)
Theorem C101_missed_refuted : exists f body n o, lint_file (Closure f [] body) = [Discard 3] /\ n <> 3 /\ ev Run body o (Ret true) /\ joined n o
  /\ forall o q, ev Run body o q -> q = Ret true.
Proof.
  exists 1, (Block [Leaf 2 KOther; Leaf 3 KOther; Call 4 (Ident 5) []; Return 6 (Some (Ident 7))]), 2, ([Val 2] ++ [Val 3] ++ [Val 4] ++ []).
  split; [reflexivity|]. split; [discriminate|]. split; [|split].
  - constructor. repeat (apply blk_plain; [reflexivity|repeat (econstructor; eauto)|]). apply blk_stop; [|discriminate]. apply (ev_return Run 6 (Ident 7) [Val 7] Run). constructor.
  - constructor. left; auto.
  - intros o q X. assert (E : ends (Block [Leaf 2 KOther; Leaf 3 KOther; Call 4 (Ident 5) []; Return 6 (Some (Ident 7))])) by (apply (ends_block [_; _; _]); constructor).
    eapply (ends_must _ E); [reflexivity|reflexivity|cbn; repeat constructor; cbn; intuition congruence| |exact X]. instantiate (1 := mkLt [] None CBlock). reflexivity.
Qed.
Print Assumptions C101_missed_refuted.

(** ** C102: blocks with nothing but rules. *)
Lemma only_show_rules es : only_show false es = true <-> rules_only es.
Proof.
  assert (G : forall es h, only_show h es = true <-> exists pre post, es = pre ++ post /\ Forall (fun e => is_show_set e = true \/ exists n, e = Leaf n KTrivia) pre
    /\ (h = true \/ exists e, In e pre /\ is_show_set e = true) /\ (post = [] \/ exists n post', post = Break n :: post' \/ post = Continue n :: post')).
  { clear. induction es as [|e es IH]; intro h.
    - cbn. split.
      + intros ->. exists [], []. repeat split; auto.
      + intros (pre & post & E & _ & H & _). symmetry in E. apply app_eq_nil in E. destruct E as (-> & _). destruct H as [?|(? & [] & _)]; auto.
    - assert (N : forall h', (is_show_set e = true /\ h' = true) \/ ((exists n, e = Leaf n KTrivia) /\ h' = h) -> only_show h (e :: es) = only_show h' es ->
        (only_show h (e :: es) = true <-> exists pre post, e :: es = pre ++ post /\ Forall (fun e => is_show_set e = true \/ exists n, e = Leaf n KTrivia) pre
          /\ (h = true \/ exists e, In e pre /\ is_show_set e = true) /\ (post = [] \/ exists n post', post = Break n :: post' \/ post = Continue n :: post'))).
      { intros h' HH ->. rewrite IH. split.
        - intros (pre & post & -> & F & A & B). exists (e :: pre), post. split; [auto|]. split; [constructor; auto; tauto|]. split; [|auto].
          destruct HH as [(R & ->)|(_ & ->)]; [right; exists e; split; [left; auto|auto]|]. destruct A as [?|(x & X1 & X2)]; [auto|]. right. exists x. split; [right; auto|auto].
        - intros (pre & post & E & F & A & B). destruct pre as [|e' pre].
          + cbn in E. subst post. exfalso. destruct B as [[=]|(n & post' & [[= -> _]|[= -> _]])]; destruct HH as [(R & _)|((m & R) & _)]; discriminate.
          + injection E as <- ->. inversion F; subst. exists pre, post. split; [auto|]. split; [auto|]. split; [|auto].
            destruct HH as [(R & ->)|((m & ->) & ->)]; [auto|]. destruct A as [?|(x & [<-|X1] & X2)]; [auto|discriminate|eauto]. }
      assert (Z : only_show h (e :: es) = false -> is_show_set e = false -> (forall n, e <> Leaf n KTrivia) -> (forall n, e <> Break n) -> (forall n, e <> Continue n) ->
        (only_show h (e :: es) = true <-> exists pre post, e :: es = pre ++ post /\ Forall (fun e => is_show_set e = true \/ exists n, e = Leaf n KTrivia) pre
          /\ (h = true \/ exists e, In e pre /\ is_show_set e = true) /\ (post = [] \/ exists n post', post = Break n :: post' \/ post = Continue n :: post'))).
      { intros -> R N1 N2 N3. split; [discriminate|]. intros (pre & post & E & F & A & B). exfalso. destruct pre as [|e' pre].
        - cbn in E. subst post. destruct B as [[=]|(n & post' & [[= B _]|[= B _]])]; [exact (N2 _ B)|exact (N3 _ B)].
        - injection E as <- ->. inversion F as [|? ? [R'|(n & R')] F']; subst; [congruence|exact (N1 n eq_refl)]. }
      destruct e; try (apply Z; [reflexivity|reflexivity|intros ? [=]|intros ? [=]|intros ? [=]]; fail).
      + destruct k; try (apply Z; [reflexivity|reflexivity|intros ? [=]|intros ? [=]|intros ? [=]]; fail). apply (N h); [right; eauto|reflexivity].
      + apply (N true); [left; auto|reflexivity].
      + apply (N true); [left; auto|reflexivity].
      + cbn [only_show]. split.
        * intros ->. exists [], (Break n :: es). repeat split; auto. right. eauto.
        * intros (pre & post & E & F & A & B). destruct A as [?|(x & X1 & X2)]; [auto|]. destruct pre as [|e' pre]; [destruct X1|]. injection E as <- _.
          inversion F as [|? ? G F']; subst. destruct G as [G|(m & G)]; discriminate G.
      + cbn [only_show]. split.
        * intros ->. exists [], (Continue n :: es). repeat split; auto. right. eauto.
        * intros (pre & post & E & F & A & B). destruct A as [?|(x & X1 & X2)]; [auto|]. destruct pre as [|e' pre]; [destruct X1|]. injection E as <- _.
          inversion F as [|? ? G F']; subst. destruct G as [G|(m & G)]; discriminate G. }
  rewrite G. unfold rules_only. split; intros (pre & post & A & B & C & D); exists pre, post; (split; [auto|split; [auto|split; [|auto]]]).
  - destruct C as [[=]|C]; auto.
  - auto.
Qed.
Lemma rules_in es : forall h n h', In (n, h') (rules h es) <->
  exists pre e post, es = pre ++ e :: post /\ rule_at e n /\ h' = (h && forallb (fun e => negb (is_show_set e)) pre).
Proof.
  induction es as [|e es IH]; intros h n h'.
  - cbn. split; [tauto|]. intros (pre & x & post & E & _). destruct pre; discriminate E.
  - assert (S : is_show_set e = false -> rules h (e :: es) = rules h es) by (destruct e; cbn; congruence).
    destruct (is_show_set e) eqn:R.
    + assert (exists m, rules h (e :: es) = (m, h) :: rules false es /\ forall k, rule_at e k <-> m = k) as (m & -> & Hm).
      { destruct e; try discriminate; cbn; eexists; (split; [reflexivity|intro; tauto]). }
      split.
      * intros [[= <- <-]|H].
        -- exists [], e, es. split; [auto|]. split; [apply Hm; auto|]. cbn. rewrite andb_true_r; auto.
        -- apply IH in H. destruct H as (pre & x & post & -> & A & ->). exists (e :: pre), x, post. split; [auto|]. split; [auto|]. cbn. rewrite R. cbn. rewrite andb_false_r; auto.
      * intros (pre & x & post & E & A & ->). destruct pre as [|y pre].
        -- injection E as <- <-. left. cbn. rewrite andb_true_r. f_equal. apply Hm; auto.
        -- injection E as <- ->. right. apply IH. exists pre, x, post. split; [auto|]. split; [auto|]. cbn. rewrite R. cbn. rewrite andb_false_r; auto.
    + rewrite S, IH by auto. split.
      * intros (pre & x & post & -> & A & ->). exists (e :: pre), x, post. split; [auto|]. split; [auto|]. cbn. rewrite R. reflexivity.
      * intros (pre & x & post & E & A & ->). destruct pre as [|y pre].
        -- injection E as <- <-. exfalso. destruct e; try discriminate; exact A.
        -- injection E as <- ->. exists pre, x, post. split; [auto|]. split; [auto|]. cbn. rewrite R. reflexivity.
Qed.
Theorem C102_exactly root n h : In (NoEffect n h) (lint_file root) <->
  exists p x es, has p root x /\ body_of x es /\ rules_only es
    /\ exists pre e post, es = pre ++ e :: post /\ rule_at e n /\ h = forallb (fun e => negb (is_show_set e)) pre.
Proof.
  rewrite file_exact. split.
  - intros (p & x & H & G). rewrite app_nil_r in G. exists p, x.
    assert (GG : exists es m h0, body_of x es /\ only_show false es = true /\ In (m, h0) (rules true es) /\ NoEffect n h = NoEffect m h0).
    { destruct x; cbn in G; try tauto; try (destruct G as (_ & [=]); fail).
      - destruct G as (_ & G). apply discards_only in G. destruct G as (? & [=]).
      - destruct G as (_ & G). apply discards_only in G. destruct G as (? & [=]). }
    destruct GG as (es & m & h0 & A & B & C & [= <- <-]). exists es. split; [auto|]. split; [auto|]. split; [apply only_show_rules; auto|].
    apply rules_in in C. exact C.
  - intros (p & x & es & H & A & B & C). exists p, x. split; [auto|]. rewrite app_nil_r. apply only_show_rules in B.
    assert (C' : In (n, h) (rules true es)) by (apply rules_in; exact C).
    assert (GG : exists es m h0, body_of x es /\ only_show false es = true /\ In (m, h0) (rules true es) /\ NoEffect n h = NoEffect m h0) by eauto 8.
    destruct x; try exact GG; destruct A.
Qed.
Print Assumptions C102_exactly.
Definition ex_rules : expr :=
  Seq [If (Ident 1) (Block [SetR 2 None [] (Ident 3); Leaf 4 KTrivia; Show 5 (Some (Ident 6)) (Ident 7)]) (Some (Block [SetR 8 None [] (Ident 9); Leaf 10 KOther]))].
Example C102_exactly_nonvacuous : lint_file ex_rules = [NoEffect 2 true; NoEffect 5 false].
Proof. reflexivity. Qed.

(** A block which is reported shows nothing, if it applies no function to what follows. *)
Theorem C102_invisible_partial es : rules_only es -> forallb (fun e => negb (applies e)) es = true -> forall o q, blk Run es o q -> ~ visible o.
Proof.
  intros (pre & post & -> & F & _ & HP) A.
  assert (N0 : ~ visible []) by (intro V; inversion V; subst; cbn in *; auto).
  assert (NS : forall n o, ~ visible o -> ~ visible [Styled n o]).
  { intros n o H V. inversion V as [m o' Hi|m o1 o' Hi|m o1 o' Hi Hv]; subst; destruct Hi as [Hi|[]]; try discriminate. injection Hi as -> ->. auto. }
  assert (RS : forall e o q, is_show_set e = true -> ev Run e o q -> o = []).
  { intros e o q R X. destruct e; try discriminate; inversion X; auto. }
  induction F as [|e pre [R|(n & ->)] F IH]; intros o q X.
  - cbn [app] in X. destruct HP as [->|(n & post' & [->| ->])].
    + inversion X; subst; auto.
    + inversion X; subst; match goal with Y : ev Run (Break _) _ _ |- _ => inversion Y; subst; auto; discriminate end.
    + inversion X; subst; match goal with Y : ev Run (Continue _) _ _ |- _ => inversion Y; subst; auto; discriminate end.
  - cbn [app forallb] in X, A. apply andb_true_iff in A. destruct A as (A1 & A2). inversion X; subst.
    + match goal with Y : ev Run e _ _ |- _ => rewrite (RS _ _ _ R Y) end. auto.
    + unfold plain in *; congruence.
    + apply NS. eapply IH; eauto.
    + eapply IH; eauto.
    + discriminate.
    + apply NS. eapply IH; eauto.
  - cbn [app forallb] in X, A. inversion X; subst; try (match goal with Y : ev Run (Leaf _ _) _ _ |- _ => inversion Y; subst end; congruence).
    match goal with Y : ev Run (Leaf _ _) _ _ |- _ => inversion Y; subst end. cbn. eapply IH; eauto.
Qed.
Print Assumptions C102_invisible_partial.
Example C102_invisible_nonvacuous : rules_only [SetR 2 None [] (Ident 3); Leaf 4 KTrivia; Show 5 (Some (Ident 6)) (Ident 7); Break 8; Leaf 9 KOther]
  /\ forallb (fun e => negb (applies e)) [SetR 2 None [] (Ident 3); Leaf 4 KTrivia; Show 5 (Some (Ident 6)) (Ident 7); Break 8; Leaf 9 KOther] = true.
Proof. split; [apply only_show_rules|]; reflexivity. Qed.
(** A show rule without a selector shows something: [if c { show: it => [x] }]. *)
Theorem C102_show_refuted : exists c es o, lint_file (If c (Block es) None) = [NoEffect 1 true] /\ ev Run (If c (Block es) None) o Run /\ effective 1 o /\ visible o.
Proof.
  exists (Ident 9), [Show 1 None (Ident 2)], [Applied 1 []]. split; [reflexivity|]. split; [|split].
  - eapply ev_then; [constructor|]. constructor. eapply blk_show; [eapply ev_show; constructor|constructor].
  - eapply effective_applied; left; reflexivity.
  - eapply visible_applied; left; reflexivity.
Qed.
Print Assumptions C102_show_refuted.
(** In the markup of a file and in other blocks rules in front of nothing go unnoticed. *)
Theorem C102_unseen_refuted : exists es, rules_only es /\ lint_file (Let (Some (Block es))) = [] /\ forall o q, ev Run (Let (Some (Block es))) o q -> ~ visible o.
Proof.
  exists [SetR 1 None [] (Ident 2)]. split; [apply only_show_rules; reflexivity|]. split; [reflexivity|]. intros o q X V. inversion X; subst. inversion V; subst; cbn in *; auto.
Qed.
Print Assumptions C102_unseen_refuted.
