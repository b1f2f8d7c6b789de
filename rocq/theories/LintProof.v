(** Proofs about the linter. *)
From Coq Require Import List Bool Arith Lia.
From Verif Require Import LintModel LintSpec.
Import ListNotations.

(** Induction over expressions. *)
Definition Fo (P : expr -> Prop) (o : option expr) : Prop := match o with Some e => P e | None => True end.
Section Ind.
  Variable P : expr -> Prop.
  Hypothesis HLeaf : forall n k, P (Leaf n k).
  Hypothesis HIdent : forall n, P (Ident n).
  Hypothesis HImport : P Import.
  Hypothesis HSeq : forall es, Forall P es -> P (Seq es).
  Hypothesis HAll : forall es, Forall P es -> P (All es).
  Hypothesis HParen : forall e, P e -> P (Paren e).
  Hypothesis HBlock : forall es, Forall P es -> P (Block es).
  Hypothesis HEquation : forall n es, Forall P es -> P (Equation n es).
  Hypothesis HColl : forall n es, Forall P es -> P (Coll n es).
  Hypothesis HItem : forall e, P e -> P (Item e).
  Hypothesis HUnary : forall n e, P e -> P (Unary n e).
  Hypothesis HBinary : forall n a b, P a -> P b -> P (Binary n a b).
  Hypothesis HStore : forall a b, P a -> P b -> P (Store a b).
  Hypothesis HField : forall n e, P e -> P (Field n e).
  Hypothesis HCall : forall n c args, P c -> Forall P args -> P (Call n c args).
  Hypothesis HClosure : forall n ps b, Forall P ps -> P b -> P (Closure n ps b).
  Hypothesis HLet : forall o, Fo P o -> P (Let o).
  Hypothesis HAssign : forall e, P e -> P (Assign e).
  Hypothesis HSetR : forall n c args t, Fo P c -> Forall P args -> P t -> P (SetR n c args t).
  Hypothesis HShow : forall n s t, Fo P s -> P t -> P (Show n s t).
  Hypothesis HContext : forall n b, P b -> P (Context n b).
  Hypothesis HIf : forall c i e, P c -> P i -> Fo P e -> P (If c i e).
  Hypothesis HWhile : forall n c b, P c -> P b -> P (While n c b).
  Hypothesis HFor : forall n c b, P c -> P b -> P (For n c b).
  Hypothesis HInclude : forall n e, P e -> P (Include n e).
  Hypothesis HBreak : forall n, P (Break n).
  Hypothesis HContinue : forall n, P (Continue n).
  Hypothesis HReturn : forall n o, Fo P o -> P (Return n o).
  Fixpoint expr_rect' (e : expr) : P e :=
    let fl := fix fl (es : list expr) : Forall P es :=
      match es with [] => Forall_nil P | e :: es => Forall_cons e (expr_rect' e) (fl es) end in
    let fo := fun (o : option expr) => match o return Fo P o with Some e => expr_rect' e | None => Logic.I end in
    match e with
    | Leaf n k => HLeaf n k
    | Ident n => HIdent n
    | Import => HImport
    | Seq es => HSeq es (fl es)
    | All es => HAll es (fl es)
    | Paren e => HParen e (expr_rect' e)
    | Block es => HBlock es (fl es)
    | Equation n es => HEquation n es (fl es)
    | Coll n es => HColl n es (fl es)
    | Item e => HItem e (expr_rect' e)
    | Unary n e => HUnary n e (expr_rect' e)
    | Binary n a b => HBinary n a b (expr_rect' a) (expr_rect' b)
    | Store a b => HStore a b (expr_rect' a) (expr_rect' b)
    | Field n e => HField n e (expr_rect' e)
    | Call n c args => HCall n c args (expr_rect' c) (fl args)
    | Closure n ps b => HClosure n ps b (fl ps) (expr_rect' b)
    | Let o => HLet o (fo o)
    | Assign e => HAssign e (expr_rect' e)
    | SetR n c args t => HSetR n c args t (fo c) (fl args) (expr_rect' t)
    | Show n s t => HShow n s t (fo s) (expr_rect' t)
    | Context n b => HContext n b (expr_rect' b)
    | If c i e => HIf c i e (expr_rect' c) (expr_rect' i) (fo e)
    | While n c b => HWhile n c b (expr_rect' c) (expr_rect' b)
    | For n c b => HFor n c b (expr_rect' c) (expr_rect' b)
    | Include n e => HInclude n e (expr_rect' e)
    | Break n => HBreak n
    | Continue n => HContinue n
    | Return n o => HReturn n o (fo o)
    end.
End Ind.

(** ** Which warnings there are. *)
Definition head_loop (B : list anc) : option nat := match B with ALoop l :: _ => Some l | _ => None end.
Definition fits (s : st) (B : list anc) : Prop :=
  option_map lp_span (loop s) = head_loop B
  /\ match func s with
     | None => no_fun B
     | Some f => exists pre post, B = pre ++ AFun (fn_span f) :: post /\ no_fun pre /\ option_map lp_span (parent_loop f) = head_loop post
     end.
Definition ret (s : st) : Prop := match func s with Some f => has_return f = true | None => False end.
(** The rules of a block, and which is the first. *)
Fixpoint rules (first : bool) (es : list expr) : list (nat * bool) :=
  match es with
  | [] => []
  | SetR n _ _ _ :: es | Show n _ _ :: es => (n, first) :: rules false es
  | _ :: es => rules first es
  end.
Definition discards (b : expr) : list diag := l_diags (late b (mkLt [] None CBlock)).
Definition gives (B : list anc) (x : expr) (d : diag) : Prop :=
  match x with
  | Break n | Continue n => no_loop B /\ d = NoLoop n (across B)
  | Return n _ => no_fun B /\ d = NoFunc n
  | Closure _ ps b => ((exists e, In e ps /\ returns e) \/ returns b) /\ In d (discards b)
  | Context _ b => returns b /\ In d (discards b)
  | Show _ _ _ | If _ _ _ | While _ _ _ | For _ _ _ =>
      exists es n h, body_of x es /\ only_show false es = true /\ In (n, h) (rules true es) /\ d = NoEffect n h
  | _ => False
  end.
Definition expected (B : list anc) (e : expr) (d : diag) : Prop := exists p x, has p e x /\ gives (p ++ B) x d.
Definition adds (B : list anc) (X : diag -> Prop) (R : Prop) (s s' : st) : Prop :=
  fits s' B /\ panicked s' = false /\ (forall d, In d (diags s') <-> In d (diags s) \/ X d)
  /\ (func s' = None <-> func s = None) /\ (func s <> None -> (ret s' <-> ret s \/ R)).

Lemma adds_refl B s : fits s B -> panicked s = false -> adds B (fun _ => False) False s s.
Proof. intros H1 H2. split; [auto|]. split; [auto|]. split; [intro; tauto|]. split; [tauto|intro; tauto]. Qed.
Lemma adds_trans B X1 R1 X2 R2 s s1 s2 : adds B X1 R1 s s1 -> adds B X2 R2 s1 s2 -> adds B (fun d => X1 d \/ X2 d) (R1 \/ R2) s s2.
Proof.
  intros (a & b & c & d & e) (a' & b' & c' & d' & e').
  split; [auto|]. split; [auto|]. split; [intro x; rewrite c', c; tauto|]. split; [tauto|].
  intro H. rewrite e', e; tauto.
Qed.
Lemma adds_iff B X R X' R' s s' : adds B X R s s' -> (forall d, X d <-> X' d) -> (R <-> R') -> adds B X' R' s s'.
Proof.
  intros (a & b & c & d & e) HX HR. split; [auto|]. split; [auto|]. split; [intro x; rewrite c, HX; tauto|]. split; [auto|].
  intro H. rewrite e, HR; tauto.
Qed.
Definition step_ok (e : expr) : Prop := forall s B, fits s B -> panicked s = false -> adds B (expected B e) (returns e) s (lint e s).
Lemma adds_fits B X R s s' : adds B X R s s' -> fits s' B.
Proof. intro H; apply H. Qed.
Lemma adds_ok B X R s s' : adds B X R s s' -> panicked s' = false.
Proof. intro H; apply H. Qed.

Lemma lints_ok es : Forall step_ok es -> forall s B, fits s B -> panicked s = false ->
  adds B (fun d => exists e, In e es /\ expected B e d) (exists e, In e es /\ returns e) s (lints es s).
Proof.
  induction 1 as [|e es He Hes IH]; intros s B Hf Hp; cbn [lints].
  - eapply adds_iff; [apply adds_refl; auto| |]; [intro d|]; split; try tauto; intros (? & [] & _).
  - pose proof (He s B Hf Hp) as A. pose proof (IH _ _ (adds_fits _ _ _ _ _ A) (adds_ok _ _ _ _ _ A)) as A'.
    eapply adds_iff; [exact (adds_trans _ _ _ _ _ _ _ _ A A')| |]; [intro d|]; cbn [In]; split.
    + intros [H|(x & H1 & H2)]; eauto.
    + intros (x & [<-|H1] & H2); eauto.
    + intros [H|(x & H1 & H2)]; eauto.
    + intros (x & [<-|H1] & H2); eauto.
Qed.
Lemma lints_eq : forall es s, (fix lints (es : list expr) (s : st) : st := match es with [] => s | e :: es => lints es (lint e s) end) es s = lints es s.
Proof. induction es; intro s; cbn; auto. Qed.
Lemma lates_eq : forall es s, (fix lates (es : list expr) (s : lt) : lt := match es with [] => s | e :: es => late e (lates es s) end) es s = lates es s.
Proof. induction es; intro s; cbn; auto. Qed.

(** Changes to [adds] when entering loops and functions. *)
Lemma with_loop_ok B X R n s s1 : fits s B -> adds (ALoop n :: B) X R (set_loop (Some (mkLoop n false false)) s) s1 ->
  adds B X R s (set_loop (loop s) s1).
Proof.
  intros (Hl & Hf) ((_ & Hf1) & Hp & Hd & Hn & Hr). unfold adds, fits, ret in *. cbn [set_loop loop func diags panicked] in *.
  split; [split; [exact Hl|]|split; [exact Hp|split; [exact Hd|split; [exact Hn|exact Hr]]]].
  destruct (func s1) as [f|].
  - destruct Hf1 as (pre & post & E & Hpre & Hpar). destruct pre as [|a pre]; cbn in E; inversion E; subst.
    exists pre, post. repeat split; auto. intros f' Hin. apply (Hpre f'). right; auto.
  - intros f' Hin. apply (Hf1 f'). right; auto.
Qed.
Lemma late_diags e : forall d r c, l_diags (late e (mkLt d r c)) = d ++ l_diags (late e (mkLt [] r c))
  /\ l_ri (late e (mkLt d r c)) = l_ri (late e (mkLt [] r c)) /\ l_ctx (late e (mkLt d r c)) = c.
Proof.
  set (Q := fun f : lt -> lt => forall d r c, l_diags (f (mkLt d r c)) = d ++ l_diags (f (mkLt [] r c))
    /\ l_ri (f (mkLt d r c)) = l_ri (f (mkLt [] r c)) /\ l_ctx (f (mkLt d r c)) = c).
  assert (Qid : Q (fun s => s)) by (intros d r c; cbn; rewrite app_nil_r; auto).
  assert (Qval : forall n k b, Q (value n k b)).
  { intros n k b d r c. unfold value; cbn. destruct c, r as [r|]; cbn; rewrite ?app_nil_r; auto.
    destruct (warned r); cbn; rewrite ?app_nil_r; auto. destruct k; cbn; rewrite ?app_nil_r; auto.
    destruct (_ || _); cbn; rewrite ?app_nil_r; auto. }
  assert (Qcomp : forall f g, Q f -> Q g -> Q (fun s => f (g s))).
  { intros f g Hf Hg d r c. destruct (Hg d r c) as (a1 & a2 & a3). destruct (Hg [] r c) as (_ & _ & b3).
    destruct (g (mkLt d r c)) as [d1 r1 c1], (g (mkLt [] r c)) as [d2 r2 c2]; cbn in *; subst d1 r1 c1 c2.
    destruct (Hf (d ++ d2) r2 c) as (x1 & x2 & x3). destruct (Hf d2 r2 c) as (y1 & y2 & y3).
    rewrite x1, x2, x3, y1, y2, app_assoc; auto. }
  assert (Qctx : forall k f, Q f -> Q (expr_ctx k f)).
  { intros k f Hf d r c. unfold expr_ctx, set_ctx; cbn. destruct (Hf d r (nest c k)) as (a & b & _). auto. }
  assert (Qri : forall r0, Q (set_ri r0)).
  { intros r0 d r c. unfold set_ri; cbn. rewrite app_nil_r; auto. }
  assert (Ql : forall es, Forall (fun e => Q (late e)) es -> Q (lates es)).
  { induction 1; [exact Qid|]. cbn [lates]. change (Q (fun s => late x (lates l s))). apply Qcomp; auto. }
  change (Q (late e)). induction e using expr_rect'; cbn [late];
    first [exact Qid | exact (Qval _ _ _) | exact (Ql _ H) | exact (Qctx CBlock _ (Ql _ H)) | exact IHe | exact (Qctx CExpr _ IHe)
          | exact (Qctx CExpr _ IHe2) | exact (Qctx CExpr _ (Qcomp _ _ IHe1 IHe2)) | exact IHe2 | exact (Qri _) | idtac].
  - intros d r c. cbn. destruct (IHe2 d r c) as (a1 & a2 & a3). destruct (IHe2 [] r c) as (_ & _ & a4).
    destruct (late e2 (mkLt d r c)) as [d1 r1 c1], (late e2 (mkLt [] r c)) as [d2 r2 c2]. cbn in *. subst d1 r1 c1 c2. unfold set_ri; cbn.
    destruct e3 as [e|]; cbn.
    + cbn in H. destruct (H (d ++ d2) r c) as (x1 & x2 & x3). destruct (H d2 r c) as (y1 & y2 & y3).
      rewrite x1, x2, x3, y1, y2, app_assoc; auto.
    + auto.
  - destruct o; exact (Qri _).
Qed.

Lemma late_ok b s : func s <> None -> ret s \/ ~ ret s -> forall d,
  In d (diags (late_func_return b s)) <-> In d (diags s) \/ (ret s /\ In d (discards b)).
Proof.
  intros Hf _ d. unfold late_func_return, ret. destruct (func s) as [f|]; [|congruence].
  destruct (has_return f); [|split; [auto|intros [?|(? & _)]; auto; discriminate]].
  cbn [set_diags diags]. destruct (late_diags b (diags s) None CBlock) as (-> & _). rewrite in_app_iff. unfold discards. tauto.
Qed.
Lemma late_same b s : func s <> None -> loop (late_func_return b s) = loop s /\ func (late_func_return b s) = func s /\ panicked (late_func_return b s) = panicked s.
Proof. intro Hf. unfold late_func_return. destruct (func s) as [f|] eqn:E; [|congruence]. destruct (has_return f); cbn; auto. Qed.
Lemma with_func_ok B X R n s (k : st -> st) b : fits s B -> panicked s = false ->
  (let s0 := set_func (Some (mkFunc n false false false (loop s))) s in adds (AFun n :: B) X R (set_loop None s0) (k s0)) ->
  adds B (fun d => X d \/ (R /\ In d (discards b))) False s (with_func n (fun s => late_func_return b (k s)) s).
Proof.
  intros (Hl & Hf) Hp A. cbn zeta in A. unfold with_func. set (s0 := set_func _ s) in *. set (s1 := k s0) in *.
  destruct A as ((A1 & A2) & A3 & A4 & A5 & A6). cbn in A5, A6.
  assert (Hs1 : func s1 <> None) by (intro E; apply A5 in E; discriminate).
  destruct (late_same b s1 Hs1) as (L1 & L2 & L3).
  assert (Hret : ret s1 <-> R).
  { rewrite A6 by discriminate. unfold ret; cbn. split; [intros [?|?]; [discriminate|auto]|auto]. }
  assert (HD : forall d, In d (diags (late_func_return b s1)) <-> In d (diags s) \/ X d \/ (R /\ In d (discards b))).
  { intro d. rewrite late_ok; auto. 2:{ unfold ret. destruct (func s1) as [f|]; [destruct (has_return f); auto|auto]. }
    rewrite A4, Hret. cbn. tauto. }
  rewrite L2. destruct (func s1) as [f|] eqn:E; [|congruence].
  destruct A2 as (pre & post & E1 & E2 & E3).
  assert (pre = [] /\ post = B) as (-> & ->).
  { destruct pre as [|a pre]; cbn in E1; inversion E1; subst; auto. exfalso. apply (E2 n). left; auto. }
  split; [split; [exact E3|exact Hf]|]. split; [cbn; congruence|]. split; [intro d; cbn [diags set_func set_loop]; exact (HD d)|].
  split; [reflexivity|]. intro H. unfold ret; cbn. tauto.
Qed.
Lemma enter_fits n s B : fits s B -> fits (set_loop None (set_func (Some (mkFunc n false false false (loop s))) s)) (AFun n :: B).
Proof. intros (Hl & Hf). split; [reflexivity|]. cbn. exists [], B. split; [auto|]. split; [intros f []|exact Hl]. Qed.
Lemma contextual_ok B s : fits s B -> panicked s = false -> func s <> None -> adds B (fun _ => False) False s (mark_contextual s).
Proof.
  intros (Hl & Hf) Hp H. unfold mark_contextual. destruct (func s) as [f|] eqn:E; [|congruence].
  split; [split; [exact Hl|exact Hf]|]. split; [exact Hp|]. split; [intro; cbn; tauto|]. split; [cbn; rewrite E; split; discriminate|].
  intros _. unfold ret; cbn. rewrite E. tauto.
Qed.
Lemma warn_ok B d0 s : fits s B -> panicked s = false -> adds B (fun d => d = d0) False s (warn d0 s).
Proof.
  intros H1 H2. split; [exact H1|]. split; [exact H2|]. split; [intro d; cbn; rewrite in_app_iff; cbn; intuition congruence|].
  split; [reflexivity|]. unfold ret; cbn. tauto.
Qed.
Lemma no_effects_ok B es : forall h s, fits s B -> panicked s = false ->
  adds B (fun d => exists n h', In (n, h') (rules h es) /\ d = NoEffect n h') False s (no_effects h es s).
Proof.
  assert (Z : forall h s, fits s B -> panicked s = false -> adds B (fun d => exists n h', In (n, h') (rules h []) /\ d = NoEffect n h') False s s).
  { intros. eapply adds_iff; [apply adds_refl; auto| |tauto]. intro d. split; [tauto|intros (? & ? & [] & _)]. }
  induction es as [|e es IH]; intros h s Hf Hp; [apply Z; auto|].
  assert (S : forall n, adds B (fun d => exists m h', In (m, h') ((n, h) :: rules false es) /\ d = NoEffect m h') False s (no_effects false es (warn (NoEffect n h) s))).
  { intro n. pose proof (warn_ok B (NoEffect n h) s Hf Hp) as A. pose proof (IH false _ (adds_fits _ _ _ _ _ A) (adds_ok _ _ _ _ _ A)) as A'.
    eapply adds_iff; [exact (adds_trans _ _ _ _ _ _ _ _ A A')| |tauto]. intro d. cbn [In]. split.
    - intros [->|(m & h' & H & ->)]; eauto 6.
    - intros (m & h' & [H|H] & ->); [inversion H; auto|eauto 6]. }
  destruct e; cbn [no_effects rules]; auto.
Qed.
Lemma buggy_ok B e s : fits s B -> panicked s = false ->
  adds B (fun d => exists es n h, e = Block es /\ only_show false es = true /\ In (n, h) (rules true es) /\ d = NoEffect n h) False s (buggy_block e s).
Proof.
  intros Hf Hp. unfold buggy_block.
  assert (Z : (forall es, e = Block es -> only_show false es = true -> False) ->
    adds B (fun d => exists es n h, e = Block es /\ only_show false es = true /\ In (n, h) (rules true es) /\ d = NoEffect n h) False s s).
  { intro HN. eapply adds_iff; [apply adds_refl; auto| |tauto]. intro d. split; [tauto|]. intros (es & n & h & H1 & H2 & _). eauto. }
  destruct e; try (apply Z; intros; discriminate).
  destruct (only_show false es) eqn:E; [|apply Z; intros ? [= <-]; congruence].
  eapply adds_iff; [apply no_effects_ok; auto| |tauto]. intro d. split.
  - intros (n & h & H & ->). exists es, n, h; auto.
  - intros (es' & n & h & [= <-] & _ & H & ->). eauto.
Qed.
Lemma bad_branch_ok B n s : fits s B -> panicked s = false -> loop s = None ->
  no_loop B /\ adds B (fun d => d = NoLoop n (across B)) False s (bad_branch n s).
Proof.
  intros (Hl & Hf) Hp E. rewrite E in Hl. cbn in Hl.
  assert (HN : no_loop B) by (destruct B as [|[l|f] B]; cbn in *; auto; discriminate).
  split; [exact HN|]. unfold bad_branch.
  assert (EQ : match func s with
               | Some f => match parent_loop f with Some l => Some (lp_span l, fn_span f) | None => None end
               | None => None end = across B).
  { destruct (func s) as [f|].
    - destruct Hf as (pre & post & -> & Hpre & Hpar).
      assert (pre = []) as ->.
      { destruct pre as [|[l|g] pre]; auto; cbn in HN; [tauto|]. exfalso. apply (Hpre g); left; auto. }
      cbn. destruct post as [|[l|g] post], (parent_loop f); cbn in *; congruence.
    - destruct B as [|[l|g] B]; cbn in *; auto. exfalso. apply (Hf g). left; auto. }
  rewrite EQ. apply warn_ok; auto. split; [rewrite E; auto|auto].
Qed.

Ltac nogive := let G := fresh in intro G; exfalso; exact G.
Lemma exp_self B e d : gives B e d -> expected B e d.
Proof. intro. exists [], e. split; [constructor|auto]. Qed.
Lemma step_all e : step_ok e.
Proof.
  assert (Quiet : forall e, (forall s, lint e s = s) -> (forall p x, has p e x -> p = [] /\ x = e) -> (forall B d, ~ gives B e d) -> (forall k v, e <> Return k v) -> step_ok e).
  { intros x H1 H2 H3 H4 s B Hf Hp. rewrite H1. eapply adds_iff; [apply adds_refl; auto| |]; [intro d|].
    - split; [tauto|]. intros (p & y & Hh & G). destruct (H2 _ _ Hh) as (-> & ->). exact (H3 _ _ G).
    - split; [tauto|]. intros (p & k & v & Hh & _). destruct (H2 _ _ Hh) as (-> & E). exact (H4 k v (eq_sym E)). }
  assert (List : forall e es, (forall s, lint e s = lints es s) -> (forall B d, ~ gives B e d) -> (forall k v, e <> Return k v) ->
     (forall p x, has p e x <-> (p = [] /\ x = e) \/ exists y, In y es /\ has p y x) -> Forall step_ok es -> step_ok e).
  { intros x es H1 H2 H3 H4 Hes s B Hf Hp. rewrite H1. eapply adds_iff; [apply lints_ok; auto| |]; [intro d|]; split.
    - intros (y & Hy & p & z & Hh & G). exists p, z. split; [apply H4; eauto|auto].
    - intros (p & z & Hh & G). apply H4 in Hh. destruct Hh as [(-> & ->)|(y & Hy & Hh)]; [exfalso; exact (H2 _ _ G)|].
      exists y. split; [auto|]. exists p, z; auto.
    - intros (y & Hy & p & k & v & Hh & G). exists p, k, v. split; [apply H4; eauto|auto].
    - intros (p & k & v & Hh & G). apply H4 in Hh. destruct Hh as [(-> & E)|(y & Hy & Hh)]; [exfalso; exact (H3 k v (eq_sym E))|].
      exists y. split; [auto|]. exists p, k, v; auto. }
  induction e using expr_rect'.
  - apply Quiet; auto; try discriminate; intros p0 x0 Hh0; inversion Hh0; auto.
  - apply Quiet; auto; try discriminate; intros p0 x0 Hh0; inversion Hh0; auto.
  - apply Quiet; auto; try discriminate; intros p0 x0 Hh0; inversion Hh0; auto.
  - apply (List _ es); auto; try discriminate. intros p x; split; [intro Hh; inversion Hh; subst; eauto|].
    intros [(-> & ->)|(y & Hy & Hh)]; [constructor|econstructor; eauto].
  - apply (List _ es); auto; try discriminate. intros p x; split; [intro Hh; inversion Hh; subst; eauto|].
    intros [(-> & ->)|(y & Hy & Hh)]; [constructor|econstructor; eauto].
  - apply (List _ [e]); auto; try discriminate. intros p x; split; [intro Hh; inversion Hh; subst; cbn; eauto|].
    intros [(-> & ->)|(y & [<-|[]] & Hh)]; [constructor|econstructor; eauto].
  - apply (List _ es); auto; try discriminate. intros p x; split; [intro Hh; inversion Hh; subst; eauto|].
    intros [(-> & ->)|(y & Hy & Hh)]; [constructor|econstructor; eauto].
  - apply (List _ es); auto; try discriminate. intros p x; split; [intro Hh; inversion Hh; subst; eauto|].
    intros [(-> & ->)|(y & Hy & Hh)]; [constructor|econstructor; eauto].
  - apply (List _ es); auto; try discriminate. intros p x; split; [intro Hh; inversion Hh; subst; eauto|].
    intros [(-> & ->)|(y & Hy & Hh)]; [constructor|econstructor; eauto].
  - apply Quiet; auto; try discriminate; intros p0 x0 Hh0; inversion Hh0; auto.
  - apply (List _ [e]); auto; try discriminate. intros p x; split; [intro Hh; inversion Hh; subst; cbn; eauto|].
    intros [(-> & ->)|(y & [<-|[]] & Hh)]; [constructor|econstructor; eauto].
  - apply (List _ [e1; e2]); auto; try discriminate. intros p x; split; [intro Hh; inversion Hh; subst; [left; auto|right; eexists; (split; [|eassumption]); cbn; auto..]|].
    intros [(-> & ->)|(y & Hy & Hh)]; [constructor|]. destruct Hy as [<-|[<-|[]]]; [apply has_binary_l; auto|apply has_binary_r; auto].
  - apply (List _ [e1; e2]); auto; try discriminate. intros p x; split; [intro Hh; inversion Hh; subst; [left; auto|right; eexists; (split; [|eassumption]); cbn; auto..]|].
    intros [(-> & ->)|(y & Hy & Hh)]; [constructor|]. destruct Hy as [<-|[<-|[]]]; [apply has_store_l; auto|apply has_store_r; auto].
  - apply (List _ [e]); auto; try discriminate. intros p x; split; [intro Hh; inversion Hh; subst; cbn; eauto|].
    intros [(-> & ->)|(y & [<-|[]] & Hh)]; [constructor|econstructor; eauto].
  - apply Quiet; auto; try discriminate; intros p0 x0 Hh0; inversion Hh0; auto.
  - (* Closure *)
    intros s B Hf Hp. cbn [lint].
    pose proof (with_func_ok B (fun d => (exists e, In e ps /\ expected (AFun n :: B) e d) \/ expected (AFun n :: B) e d) ((exists e, In e ps /\ returns e) \/ returns e)
      n s (fun s => lint e (lints ps (set_loop None s))) e Hf Hp) as W.
    cbn beta zeta in W.
    eapply adds_iff; [apply W| |].
    + pose proof (lints_ok ps H _ _ (enter_fits n s B Hf) Hp) as A.
      pose proof (IHe _ _ (adds_fits _ _ _ _ _ A) (adds_ok _ _ _ _ _ A)) as A'. exact (adds_trans _ _ _ _ _ _ _ _ A A').
    + intro d. split.
      * intros [[(y & Hy & p & x & Hh & G)|(p & x & Hh & G)]|(HR & HD)].
        -- exists (p ++ [AFun n]), x. split; [eapply has_param; eauto|]. rewrite <- app_assoc. exact G.
        -- exists (p ++ [AFun n]), x. split; [eapply has_closure; eauto|]. rewrite <- app_assoc. exact G.
        -- apply exp_self. split; auto.
      * intros (p & x & Hh & G). inversion Hh; subst.
        -- cbn in G. right; exact G.
        -- rewrite <- app_assoc in G. left; left. eexists; split; [eauto|]. eexists _, _; eauto.
        -- rewrite <- app_assoc in G. left; right. eexists _, _; eauto.
    + split; [tauto|]. intros (p & k & v & Hh & Hn). inversion Hh; subst; apply (Hn n); apply in_or_app; right; left; auto.
  - (* Let *)
    destruct o as [e|].
    + apply (List _ [e]); auto; try discriminate. intros p x; split; [intro Hh; inversion Hh; subst; cbn; eauto|].
      intros [(-> & ->)|(y & [<-|[]] & Hh)]; [constructor|econstructor; eauto].
    + apply Quiet; auto; try discriminate; intros p0 x0 Hh0; inversion Hh0; auto.
  - apply (List _ [e]); auto; try discriminate. intros p x; split; [intro Hh; inversion Hh; subst; cbn; eauto|].
    intros [(-> & ->)|(y & [<-|[]] & Hh)]; [constructor|econstructor; eauto].
  - (* SetR *)
    assert (LA : forall a b s, lints (a ++ b) s = lints b (lints a s)).
    { induction a; intros b s; cbn; auto. }
    apply (List _ (match c with Some c => [c] | None => [] end ++ args ++ [e])); auto; try discriminate.
    + intro s. rewrite !LA. destruct c; reflexivity.
    + intros p x; split.
      * intro Hh; inversion Hh; subst; [left; auto|right..]; eexists; (split; [|eassumption]); rewrite ?in_app_iff; cbn; auto.
      * intros [(-> & ->)|(y & Hy & Hh)]; [constructor|]. rewrite !in_app_iff in Hy. destruct Hy as [Hy|[Hy|[<-|[]]]].
        -- destruct c; [|destruct Hy]. destruct Hy as [<-|[]]. constructor; auto.
        -- eapply has_set_arg; eauto.
        -- apply has_set_target; auto.
    + rewrite !Forall_app. repeat split; auto. destruct c; auto.
  - (* Show *)
    intros st0 B Hf Hp. cbn [lint].
    set (st1 := match s with Some e0 => lint e0 st0 | None => st0 end).
    assert (A1 : adds B (fun d => exists y, s = Some y /\ expected B y d) (exists y, s = Some y /\ returns y) st0 st1).
    { unfold st1. destruct s as [y|].
      - eapply adds_iff; [apply H; auto| |]; [intro d|]; split; eauto; intros (z & [= <-] & ?); auto.
      - eapply adds_iff; [apply adds_refl; auto| |]; [intro d|]; split; try tauto; intros (z & [=] & ?). }
    pose proof (buggy_ok B e st1 (adds_fits _ _ _ _ _ A1) (adds_ok _ _ _ _ _ A1)) as A2.
    pose proof (IHe _ _ (adds_fits _ _ _ _ _ A2) (adds_ok _ _ _ _ _ A2)) as A3.
    eapply adds_iff; [exact (adds_trans _ _ _ _ _ _ _ _ A1 (adds_trans _ _ _ _ _ _ _ _ A2 A3))| |]; [intro d|]; split.
    + intros [(y & -> & p & x & Hh & G)|[(es & m & h & -> & G)|(p & x & Hh & G)]].
      * exists p, x. split; [constructor; auto|auto].
      * apply exp_self. exists es, m, h. cbn. auto.
      * exists p, x. split; [constructor; auto|auto].
    + intros (p & x & Hh & G). inversion Hh; subst.
      * right; left. destruct G as (es & m & h & HB & G). cbn in HB. destruct e; try contradiction. subst. exists es, m, h; auto.
      * left. eexists; split; [reflexivity|]. eexists _, _; eauto.
      * right; right. eexists _, _; eauto.
    + intros [(y & -> & p & k & v & Hh & G)|[[]|(p & k & v & Hh & G)]]; exists p, k, v; split; auto; constructor; auto.
    + intros (p & k & v & Hh & G). inversion Hh; subst.
      * left. eexists; split; [reflexivity|]. eexists _, _, _; eauto.
      * right; right. eexists _, _, _; eauto.
  - (* Context *)
    intros s B Hf Hp. cbn [lint].
    pose proof (with_func_ok B (fun d => expected (AFun n :: B) e d) (returns e)
      n s (fun s => lint e (mark_contextual (set_loop None s))) e Hf Hp) as W.
    cbn beta zeta in W.
    eapply adds_iff; [apply W| |].
    + assert (NN : func (set_loop None (set_func (Some (mkFunc n false false false (loop s))) s)) <> None) by discriminate.
      pose proof (contextual_ok _ _ (enter_fits n s B Hf) Hp NN) as A.
      pose proof (IHe _ _ (adds_fits _ _ _ _ _ A) (adds_ok _ _ _ _ _ A)) as A'.
      eapply adds_iff; [exact (adds_trans _ _ _ _ _ _ _ _ A A')| |]; [intro d|]; tauto.
    + intro d. split.
      * intros [(p & x & Hh & G)|(HR & HD)].
        -- exists (p ++ [AFun n]), x. split; [eapply has_context; eauto|]. rewrite <- app_assoc. exact G.
        -- apply exp_self. split; auto.
      * intros (p & x & Hh & G). inversion Hh; subst.
        -- cbn in G. right; exact G.
        -- rewrite <- app_assoc in G. left. eexists _, _; eauto.
    + split; [tauto|]. intros (p & k & v & Hh & Hn). inversion Hh; subst; apply (Hn n); apply in_or_app; right; left; auto.
  - (* If *)
    rename e3 into oe.
    intros st0 B Hf Hp. cbn [lint].
    pose proof (IHe1 _ _ Hf Hp) as A1.
    pose proof (buggy_ok B e2 _ (adds_fits _ _ _ _ _ A1) (adds_ok _ _ _ _ _ A1)) as A2.
    pose proof (IHe2 _ _ (adds_fits _ _ _ _ _ A2) (adds_ok _ _ _ _ _ A2)) as A3.
    set (st3 := lint e2 _) in *.
    assert (A4 : adds B (fun d => exists y, oe = Some y /\ (expected B y d \/ exists es n h, y = Block es /\ only_show false es = true /\ In (n, h) (rules true es) /\ d = NoEffect n h))
                   (exists y, oe = Some y /\ returns y) st3 (match oe with Some e => lint e (buggy_block e st3) | None => st3 end)).
    { destruct oe as [y|].
      - pose proof (buggy_ok B y _ (adds_fits _ _ _ _ _ A3) (adds_ok _ _ _ _ _ A3)) as A4.
        pose proof (H _ _ (adds_fits _ _ _ _ _ A4) (adds_ok _ _ _ _ _ A4)) as A5.
        eapply adds_iff; [exact (adds_trans _ _ _ _ _ _ _ _ A4 A5)| |]; [intro d|]; split.
        + intros [?|?]; exists y; auto.
        + intros (z & [= <-] & [?|?]); auto.
        + intros [[]|?]; eauto.
        + intros (z & [= <-] & ?); auto.
      - eapply adds_iff; [apply adds_refl; [exact (adds_fits _ _ _ _ _ A3)|exact (adds_ok _ _ _ _ _ A3)]| |]; [intro d|]; split; try tauto; intros (z & [=] & ?). }
    eapply adds_iff; [exact (adds_trans _ _ _ _ _ _ _ _ A1 (adds_trans _ _ _ _ _ _ _ _ A2 (adds_trans _ _ _ _ _ _ _ _ A3 A4)))| |]; [intro d|]; split.
    + intros [(p & x & Hh & G)|[(es & m & h & -> & G)|[(p & x & Hh & G)|(y & -> & [(p & x & Hh & G)|(es & m & h & -> & G)])]]].
      * exists p, x. split; [constructor; auto|auto].
      * apply exp_self. exists es, m, h. cbn. auto.
      * exists p, x. split; [apply has_if_then; auto|auto].
      * exists p, x. split; [apply has_if_else; auto|auto].
      * apply exp_self. exists es, m, h. cbn. auto.
    + intros (p & x & Hh & G). inversion Hh; subst.
      * destruct G as (es & m & h & [HB|HB] & G); subst.
        -- right; left. exists es, m, h; auto.
        -- right; right; right. eexists; split; [reflexivity|]. right. exists es, m, h; auto.
      * left. eexists _, _; eauto.
      * right; right; left. eexists _, _; eauto.
      * right; right; right. eexists; split; [reflexivity|]. left. eexists _, _; eauto.
    + intros [(p & k & v & Hh & G)|[[]|[(p & k & v & Hh & G)|(y & -> & p & k & v & Hh & G)]]]; exists p, k, v; (split; [|auto]).
      * constructor; auto.
      * apply has_if_then; auto.
      * apply has_if_else; auto.
    + intros (p & k & v & Hh & G). inversion Hh; subst.
      * left; eexists _, _, _; eauto.
      * right; right; left; eexists _, _, _; eauto.
      * right; right; right. eexists; split; [reflexivity|]. eexists _, _, _; eauto.
  - (* While *)
    intros s B Hf Hp. cbn [lint]. unfold with_loop.
    assert (Hf' : fits (set_loop (Some (mkLoop n false false)) s) (ALoop n :: B)).
    { destruct Hf as (Hl & Hf). split; [reflexivity|]. cbn. destruct (func s) as [f|].
      - destruct Hf as (pre & post & -> & Hpre & Hpar). exists (ALoop n :: pre), post. split; [auto|]. split; [|auto]. intros g [[=]|Hg]; exact (Hpre g Hg).
      - intros g [[=]|Hg]; exact (Hf g Hg). }
    pose proof (IHe1 _ _ Hf' Hp) as A1.
    pose proof (buggy_ok (ALoop n :: B) e2 _ (adds_fits _ _ _ _ _ A1) (adds_ok _ _ _ _ _ A1)) as A2.
    pose proof (IHe2 _ _ (adds_fits _ _ _ _ _ A2) (adds_ok _ _ _ _ _ A2)) as A3.
    eapply adds_iff; [apply (with_loop_ok B _ _ n s _ Hf (adds_trans _ _ _ _ _ _ _ _ A1 (adds_trans _ _ _ _ _ _ _ _ A2 A3)))| |]; [intro d|]; split.
    + intros [(p & x & Hh & G)|[(es & m & h & -> & G)|(p & x & Hh & G)]].
      * exists (p ++ [ALoop n]), x. split; [constructor; auto|rewrite <- app_assoc; auto].
      * apply exp_self. exists es, m, h. cbn. auto.
      * exists (p ++ [ALoop n]), x. split; [apply has_while_body; auto|rewrite <- app_assoc; auto].
    + intros (p & x & Hh & G). inversion Hh; subst.
      * right; left. destruct G as (es & m & h & HB & G). cbn in HB. destruct e2; try contradiction. subst. exists es, m, h; auto.
      * left. rewrite <- app_assoc in G. eexists _, _; eauto.
      * right; right. rewrite <- app_assoc in G. eexists _, _; eauto.
    + intros [(p & k & v & Hh & G)|[[]|(p & k & v & Hh & G)]]; exists (p ++ [ALoop n]), k, v; (split; [constructor; auto; fail|]) || (split; [apply has_while_body; auto|]);
        intros g Hg; apply in_app_or in Hg; destruct Hg as [Hg|[[=]|[]]]; exact (G g Hg).
    + intros (p & k & v & Hh & G). inversion Hh; subst.
      * left. eexists _, _, _; split; [eauto|]. intros g Hg. apply (G g). apply in_or_app; auto.
      * right; right. eexists _, _, _; split; [eauto|]. intros g Hg. apply (G g). apply in_or_app; auto.
  - (* For *)
    intros s B Hf Hp. cbn [lint]. unfold with_loop.
    assert (Hf' : fits (set_loop (Some (mkLoop n false false)) s) (ALoop n :: B)).
    { destruct Hf as (Hl & Hf). split; [reflexivity|]. cbn. destruct (func s) as [f|].
      - destruct Hf as (pre & post & -> & Hpre & Hpar). exists (ALoop n :: pre), post. split; [auto|]. split; [|auto]. intros g [[=]|Hg]; exact (Hpre g Hg).
      - intros g [[=]|Hg]; exact (Hf g Hg). }
    pose proof (IHe1 _ _ Hf' Hp) as A1.
    pose proof (buggy_ok (ALoop n :: B) e2 _ (adds_fits _ _ _ _ _ A1) (adds_ok _ _ _ _ _ A1)) as A2.
    pose proof (IHe2 _ _ (adds_fits _ _ _ _ _ A2) (adds_ok _ _ _ _ _ A2)) as A3.
    eapply adds_iff; [apply (with_loop_ok B _ _ n s _ Hf (adds_trans _ _ _ _ _ _ _ _ A1 (adds_trans _ _ _ _ _ _ _ _ A2 A3)))| |]; [intro d|]; split.
    + intros [(p & x & Hh & G)|[(es & m & h & -> & G)|(p & x & Hh & G)]].
      * exists (p ++ [ALoop n]), x. split; [constructor; auto|rewrite <- app_assoc; auto].
      * apply exp_self. exists es, m, h. cbn. auto.
      * exists (p ++ [ALoop n]), x. split; [apply has_for_body; auto|rewrite <- app_assoc; auto].
    + intros (p & x & Hh & G). inversion Hh; subst.
      * right; left. destruct G as (es & m & h & HB & G). cbn in HB. destruct e2; try contradiction. subst. exists es, m, h; auto.
      * left. rewrite <- app_assoc in G. eexists _, _; eauto.
      * right; right. rewrite <- app_assoc in G. eexists _, _; eauto.
    + intros [(p & k & v & Hh & G)|[[]|(p & k & v & Hh & G)]]; exists (p ++ [ALoop n]), k, v; (split; [constructor; auto; fail|]) || (split; [apply has_for_body; auto|]);
        intros g Hg; apply in_app_or in Hg; destruct Hg as [Hg|[[=]|[]]]; exact (G g Hg).
    + intros (p & k & v & Hh & G). inversion Hh; subst.
      * left. eexists _, _, _; split; [eauto|]. intros g Hg. apply (G g). apply in_or_app; auto.
      * right; right. eexists _, _, _; split; [eauto|]. intros g Hg. apply (G g). apply in_or_app; auto.
  - apply Quiet; auto; try discriminate; intros p0 x0 Hh0; inversion Hh0; auto.
  - (* Break *)
    intros s B Hf Hp. cbn [lint]. destruct (loop s) as [l|] eqn:E.
    + apply (adds_iff B (fun _ => False) False).
      * destruct Hf as (Hl & Hf). split; [split; [cbn; rewrite E in Hl; exact Hl|exact Hf]|]. split; [exact Hp|]. split; [intro; cbn; tauto|]. split; [reflexivity|]. unfold ret; cbn; tauto.
      * intro d. split; [tauto|]. intros (p & x & Hh & G). inversion Hh; subst. cbn in G. destruct G as (G & _). destruct Hf as (Hl & _). rewrite E in Hl. destruct B as [|[|] B]; cbn in *; congruence || tauto.
      * split; [tauto|]. intros (p & k & v & Hh & _). inversion Hh.
    + destruct (bad_branch_ok B n s Hf Hp E) as (HN & A). eapply adds_iff; [exact A| |].
      * intro d. split; [intros ->; apply exp_self; split; auto|]. intros (p & x & Hh & G). inversion Hh; subst. apply G.
      * split; [tauto|]. intros (p & k & v & Hh & _). inversion Hh.
  - (* Continue *)
    intros s B Hf Hp. cbn [lint]. destruct (loop s) as [l|] eqn:E.
    + apply (adds_iff B (fun _ => False) False).
      * destruct Hf as (Hl & Hf). split; [split; [cbn; rewrite E in Hl; exact Hl|exact Hf]|]. split; [exact Hp|]. split; [intro; cbn; tauto|]. split; [reflexivity|]. unfold ret; cbn; tauto.
      * intro d. split; [tauto|]. intros (p & x & Hh & G). inversion Hh; subst. cbn in G. destruct G as (G & _). destruct Hf as (Hl & _). rewrite E in Hl. destruct B as [|[|] B]; cbn in *; congruence || tauto.
      * split; [tauto|]. intros (p & k & v & Hh & _). inversion Hh.
    + destruct (bad_branch_ok B n s Hf Hp E) as (HN & A). eapply adds_iff; [exact A| |].
      * intro d. split; [intros ->; apply exp_self; split; auto|]. intros (p & x & Hh & G). inversion Hh; subst. apply G.
      * split; [tauto|]. intros (p & k & v & Hh & _). inversion Hh.
  - (* Return *)
    intros s B Hf Hp. cbn [lint]. destruct (func s) as [f|] eqn:E.
    + destruct Hf as (Hl & Hf). rewrite E in Hf. split; [split; [exact Hl|exact Hf]|]. split; [exact Hp|]. split; [|split].
      * intro d; cbn. split; [auto|]. intros [?|(p & x & Hh & G)]; auto. inversion Hh; subst. destruct G as (G & _). exfalso.
        destruct Hf as (pre & post & HB & _). rewrite HB in G; apply (G (fn_span f)). cbn; apply in_or_app; right; left; auto.
      * cbn. rewrite E. split; discriminate.
      * intros _. unfold ret; cbn. split; [|auto]. intros _. right. exists [], n, o. split; [constructor|intros g []].
    + destruct (warn_ok B (NoFunc n) s Hf Hp) as (W1 & W2 & W3 & W4 & W5). split; [exact W1|]. split; [exact W2|]. split; [|split; [exact W4|intro; congruence]].
      intro d. rewrite W3. split; (intros [?|G]; [left; auto|right]).
      * subst. apply exp_self; split; auto. destruct Hf as (_ & Hf); rewrite E in Hf; exact Hf.
      * destruct G as (p & x & Hh & G). inversion Hh; subst. apply G.
Qed.
