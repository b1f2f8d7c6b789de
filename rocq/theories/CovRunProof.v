(** The program with the calls that count runs as the program does. *)
From Coq Require Import String Ascii List Arith Bool Lia.
From Verif Require Import CovModel CovSpec CovProof.
Import ListNotations.
Local Open Scope nat_scope.
Local Open Scope list_scope.

Section sim.
Context (L : lang) (M : list (nat * mkind)) (strict : Prop).

Definition sub (i : nat) (m : list (nat * mkind)) : Prop :=
  forall k x, nth_error m k = Some x -> nth_error M (i + k) = Some x.

Lemma sub_app : forall i m m', sub i (m ++ m') -> sub i m /\ sub (i + length m) m'.
Proof.
  intros i m m' H. split; intros k x Hk.
  - apply H. rewrite nth_error_app1; [exact Hk|]. apply nth_error_Some. congruence.
  - rewrite <- Nat.add_assoc. apply H. rewrite nth_error_app2 by lia. rewrite <- Hk. f_equal. lia.
Qed.

Lemma sub_cons : forall i x m, sub i (x :: m) -> nth_error M i = Some x /\ sub (S i) m.
Proof.
  intros i x m H. split.
  - specialize (H 0 x eq_refl). rewrite Nat.add_0_r in H. exact H.
  - intros k y Hk. specialize (H (S k) y Hk). rewrite <- H. f_equal. lia.
Qed.

Definition some {A} (o : option A) : bool := match o with Some _ => true | None => false end.

Definition fineB (md : option (nat * nat)) (b : expr) : Prop :=
  no_pc b /\ match md with Some _ => reportable true b | None => is_block b /\ reportable false b end.

Inductive vrel : value -> value -> Prop :=
| vr_none : vrel VNone VNone
| vr_base t : vrel (VBase t) (VBase t)
| vr_clo x o c b env env' md i b' m :
    md = Some (o, c) \/ md = None -> T md b i = (b', m) -> sub i m -> (strict -> fineB md b) -> tidy b ->
    Forall2 (fun p q => fst p = fst q /\ vrel (snd p) (snd q)) env env' ->
    vrel (VClo x o c b env) (VClo x 0 0 b' env').

Definition erel (env env' : list (list nat * value)) : Prop :=
  Forall2 (fun p q => fst p = fst q /\ vrel (snd p) (snd q)) env env'.

Definition frel (f f' : flow) : Prop :=
  match f, f' with
  | Go, Go | Brk, Brk | Cont, Cont | Ret None, Ret None => True
  | Ret (Some v), Ret (Some v') => vrel v v'
  | _, _ => False
  end.

Definition trel (t t' : list event) : Prop := strict -> map (nth_error M) (pcs t') = map Some (report t).

Definition rrel (w : bool) (r r' : res) : Prop :=
  match r, r' with
  | Fuel, Fuel | Err, Err => True
  | Ok v env fl, Ok v' env' fl' => vrel v v' /\ (w = true -> erel env env') /\ frel fl fl'
  | _, _ => False
  end.

Definition orel (w : bool) (o o' : out) : Prop := trel (fst o) (fst o') /\ rrel w (snd o) (snd o').

Lemma trel_nil : trel [] [].
Proof. intro. reflexivity. Qed.

Lemma report_app : forall a b, report (a ++ b) = report a ++ report b.
Proof. intros. unfold report. apply flat_map_app. Qed.
Lemma pcs_app : forall a b, pcs (a ++ b) = pcs a ++ pcs b.
Proof. intros. unfold pcs. apply flat_map_app. Qed.

Lemma trel_app : forall a a' b b', trel a a' -> trel b b' -> trel (a ++ b) (a' ++ b').
Proof. intros a a' b b' H1 H2 Hs. rewrite report_app, pcs_app, !map_app, H1, H2; auto. Qed.

Lemma orel_err : forall w, orel w ([], Err) ([], Err).
Proof. intro w. split; [apply trel_nil|exact I]. Qed.
Lemma orel_ok : forall w v v' env env' fl fl',
  vrel v v' -> (w = true -> erel env env') -> frel fl fl' -> orel w ([], Ok v env fl) ([], Ok v' env' fl').
Proof. intros. split; [apply trel_nil|]. cbn. auto. Qed.

Lemma orel_weak : forall w o o', orel w o o' -> orel false o o'.
Proof.
  intros w [t r] [t' r'] [H1 H2]. split; [exact H1|]. cbn [snd] in *.
  destruct r, r'; cbn in *; try tauto. intuition discriminate.
Qed.

Lemma orel_true : forall w o o', orel true o o' -> orel w o o'.
Proof. intros [|] o o' H; [exact H|eapply orel_weak; exact H]. Qed.

Lemma bind_rel : forall w r r' k k',
  orel true r r' ->
  (forall v v' env env' fl fl', vrel v v' -> erel env env' -> frel fl fl' -> orel w (k v env fl) (k' v' env' fl')) ->
  orel w (bind r k) (bind r' k').
Proof.
  intros w [t x] [t' x'] k k' [Ht Hr] Hk. cbn [fst snd] in *. unfold bind.
  destruct x as [| |v env fl], x' as [| |v' env' fl']; cbn in Hr; try tauto; try (split; assumption).
  destruct Hr as (Hv & He & Hf). specialize (Hk v v' env env' fl fl' Hv (He eq_refl) Hf).
  destruct (k v env fl) as [t1 x1], (k' v' env' fl') as [t2 x2]. destruct Hk as [Hk1 Hk2].
  split; [apply trel_app; assumption|exact Hk2].
Qed.

Lemma erel_length : forall env env', erel env env' -> length env = length env'.
Proof. intros env env' H. induction H; cbn; congruence. Qed.

Lemma erel_skip : forall k env env', erel env env' -> erel (skipn k env) (skipn k env').
Proof.
  induction k; intros env env' H; [exact H|]. destruct H; cbn [skipn]; [constructor|]. apply IHk. exact H0.
Qed.

Lemma leave_rel : forall env env' a a', erel env env' -> erel a a' -> erel (leave env a) (leave env' a').
Proof.
  intros env env' a a' H1 H2. unfold leave. rewrite (erel_length _ _ H1), (erel_length _ _ H2). apply erel_skip, H2.
Qed.

Lemma find_rel : forall x env env', erel env env' ->
  match find_var x env, find_var x env' with
  | Some v, Some v' => vrel v v' | None, None => True | _, _ => False end.
Proof.
  intros x env env' H. induction H as [|[y v] [y' v'] env env' [H1 H2] H IH]; cbn; [exact I|].
  cbn in H1, H2. subst y'. destruct (eqt x y); assumption.
Qed.

Lemma set_rel : forall x v v' env env', vrel v v' -> erel env env' ->
  match set_var x v env, set_var x v' env' with
  | Some a, Some a' => erel a a' | None, None => True | _, _ => False end.
Proof.
  intros x v v' env env' Hv H. induction H as [|[y w] [y' w'] env env' [H1 H2] H IH]; cbn; [exact I|].
  cbn in H1, H2. subst y'. destruct (eqt x y).
  - constructor; [split; auto|exact H].
  - destruct (set_var x v env), (set_var x v' env'); cbn; try contradiction; [|exact I].
    constructor; [split; auto|exact IH].
Qed.

Lemma join_rel : forall a a' b b', vrel a a' -> vrel b b' ->
  match join L a b, join L a' b' with
  | Some v, Some v' => vrel v v' | None, None => True | _, _ => False end.
Proof.
  intros a a' b b' H1 H2. inversion H1; subst; inversion H2; subst; cbn; auto; try (econstructor; eauto).
  destruct (joins L t t0); cbn; [constructor|exact I].
Qed.

Lemma keep_rel : forall a a' b b', frel a a' -> frel b b' -> frel (keep a b) (keep a' b').
Proof. intros a a' b b' H1 H2. destruct a as [| | |[?|]], a' as [| | |[?|]]; cbn in *; tauto. Qed.
Lemma set_flow_rel : forall a a' b b', frel a a' -> frel b b' -> frel (set_flow a b) (set_flow a' b').
Proof. intros a a' b b' H1 H2. destruct a as [| | |[?|]], a' as [| | |[?|]]; cbn in *; tauto. Qed.

Lemma true_rel : forall v v', vrel v v' -> is_true L v = is_true L v'.
Proof. intros v v' H. inversion H; reflexivity. Qed.

Lemma scoped_rel : forall env env' fl fl' r r', erel env env' -> frel fl fl' -> orel true r r' ->
  orel true (scoped env fl r) (scoped env' fl' r').
Proof.
  intros. unfold scoped. eapply bind_rel; [eassumption|]. intros. apply orel_ok; auto using leave_rel, keep_rel.
Qed.

Section level.
Context (call call' : nat -> nat -> expr -> list (list nat * value) -> out) (n : nat).
Context (Hcall : forall md o c b i b' m env env',
  md = Some (o, c) \/ md = None -> T md b i = (b', m) -> sub i m -> (strict -> fineB md b) -> tidy b ->
  erel env env' -> orel false (call o c b env) (call' 0 0 b' env')).

Notation E := (ev L call n).
Notation E' := (ev L call' n).

Definition evx (e : expr) (env : list (list nat * value)) (fl : flow) : out :=
  match e with EBlock _ _ es => scoped env fl (stmts L E es VNone env) | _ => E e env fl end.

Definition innerP (e : expr) : Prop :=
  forall md i e' m env env' fl fl', innerT T md e i = (e', m) -> sub i m ->
    (strict -> no_pc e /\ reportable (some md) e) -> tidy e -> erel env env' -> frel fl fl' ->
    orel true (evx e env fl) (E' e' env' fl').

Lemma wrap_rel : forall w o c i j e1 env env' fl fl' r,
  orel true r (E' e1 env' Go) -> nth_error M i = Some (o, OpenBrace) -> nth_error M j = Some (c, CloseBrace) ->
  (w = true -> match snd r with Ok _ env1 _ => length env1 = length env | _ => True end) ->
  erel env env' -> frel fl fl' ->
  orel w (reported o c fl r) (E' (EBlock 0 0 [EPc i; e1; EPc j]) env' fl').
Proof.
  intros w o c i j e1 env env' fl fl' [t x] [Ht Hr] Hi Hj Hw He Hf. cbn [ev stmts].
  cbn [bind app join]. destruct (E' e1 env' Go) as [t' x']. cbn [fst snd] in *. unfold reported, bind.
  assert (Htr : trel (EvOpen o :: t) (EvOpen 0 :: EvPc i :: t')).
  { intro Hs. cbn. fold (pcs t'). fold (report t). rewrite Hi, (Ht Hs). reflexivity. }
  destruct x as [| |v env1 fl1], x' as [| |v' env1' fl1']; cbn in Hr; try tauto.
  - unfold framed. split; [exact Htr|exact I].
  - unfold framed. split; [exact Htr|exact I].
  - destruct Hr as (Hv & He1 & Hf1). specialize (He1 eq_refl).
    assert (Hj1 : join L v' VNone = Some v') by (destruct v'; reflexivity).
    assert (Hlv : w = true -> erel env1 (leave env' env1')).
    { intro Hw1. specialize (Hw Hw1). unfold leave. rewrite <- (erel_length _ _ He), <- (erel_length _ _ He1), Hw.
      rewrite Nat.sub_diag. exact He1. }
    destruct fl1 as [| | |[fv|]], fl1' as [| | |[fv'|]]; cbn in Hf1; try tauto; cbn [app]; unfold framed;
      try (split; [intro Hs; cbn; rewrite ?app_nil_r; cbn; apply (Htr Hs)|
                   cbn [snd rrel]; split; [exact Hv|split; [exact Hlv|apply keep_rel; [exact Hf|exact Hf1]]]]).
    rewrite Hj1. split.
    + intro Hs. cbn [fst app].
      change (map (nth_error M) (pcs ((EvOpen 0 :: EvPc i :: t' ++ [EvPc j]) ++ [EvClose 0])) = map Some (report ((EvOpen o :: t) ++ [EvClose c]))).
      rewrite report_app, pcs_app. change (pcs [EvClose 0]) with (@nil nat). rewrite app_nil_r.
      change (EvOpen 0 :: EvPc i :: t' ++ [EvPc j]) with ((EvOpen 0 :: EvPc i :: t') ++ [EvPc j]).
      rewrite pcs_app, !map_app, (Htr Hs). cbn. rewrite Hj. reflexivity.
    + cbn [snd rrel]. split; [exact Hv|split; [exact Hlv|apply keep_rel; [exact Hf|exact Hf1]]].
Qed.

Lemma reported_scoped : forall o c env fl r,
  reported o c fl (scoped env Go r) = framed o c env fl r.
Proof.
  intros o c env fl [t [| |v env1 fl1]]; cbn; try reflexivity. rewrite app_nil_r. destruct fl, fl1; reflexivity.
Qed.

Lemma scoped_same : forall env fl r, grows true env r ->
  match snd (scoped env fl r) with Ok _ env1 _ => length env1 = length env | _ => True end.
Proof.
  intros env fl r H. apply (grows_scoped env fl) in H. unfold grows in H.
  destruct (snd (scoped env fl r)); auto. destruct H as [_ [H|H]]; [discriminate|exact H].
Qed.

Lemma stmts_grow : forall es env, grows true env (stmts L E es VNone env).
Proof. intros. apply grows_stmts. intros e _ env'. eapply grows_mono, grows_ev. Qed.

Lemma wrap_eq : forall o c i r e' m, wrap o c i r = (e', m) ->
  e' = EBlock 0 0 [EPc i; fst r; EPc (S i + length (snd r))] /\ m = (o, OpenBrace) :: snd r ++ [(c, CloseBrace)].
Proof. intros o c i [e1 m1] e' m H. cbn in H. injection H as <- <-. split; reflexivity. Qed.

Lemma sub_wrap : forall o c i m1, sub i ((o, OpenBrace) :: m1 ++ [(c, CloseBrace)]) ->
  nth_error M i = Some (o, OpenBrace) /\ sub (S i) m1 /\ nth_error M (S i + length m1) = Some (c, CloseBrace).
Proof.
  intros o c i m1 H. apply sub_cons in H. destruct H as [H1 H]. apply sub_app in H. destruct H as [H2 H3].
  apply sub_cons in H3. tauto.
Qed.

(** A block of code, wherever it is. *)
Lemma T_block : forall md o c es, innerP (EBlock o c es) ->
  forall i e' m env env' fl fl', T md (EBlock o c es) i = (e', m) -> sub i m ->
    (strict -> no_pc (EBlock o c es) /\ reportable false (EBlock o c es)) -> tidy (EBlock o c es) ->
    erel env env' -> frel fl fl' ->
    orel true (E (EBlock o c es) env fl) (E' e' env' fl') /\ is_block e'.
Proof.
  intros md o c es HP i e' m env env' fl fl' HT Hs Hg Ht He Hf. rewrite T_eq in HT. cbn [blocky] in HT.
  apply wrap_eq in HT. destruct HT as [-> ->]. apply sub_wrap in Hs. destruct Hs as (H1 & H2 & H3).
  split; [|exact I].
  change (E (EBlock o c es) env fl) with (framed o c env fl (stmts L E es VNone env)).
  rewrite <- reported_scoped.
  eapply wrap_rel with (env := env); try eassumption.
  - change (scoped env Go (stmts L E es VNone env)) with (evx (EBlock o c es) env Go).
    eapply HP with (md := md) (i := S i); [apply surjective_pairing|exact H2| |exact Ht|exact He|exact I].
    intro Hst. specialize (Hg Hst). exact Hg.
  - intros _. apply scoped_same, stmts_grow.
Qed.

(** An expression that is not a body. *)
Lemma T_none : forall e, innerP e ->
  forall i e' m env env' fl fl', T None e i = (e', m) -> sub i m ->
    (strict -> no_pc e /\ reportable false e) -> tidy e -> erel env env' -> frel fl fl' ->
    orel true (E e env fl) (E' e' env' fl').
Proof.
  intros e HP i e' m env env' fl fl' HT Hs Hg Ht He Hf.
  destruct (blocky None e) as [[o c]|] eqn:Eb.
  - destruct e; try discriminate. eapply T_block; eassumption.
  - rewrite T_eq, Eb in HT.
    assert (Hx : E e env fl = evx e env fl) by (destruct e; try reflexivity; discriminate).
    rewrite Hx. eapply HP; eassumption.
Qed.

Lemma body_nb : forall f o c b env fl, ~ is_block b -> body f o c b env fl = reported o c fl (f b env Go).
Proof. intros f o c b env fl H. destruct b; try reflexivity. exfalso. apply H. exact I. Qed.
Lemma body_b : forall f o c b env fl, is_block b -> body f o c b env fl = f b env fl.
Proof. intros f o c b env fl H. destruct b; try contradiction. reflexivity. Qed.

Lemma T_is_block : forall e i, ~ is_block e -> ~ is_block (fst (T None e i)).
Proof.
  intros e i H. rewrite T_eq. destruct (blocky None e) as [[o c]|] eqn:Eb; [destruct e; try discriminate; exfalso; apply H; exact I|].
  destruct e; cbn [innerT]; try (exfalso; apply H; exact I);
    repeat match goal with |- context [T ?a ?b ?k] => destruct (T a b k) end;
    repeat match goal with |- context [seqT ?a ?b ?k] => destruct (seqT a b k) end; cbn; tauto.
Qed.

Lemma T_body : forall e, innerP e ->
  forall md o c i e' m env env' fl fl', md = Some (o, c) \/ md = None -> T md e i = (e', m) -> sub i m ->
    (strict -> fineB md e) -> tidy e -> erel env env' -> frel fl fl' ->
    orel (negb (binds e)) (body E o c e env fl) (body E' 0 0 e' env' fl').
Proof.
  intros e HP md o c i e' m env env' fl fl' Hmd HT Hs Hg Ht He Hf.
  assert (Hd : is_block e \/ ~ is_block e) by (destruct e; cbn; tauto).
  destruct Hd as [Hb|Hb].
  - destruct e as [| | | | | | | | | |o1 c1 es| | | | | | |]; try contradiction. rewrite (body_b _ _ _ _ _ _ Hb).
    destruct (T_block md o1 c1 es HP i e' m env env' fl fl') as [Ho Hi]; try assumption.
    { intro Hst. destruct (Hg Hst) as [Hn Hr]. split; [exact Hn|]. destruct md; [exact Hr|exact (proj2 Hr)]. }
    rewrite (body_b _ _ _ _ _ _ Hi). exact Ho.
  - rewrite (body_nb _ _ _ _ _ _ Hb).
    assert (Hx : forall fl, E e env fl = evx e env fl).
    { intro. destruct e; try reflexivity. exfalso. apply Hb. exact I. }
    destruct Hmd as [->| ->].
    + rewrite T_eq in HT. replace (blocky (Some (o, c)) e) with (Some (o, c)) in HT by (destruct e; try reflexivity; exfalso; apply Hb; exact I).
      apply wrap_eq in HT. destruct HT as [-> ->]. apply sub_wrap in Hs. destruct Hs as (H1 & H2 & H3).
      rewrite body_b by exact I.
      eapply wrap_rel with (env := env); try eassumption.
      * rewrite Hx. eapply HP with (md := Some (o, c)) (i := S i); [apply surjective_pairing|exact H2|exact Hg|exact Ht|exact He|exact I].
      * intro Hn. pose proof (grows_ev L call n e env Go) as Hgr. unfold grows in Hgr.
        destruct (snd (E e env Go)); auto. destruct (binds e); [discriminate|]. destruct Hgr as [_ [Hgr|Hgr]]; [discriminate|exact Hgr].
    + pose proof (T_is_block e i Hb) as Hb'. rewrite HT in Hb'. cbn [fst] in Hb'.
      rewrite (body_nb _ _ _ _ _ _ Hb').
      assert (Hns : ~ strict). { intro Hst. destruct (Hg Hst) as [_ [Hib _]]. apply Hb, Hib. }
      assert (Hr : orel true (E e env Go) (E' e' env' Go)).
      { eapply T_none; try eassumption; [|exact I]. intro; contradiction. }
      apply orel_true. destruct (E e env Go) as [t x], (E' e' env' Go) as [t' x']. destruct Hr as [_ Hr]. cbn [snd] in Hr.
      unfold reported. destruct x as [| |v env1 fl1], x' as [| |v' env1' fl1']; cbn in Hr; try tauto;
        (split; [intro; contradiction|]); cbn; auto.
      destruct Hr as (Hr1 & Hr2 & Hr3). repeat split; auto using keep_rel.
Qed.

Lemma stmts_rel : forall es, Forall innerP es ->
  forall i es' m acc acc' env env', seqT (T None) es i = (es', m) -> sub i m ->
    (strict -> Forall (fun e => no_pc e /\ reportable false e) es) -> Forall tidy es -> erel env env' -> vrel acc acc' ->
    orel true (stmts L E es acc env) (stmts L E' es' acc' env').
Proof.
  induction es as [|e es IH]; intros HP i es' m acc acc' env env' HT Hs Hg Ht He Ha; cbn [seqT] in HT.
  - injection HT as <- <-. cbn. apply orel_ok; cbn; auto.
  - destruct (T None e i) as [e1 m1] eqn:E1. fold (seqT (T None)) in HT.
    destruct (seqT (T None) es (i + length m1)) as [es1 m2] eqn:E2. injection HT as <- <-.
    apply sub_app in Hs. destruct Hs as [Hs1 Hs2]. inversion HP; subst. inversion Ht; subst.
    cbn [stmts]. fold (stmts L E). fold (stmts L E').
    eapply bind_rel.
    + eapply T_none; try eassumption; [|exact I]. intro Hst. specialize (Hg Hst). inversion Hg; assumption.
    + intros v v' env1 env1' fl fl' Hv He1 Hf. pose proof (join_rel _ _ _ _ Ha Hv) as Hj.
      destruct (join L acc v) as [a|], (join L acc' v') as [a'|]; try contradiction; [|apply orel_err].
      destruct fl as [| | |[?|]], fl' as [| | |[?|]]; cbn in Hf; try contradiction; try (apply orel_ok; cbn; auto).
      eapply IH; try eassumption. intro Hst. specialize (Hg Hst). inversion Hg; assumption.
Qed.

Lemma whiles_rel : forall q q' b b',
  (forall env env' fl fl', erel env env' -> frel fl fl' -> orel true (q env fl) (q' env' fl')) ->
  (forall env env' fl fl', erel env env' -> frel fl fl' -> orel true (b env fl) (b' env' fl')) ->
  forall k acc acc' env env', vrel acc acc' -> erel env env' ->
  orel true (whiles L q b k acc env) (whiles L q' b' k acc' env').
Proof.
  intros q q' b b' Hq Hb. induction k; intros acc acc' env env' Ha He; cbn [whiles].
  - split; [apply trel_nil|exact I].
  - eapply bind_rel; [apply Hq; [exact He|exact I]|]. intros v v' env1 env1' fl1 fl1' Hv He1 Hf1.
    rewrite <- (true_rel _ _ Hv). destruct (is_true L v) as [[|]|]; [| |apply orel_err].
    + eapply bind_rel; [apply Hb; assumption|]. intros w w' env2 env2' fl2 fl2' Hw He2 Hf2.
      pose proof (join_rel _ _ _ _ Ha Hw) as Hj.
      destruct (join L acc w) as [a|], (join L acc' w') as [a'|]; try contradiction; [|apply orel_err].
      destruct fl2 as [| | |[?|]], fl2' as [| | |[?|]]; cbn in Hf2; try contradiction;
        try (apply IHk; assumption); apply orel_ok; cbn; auto.
    + apply orel_ok; auto.
Qed.

Lemma fors_rel : forall x b b',
  (forall env env' fl fl', erel env env' -> frel fl fl' -> orel true (b env fl) (b' env' fl')) ->
  forall l acc acc' env env' fl fl', vrel acc acc' -> erel env env' -> frel fl fl' ->
  orel true (fors L x b l acc env fl) (fors L x b' l acc' env' fl').
Proof.
  intros x b b' Hb. induction l as [|t l IH]; intros acc acc' env env' fl fl' Ha He Hf; cbn [fors].
  - apply orel_ok; auto.
  - eapply bind_rel; [apply Hb; [|exact Hf]|].
    { constructor; [split; [reflexivity|constructor]|exact He]. }
    intros w w' env2 env2' fl2 fl2' Hw He2 Hf2. pose proof (join_rel _ _ _ _ Ha Hw) as Hj.
    destruct (join L acc w) as [a|], (join L acc' w') as [a'|]; try contradiction; [|apply orel_err].
    pose proof (leave_rel _ _ _ _ He He2) as Hl.
    destruct fl2 as [| | |[?|]], fl2' as [| | |[?|]]; cbn in Hf2; try contradiction;
      try (apply IH; solve [assumption|exact I]); apply orel_ok; cbn; auto.
Qed.

Lemma apply_rel : forall v v' w w' env env' fl fl', vrel v v' -> vrel w w' -> erel env env' -> frel fl fl' ->
  orel true (apply call v w env fl) (apply call' v' w' env' fl').
Proof.
  intros v v' w w' env env' fl fl' Hv Hw He Hf. inversion Hv; subst; cbn [apply]; try apply orel_err.
  assert (Hc : orel false (call o c b ((x, w) :: env0)) (call' 0 0 b' ((x, w') :: env'0))).
  { eapply Hcall; try eassumption. constructor; [split; [reflexivity|exact Hw]|assumption]. }
  destruct (call o c b ((x, w) :: env0)) as [t r], (call' 0 0 b' ((x, w') :: env'0)) as [t' r'].
  destruct Hc as [Ht Hr]. cbn [fst snd] in *.
  destruct r as [| |v1 e1 f1], r' as [| |v1' e1' f1']; cbn in Hr; try contradiction;
    try (split; [exact Ht|exact I]).
  destruct Hr as (Hr1 & _ & Hr2).
  destruct f1 as [| | |[?|]], f1' as [| | |[?|]]; cbn in Hr2; try contradiction;
    (split; [exact Ht|]); cbn; auto.
Qed.

Lemma fine_bodies : forall (md : option (nat * nat)) o c b, no_pc b ->
  (if some md then is_block b /\ reportable false b else reportable true b) ->
  fineB (match md with None => Some (o, c) | Some _ => None end) b.
Proof. intros [?|] o c b Hn H; split; assumption. Qed.

Lemma bm_cases : forall (md : option (nat * nat)) o c,
  (match md with None => Some (o, c) | Some _ => None end) = Some (o, c) \/
  (match md with None => Some (o, c) | Some _ => None end) = @None (nat * nat).
Proof. intros [?|] o c; auto. Qed.

Lemma inner_all : forall e, innerP e.
Proof.
  induction e using expr_ind2; intros md i e' m env env' fl fl' HT Hs Hg Ht He Hf; cbn [innerT] in HT; cbn [evx ev].
  - injection HT as <- <-. cbn [ev]. pose proof (find_rel t _ _ He) as Hfv.
    destruct (find_var t env), (find_var t env'); try contradiction; [apply orel_ok; auto|].
    destruct (lit L t); [apply orel_ok; auto; constructor|apply orel_err].
  - injection HT as <- <-. apply orel_ok; auto; constructor.
  - destruct (T None e i) as [a' m1] eqn:E1. injection HT as <- <-. cbn [ev].
    eapply bind_rel; [eapply T_none; try eassumption|]. intros. apply orel_ok; auto; [constructor|].
    intros _. constructor; [split; [reflexivity|assumption]|assumption].
  - destruct (T None e i) as [a' m1] eqn:E1. injection HT as <- <-. cbn [ev].
    eapply bind_rel; [eapply T_none; try eassumption|]. intros v v' env1 env1' fl1 fl1' Hv He1 Hf1.
    pose proof (set_rel x _ _ _ _ Hv He1) as Hsr.
    destruct (set_var x v env1), (set_var x v' env1'); try contradiction; [|apply orel_err].
    apply orel_ok; auto; constructor.
  - destruct (T None e1 i) as [a' m1] eqn:E1. destruct (T None e2 (i + length m1)) as [b' m2] eqn:E2.
    injection HT as <- <-. apply sub_app in Hs. destruct Hs as [Hs1 Hs2]. cbn [tidy] in Ht. destruct Ht as [Ht1 Ht2]. cbn [ev].
    eapply bind_rel; [eapply T_none; try eassumption|].
    { intro Hst. specialize (Hg Hst). cbn in Hg. tauto. }
    intros v v' env1 env1' fl1 fl1' Hv He1 Hf1.
    eapply bind_rel; [eapply T_none; try eassumption|].
    { intro Hst. specialize (Hg Hst). cbn in Hg. tauto. }
    intros w w' env2 env2' fl2 fl2' Hw He2 Hf2.
    inversion Hv; subst; try apply orel_err; inversion Hw; subst; try apply orel_err.
    destruct (prim L o t t0); [apply orel_ok; auto; constructor|apply orel_err].
  - destruct (T None e1 i) as [a' m1] eqn:E1. destruct (T None e2 (i + length m1)) as [b' m2] eqn:E2.
    injection HT as <- <-. apply sub_app in Hs. destruct Hs as [Hs1 Hs2]. cbn [tidy] in Ht. destruct Ht as [Ht1 Ht2]. cbn [ev].
    eapply bind_rel; [eapply T_none; try eassumption|].
    { intro Hst. specialize (Hg Hst). cbn in Hg. tauto. }
    intros v v' env1 env1' fl1 fl1' Hv He1 Hf1.
    eapply bind_rel; [eapply T_none; try eassumption|].
    { intro Hst. specialize (Hg Hst). cbn in Hg. tauto. }
    intros w w' env2 env2' fl2 fl2' Hw He2 Hf2. apply apply_rel; assumption.
  - injection HT as <- <-. apply orel_ok; auto; [constructor|]. apply set_flow_rel; [exact Hf|exact I].
  - destruct (T None e i) as [a' m1] eqn:E1. injection HT as <- <-. cbn [ev].
    eapply bind_rel; [eapply T_none; try eassumption|]. intros. apply orel_ok; auto; [constructor|].
    apply set_flow_rel; assumption.
  - injection HT as <- <-. apply orel_ok; auto; [constructor|]. apply set_flow_rel; [exact Hf|exact I].
  - injection HT as <- <-. apply orel_ok; auto; [constructor|]. apply set_flow_rel; [exact Hf|exact I].
  - destruct (seqT (T None) es i) as [es' m1] eqn:E1. injection HT as <- <-. cbn [ev].
    assert (Hr : orel true (stmts L E es VNone env) (stmts L E' es' VNone env')).
    { eapply stmts_rel; try eassumption; [| |constructor].
      - intro Hst. specialize (Hg Hst). cbn in Hg. destruct Hg as [Hg1 Hg2].
        apply go_all in Hg1. apply go_all in Hg2. rewrite Forall_forall in *. auto.
      - cbn in Ht. apply go_all in Ht. exact Ht. }
    pose proof (scoped_rel _ _ _ _ _ _ He Hf Hr) as [Hr1 Hr2].
    destruct (stmts L E' es' VNone env') as [t' x']. destruct (scoped env fl (stmts L E es VNone env)) as [t x].
    cbn [fst snd] in *. unfold scoped, bind, framed in *. split.
    + intro Hst. specialize (Hr1 Hst). destruct x'; cbn [fst snd] in *; rewrite <- Hr1; cbn; try reflexivity.
      rewrite flat_map_app. destruct fl0; cbn; rewrite ?app_nil_r; reflexivity.
    + destruct x'; exact Hr2.
  - destruct (seqT (T None) es i) as [es' m1] eqn:E1. injection HT as <- <-. cbn [ev].
    apply scoped_rel; [exact He|exact Hf|].
    eapply stmts_rel; try eassumption; [| |constructor].
    + intro Hst. specialize (Hg Hst). cbn in Hg. destruct Hg as [Hg1 Hg2].
      apply go_all in Hg1. apply go_all in Hg2. rewrite Forall_forall in *. auto.
    + cbn in Ht. apply go_all in Ht. exact Ht.
  - destruct (T None e1 i) as [a' m1] eqn:E1.
    destruct (T match md with Some _ => None | None => Some (o, c) end e2 (i + length m1)) as [b' m2] eqn:E2.
    injection HT as <- <-. apply sub_app in Hs. destruct Hs as [Hs1 Hs2]. cbn [tidy] in Ht. destruct Ht as (Ht1 & Ht2 & Hb). cbn [ev].
    eapply bind_rel; [eapply T_none; try eassumption|].
    { intro Hst. specialize (Hg Hst). cbn in Hg. tauto. }
    intros v v' env1 env1' fl1 fl1' Hv He1 Hf1. rewrite <- (true_rel _ _ Hv).
    destruct (is_true L v) as [[|]|]; [|apply orel_ok; auto; constructor|apply orel_err].
    replace true with (negb (binds e2)) by (rewrite Hb; reflexivity).
    eapply T_body; try eassumption; [apply bm_cases|].
    intro Hst. specialize (Hg Hst). cbn in Hg. apply fine_bodies; destruct md; cbn in *; tauto.
  - destruct (T None e1 i) as [a' m1] eqn:E1.
    destruct (T match md with Some _ => None | None => Some (o, c) end e2 (i + length m1)) as [b' m2] eqn:E2.
    destruct (T match md with Some _ => None | None => Some (o', c') end e3 (i + length m1 + length m2)) as [c3 m3] eqn:E3.
    injection HT as <- <-. apply sub_app in Hs. destruct Hs as [Hs1 Hs2]. apply sub_app in Hs2. destruct Hs2 as [Hs2 Hs3].
    cbn [tidy] in Ht. destruct Ht as (Ht1 & (Ht2 & Hb2) & Ht3 & Hb3). cbn [ev].
    eapply bind_rel; [eapply T_none; try eassumption|].
    { intro Hst. specialize (Hg Hst). cbn in Hg. tauto. }
    intros v v' env1 env1' fl1 fl1' Hv He1 Hf1. rewrite <- (true_rel _ _ Hv).
    destruct (is_true L v) as [[|]|]; [| |apply orel_err].
    + replace true with (negb (binds e2)) by (rewrite Hb2; reflexivity).
      eapply T_body; try eassumption; [apply bm_cases|].
      intro Hst. specialize (Hg Hst). cbn in Hg. apply fine_bodies; destruct md; cbn in *; tauto.
    + replace true with (negb (binds e3)) by (rewrite Hb3; reflexivity).
      eapply T_body; try eassumption; [apply bm_cases|].
      intro Hst. specialize (Hg Hst). cbn in Hg. apply fine_bodies; destruct md; cbn in *; tauto.
  - destruct (T None e1 i) as [a' m1] eqn:E1.
    destruct (T match md with Some _ => None | None => Some (o, c) end e2 (i + length m1)) as [b' m2] eqn:E2.
    injection HT as <- <-. apply sub_app in Hs. destruct Hs as [Hs1 Hs2]. cbn [tidy] in Ht. destruct Ht as (Ht1 & Ht2 & Hb). cbn [ev].
    eapply bind_rel.
    + apply whiles_rel; [| |constructor|exact He].
      * intros. eapply T_none; try eassumption. intro Hst. specialize (Hg Hst). cbn in Hg. tauto.
      * intros. replace true with (negb (binds e2)) by (rewrite Hb; reflexivity).
        eapply T_body; try eassumption; [apply bm_cases|].
        intro Hst. specialize (Hg Hst). cbn in Hg. apply fine_bodies; destruct md; cbn in *; tauto.
    + intros. apply orel_ok; auto using keep_rel.
  - destruct (T None e1 i) as [a' m1] eqn:E1.
    destruct (T match md with Some _ => None | None => Some (o, c) end e2 (i + length m1)) as [b' m2] eqn:E2.
    injection HT as <- <-. apply sub_app in Hs. destruct Hs as [Hs1 Hs2]. cbn [tidy] in Ht. destruct Ht as (Ht1 & Ht2 & Hb). cbn [ev].
    apply scoped_rel; [exact He|exact Hf|].
    eapply bind_rel; [eapply T_none; try eassumption|].
    { intro Hst. specialize (Hg Hst). cbn in Hg. tauto. } { exact I. }
    intros v v' env1 env1' fl1 fl1' Hv He1 Hf1. inversion Hv; subst; try apply orel_err.
    destruct (items L t); [|apply orel_err].
    apply fors_rel; [|constructor|assumption|assumption].
    intros. replace true with (negb (binds e2)) by (rewrite Hb; reflexivity).
    eapply T_body; try eassumption; [apply bm_cases|].
    intro Hst. specialize (Hg Hst). cbn in Hg. apply fine_bodies; destruct md; cbn in *; tauto.
  - destruct (T match md with Some _ => None | None => Some (o, c) end e i) as [b' m2] eqn:E2.
    injection HT as <- <-. cbn [ev]. apply orel_ok; auto.
    eapply vr_clo; try eassumption; [apply bm_cases|].
    intro Hst. specialize (Hg Hst). cbn in Hg. apply fine_bodies; destruct md; cbn in *; tauto.
  - injection HT as <- <-. cbn [ev]. split; [|cbn; auto using vr_none].
    + intro Hst. specialize (Hg Hst). cbn in Hg. tauto.
Qed.
End level.

Lemma eval_S : forall n e env fl,
  eval L n e env fl =
  ev L (fun o c b env => match n with 0 => ([], Fuel) | S n' => body (eval L n') o c b env Go end) n e env fl.
Proof. intros [|n] e env fl; reflexivity. Qed.

Lemma body_ext : forall (f g : expr -> list (list nat * value) -> flow -> out) o c b env fl,
  (forall e env fl, f e env fl = g e env fl) -> body f o c b env fl = body g o c b env fl.
Proof. intros f g o c b env fl H. destruct b; cbn [body]; rewrite H; reflexivity. Qed.

Definition callf (n : nat) : nat -> nat -> expr -> list (list nat * value) -> out :=
  fun o c b env => match n with 0 => ([], Fuel) | S n' => body (eval L n') o c b env Go end.

Lemma call_rel : forall n md o c b i b' m env env',
  md = Some (o, c) \/ md = None -> T md b i = (b', m) -> sub i m -> (strict -> fineB md b) -> tidy b ->
  erel env env' -> orel false (callf n o c b env) (callf n 0 0 b' env').
Proof.
  induction n; intros md o c b i b' m env env' Hmd HT Hs Hg Ht He; unfold callf.
  - split; [apply trel_nil|exact I].
  - rewrite (body_ext (eval L n) (ev L (callf n) n) o c) by (intros; apply eval_S).
    rewrite (body_ext (eval L n) (ev L (callf n) n) 0 0) by (intros; apply eval_S).
    eapply orel_weak. eapply T_body; try eassumption; [apply inner_all; exact IHn|exact I].
Qed.

Lemma eval_rel : forall n e i e' m env env' fl fl', T None e i = (e', m) -> sub i m ->
  (strict -> no_pc e /\ reportable false e) -> tidy e -> erel env env' -> frel fl fl' ->
  orel true (eval L n e env fl) (eval L n e' env' fl').
Proof.
  intros. rewrite !eval_S. eapply T_none; try eassumption; apply inner_all; apply call_rel.
Qed.
End sim.

Lemma vrel_looks : forall M s v v', vrel M s v v' -> looks v v'.
Proof. intros M s v v' H. inversion H; constructor. Qed.

Lemma rrel_alike : forall M s w r r', rrel M s w r r' -> alike r r'.
Proof.
  intros M s w [| |v e f] [| |v' e' f'] H; cbn in *; try tauto. destruct H as (H1 & _ & H2).
  split; [eapply vrel_looks; exact H1|]. destruct f as [| | |[?|]], f' as [| | |[?|]]; cbn in *; try tauto.
  eapply vrel_looks; exact H2.
Qed.

Lemma run_same : forall L es n es' m,
  Forall tidy es -> seqT (T None) es 0 = (es', m) ->
  alike (snd (run_program L n es)) (snd (run_program L n es')) /\
  (Forall no_pc es -> Forall (reportable false) es ->
   map (nth_error m) (pcs (fst (run_program L n es'))) = map Some (report (fst (run_program L n es)))).
Proof.
  intros L es n es' m Ht HT. unfold run_program.
  assert (HT' : T None (EContent es) 0 = (EContent es', m)).
  { rewrite T_eq. cbn [blocky innerT]. rewrite HT. reflexivity. }
  assert (Htc : tidy (EContent es)) by (cbn; apply go_all; exact Ht).
  assert (Hsub : sub m 0 m) by (intros k x Hk; exact Hk).
  split.
  - destruct (eval_rel L m False n (EContent es) 0 (EContent es') m [] [] Go Go HT' Hsub) as [_ Hr]; auto; try tauto.
    + constructor.
    + exact I.
    + eapply rrel_alike. exact Hr.
  - intros Hn Hr.
    destruct (eval_rel L m True n (EContent es) 0 (EContent es') m [] [] Go Go HT' Hsub) as [Htr _].
    + intros _. cbn. split; apply go_all; assumption.
    + exact Htc.
    + constructor.
    + exact I.
    + apply Htr. exact I.
Qed.
