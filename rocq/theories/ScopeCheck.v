(** The analysis of an expression agrees with the environments of the
    specification. *)
From Coq Require Import List Arith Bool Lia.
From Verif Require Import ScopeModel ScopeSpec ScopeProof ScopeImport.
Import ListNotations.

Section ast_induction.
  Variable P : ast -> Prop.
  Definition optP (o : option ast) : Prop := match o with Some e => P e | None => True end.
  Hypothesis HLit : P Lit.
  Hypothesis HId : forall s x, P (Id s x).
  Hypothesis HMath : forall s x, P (MathId s x).
  Hypothesis HGroup : forall es, Forall P es -> P (Group es).
  Hypothesis HKeyed : forall c k v, P k -> P v -> P (Keyed c k v).
  Hypothesis HBlk : forall es, Forall P es -> P (Blk es).
  Hypothesis HItem : forall es, Forall P es -> P (Item es).
  Hypothesis HLet : forall p i, optP i -> P (Let p i).
  Hypothesis HFun : forall s name ps body, Forall (fun qd => P (snd qd)) ps -> P body -> P (Fun s name ps body).
  Hypothesis HImport : forall s c new im, P (Import s c new im).
  Hypothesis HInclude : forall c, P (Include c).
  Hypothesis HFor : forall p it body, P it -> P body -> P (For p it body).
  Hypothesis HWhile : forall c b, P c -> P b -> P (While c b).
  Hypothesis HIf : forall c t e, P c -> P t -> optP e -> P (If c t e).
  Hypothesis HAssign : forall p v, P v -> P (Assign p v).
  Hypothesis HSet : forall t args c, P t -> Forall P args -> optP c -> P (SetR t args c).
  Hypothesis HShow : forall s t, optP s -> P t -> P (Show s t).
  Hypothesis HContext : forall b, P b -> P (Context b).
  Hypothesis HField : forall t s x, P t -> P (Field t s x).
  Fixpoint ast_ind' (e : ast) : P e :=
    let all := fix all (l : list ast) : Forall P l :=
      match l with [] => Forall_nil _ | e :: l' => Forall_cons _ (ast_ind' e) (all l') end in
    let opt (o : option ast) : optP o :=
      match o return optP o with Some e => ast_ind' e | None => I end in
    match e with
    | Lit => HLit
    | Id s x => HId s x
    | MathId s x => HMath s x
    | Group es => HGroup es (all es)
    | Keyed c k v => HKeyed c k v (ast_ind' k) (ast_ind' v)
    | Blk es => HBlk es (all es)
    | Item es => HItem es (all es)
    | Let p i => HLet p i (opt i)
    | Fun s name ps body =>
        HFun s name ps body
          ((fix go (l : list (param * ast)) : Forall (fun qd => P (snd qd)) l :=
              match l with
              | [] => Forall_nil _
              | (q, d) :: l' => Forall_cons (q, d) (ast_ind' d) (go l')
              end) ps)
          (ast_ind' body)
    | Import s c new im => HImport s c new im
    | Include c => HInclude c
    | For p it body => HFor p it body (ast_ind' it) (ast_ind' body)
    | While c b => HWhile c b (ast_ind' c) (ast_ind' b)
    | If c t e => HIf c t e (ast_ind' c) (ast_ind' t) (opt e)
    | Assign p v => HAssign p v (ast_ind' v)
    | SetR t args c => HSet t args c (ast_ind' t) (all args) (opt c)
    | Show s t => HShow s t (opt s) (ast_ind' t)
    | Context b => HContext b (ast_ind' b)
    | Field t s x => HField t s x (ast_ind' t)
    end.
End ast_induction.

Lemma silent_def d : local d = false -> silent (as_def d).
Proof.
  intros L d' L'. unfold is_ref, as_def. cbn [r_decl r_root]. rewrite orb_diag.
  destruct (decl_eq_dec d d') as [<-|]; [congruence|reflexivity].
Qed.

(** * The functions on lists *)

Definition check_all (W : world) (n : nat) := fix all (l : list ast) (w : st) : st :=
  match l with [] => w | e :: l' => all l' (check W n e w) end.
Fixpoint mentions_all (l : list ast) : list nat :=
  match l with [] => [] | e :: l' => mentions e ++ mentions_all l' end.
Fixpoint binds_all (l : list ast) : bool :=
  match l with [] => false | e :: l' => binds e || binds_all l' end.

Definition check_params (W : world) (n : nat) := fix params (l : list (param * ast)) (w : st) : st :=
  match l with
  | [] => w
  | (q, dflt) :: l' =>
      params l'
        match q with
        | QPos p => check_pattern p w
        | QNamed sq xq => declare (DVar sq xq) (check W n dflt w)
        | QRest sq xq => declare (DVar sq xq) (resolve_ident W (DRef sq xq) false w)
        | QAny sq => declare (DSpread sq) w
        end
  end.
Definition sem_defaults (W : world) := fix defaults (l : list (param * ast)) (E : env) : env * list use :=
  match l with
  | [] => (E, [])
  | (QNamed _ _, d) :: l' =>
      let '(E1, u1) := sem W d E in let '(E2, u2) := defaults l' E1 in (E2, u1 ++ u2)
  | _ :: l' => defaults l' E
  end.
Fixpoint marks_params (l : list (param * ast)) : list nat :=
  match l with [] => [] | (q, d) :: l' => qmarks q ++ marks d ++ marks_params l' end.
Fixpoint ment_params (l : list (param * ast)) : list nat :=
  match l with [] => [] | (_, d) :: l' => mentions d ++ ment_params l' end.
Fixpoint binds_params (l : list (param * ast)) : bool :=
  match l with [] => false | (_, d) :: l' => binds d || binds_params l' end.
Definition tame_params (W : world) (E : env) := fix go (l : list (param * ast)) (seen : list nat) : bool :=
  match l with
  | [] => true
  | (q, d) :: l' =>
      match q with
      | QNamed _ _ => negb (binds d) && tame W d E && apart (mentions d) seen
      | _ => match d with Lit => true | _ => false end
      end
      && go l' (map snd (qvars q) ++ seen)
  end.
Definition vars (ps : list (param * ast)) : list (nat * nat) :=
  fold_left (fun acc '(q, _) => qvars q ++ acc) ps [].

Definition self_of (name : option (nat * nat)) : env :=
  match name with Some (sn, xn) => [(xn, TDef (DFunc sn xn))] | None => [] end.
Definition at_self (name : option (nat * nat)) : list use :=
  match name with Some (sn, xn) => [here sn (TDef (DFunc sn xn))] | None => [] end.
Definition own (name : option (nat * nat)) : list nat :=
  match name with Some (_, xn) => [xn] | None => [] end.
Definition self_decl (s : nat) (name : option (nat * nat)) : decl :=
  match name with Some (sn, xn) => DFunc sn xn | None => DClosure s end.

Lemma check_fun W n s name ps body w :
  check W n (Fun s name ps body) w =
  let d := self_decl s name in
  insert (dname d) (EDecl d)
    (with_scope (fun w => defer (check W n body) (check_params W n ps (insert (dname d) (EDecl d) w)))
       (resolve_as (as_def d) w)).
Proof. reflexivity. Qed.

Lemma tame_fun W s name ps body E :
  tame W (Fun s name ps body) E =
  tame_params W E ps (own name) && tame W body (bind (vars ps) ++ self_of name ++ E).
Proof. reflexivity. Qed.

Lemma sem_fun W s name ps body E :
  sem W (Fun s name ps body) E =
  let E1 := fst (sem_defaults W ps E) in
  (self_of name ++ E1,
   at_self name ++ snd (sem_defaults W ps E) ++ sites (vars ps) ++ snd (sem W body (bind (vars ps) ++ self_of name ++ E1))).
Proof.
  change (sem W (Fun s name ps body) E) with
    (let '(E1, u1) := sem_defaults W ps E in
     let '(_, u2) := sem W body (bind (vars ps) ++ self_of name ++ E1) in
     (self_of name ++ E1, at_self name ++ u1 ++ sites (vars ps) ++ u2)).
  destruct (sem_defaults W ps E) as [E1 u1]. cbn zeta. cbn [fst snd].
  destruct (sem W body (bind (vars ps) ++ self_of name ++ E1)) as [E2 u2]. reflexivity.
Qed.

Lemma sem_all_cons W e l E :
  sem_all W (e :: l) E =
  (fst (sem_all W l (fst (sem W e E))), snd (sem W e E) ++ snd (sem_all W l (fst (sem W e E)))).
Proof.
  cbn [sem_all]. destruct (sem W e E) as [E1 u1]. cbn [fst snd].
  destruct (sem_all W l E1) as [E2 u2]. reflexivity.
Qed.

Definition sem_opt (W : world) (o : option ast) (E : env) : env * list use :=
  match o with Some e => sem W e E | None => (E, []) end.

Ltac pairs :=
  repeat match goal with |- context [let '(_, _) := ?x in _] => destruct x; cbn [fst snd] end.

Lemma sem_keyed W c k v E :
  sem W (Keyed c k v) E =
  let r1 := if c then (E, []) else sem W k E in
  (fst (sem W v (fst r1)), snd r1 ++ snd (sem W v (fst r1))).
Proof. cbn [sem]. cbn zeta. destruct (if c then (E, []) else sem W k E) as [E1 u1]. cbn [fst snd].
  destruct (sem W v E1). reflexivity. Qed.
Lemma sem_let W p i E :
  sem W (Let p i) E =
  (bind (pvars p) ++ fst (sem_opt W i E), snd (sem_opt W i E) ++ sites (pvars p)).
Proof. cbn [sem]. fold (sem_opt W i E). destruct (sem_opt W i E). reflexivity. Qed.
Lemma sem_for W p it b E :
  sem W (For p it b) E =
  let E1 := fst (sem W it E) in
  (E1, snd (sem W it E) ++ sites (pvars p) ++ snd (sem W b (bind (pvars p) ++ E1))).
Proof. cbn [sem]. destruct (sem W it E) as [E1 u1]. cbn zeta. cbn [fst snd].
  destruct (sem W b (bind (pvars p) ++ E1)). reflexivity. Qed.
Lemma sem_while W c b E :
  sem W (While c b) E = sem_all W [c; b] E.
Proof. cbn [sem sem_all]. destruct (sem W c E) as [E1 u1]. destruct (sem W b E1). now rewrite app_nil_r. Qed.
Lemma sem_if W c t e E :
  sem W (If c t e) E =
  sem_all W (c :: t :: match e with Some e => [e] | None => [] end) E.
Proof. cbn [sem sem_all]. destruct (sem W c E) as [E1 u1]. destruct (sem W t E1) as [E2 u2].
  destruct e as [e|]; cbn [sem_all].
  - destruct (sem W e E2). now rewrite app_nil_r.
  - reflexivity. Qed.
Lemma sem_show W s t E :
  sem W (Show s t) E = sem_all W (match s with Some e => [e] | None => [] end ++ [t]) E.
Proof. cbn [sem]. destruct s as [s|]; cbn [sem_all app].
  - destruct (sem W s E) as [E1 u1]. destruct (sem W t E1). now rewrite app_nil_r.
  - destruct (sem W t E). now rewrite app_nil_r. Qed.
Lemma sem_set W t args c E :
  sem W (SetR t args c) E =
  sem_all W (match c with Some e => [e] | None => [] end ++ t :: args) E.
Proof. cbn [sem]. destruct c as [c|]; cbn [sem_all app].
  - destruct (sem W c E) as [E1 u1]. destruct (sem W t E1) as [E2 u2]. fold (sem_all W).
    destruct (sem_all W args E2). reflexivity.
  - destruct (sem W t E) as [E2 u2]. fold (sem_all W). destruct (sem_all W args E2). reflexivity. Qed.

Lemma sem_field W t s x E :
  sem W (Field t s x) E = (fst (sem W t E), snd (sem W t E) ++ field_uses W (fst (sem W t E)) t s x).
Proof. cbn [sem]. destruct (sem W t E). reflexivity. Qed.

(** * Expressions that bind nothing *)

Lemma sem_all_quiet W l : Forall (fun e => forall E, binds e = false -> fst (sem W e E) = E) l ->
  forall E, binds_all l = false -> fst (sem_all W l E) = E.
Proof.
  induction 1 as [|e l He Hl IH]; intros E B; [reflexivity|].
  cbn [binds_all] in B. apply orb_false_iff in B. destruct B as [B1 B2].
  rewrite sem_all_cons. cbn [fst]. rewrite He by exact B1. now apply IH.
Qed.

Lemma sem_defaults_cons W q d l E :
  sem_defaults W ((q, d) :: l) E =
  match q with
  | QNamed _ _ => (fst (sem_defaults W l (fst (sem W d E))), snd (sem W d E) ++ snd (sem_defaults W l (fst (sem W d E))))
  | _ => sem_defaults W l E
  end.
Proof.
  destruct q; try reflexivity. cbn [sem_defaults]. destruct (sem W d E) as [E1 u1]. cbn [fst snd].
  destruct (sem_defaults W l E1). reflexivity.
Qed.

Lemma sem_defaults_quiet W l : Forall (fun qd => forall E, binds (snd qd) = false -> fst (sem W (snd qd) E) = E) l ->
  forall E, binds_params l = false -> fst (sem_defaults W l E) = E.
Proof.
  induction 1 as [|[q d] l He Hl IH]; intros E B; [reflexivity|].
  cbn [binds_params] in B. apply orb_false_iff in B. destruct B as [B1 B2].
  rewrite sem_defaults_cons. destruct q; try (now apply IH). cbn [fst]. cbn [snd] in He.
  rewrite He by exact B1. now apply IH.
Qed.

Lemma sem_quiet W e : forall E, binds e = false -> fst (sem W e E) = E.
Proof.
  induction e using ast_ind'; intros E B; try reflexivity; try discriminate.
  - apply (sem_all_quiet W es H E B).
  - cbn [binds] in B. apply orb_false_iff in B. destruct B as [B1 B2]. rewrite sem_keyed. cbn zeta. cbn [fst].
    destruct c; cbn [fst]; [now apply IHe2|]. rewrite IHe1 by exact B1. now apply IHe2.
  - apply (sem_all_quiet W es H E B).
  - cbn [binds] in B. apply orb_false_iff in B. destruct B as [B1 B2]. fold binds_params in B2. rewrite sem_fun. cbn zeta. cbn [fst].
    destruct name; [discriminate|]. cbn [self_of app]. now apply sem_defaults_quiet.
  - cbn [binds] in B. rewrite sem_for. cbn zeta. cbn [fst]. now apply IHe1.
  - cbn [binds] in B. apply orb_false_iff in B. destruct B as [B1 B2]. rewrite sem_while.
    apply sem_all_quiet; [repeat constructor; assumption|]. cbn. now rewrite B1, B2.
  - cbn [binds] in B. apply orb_false_iff in B. destruct B as [B1 B3]. apply orb_false_iff in B1. destruct B1 as [B1 B2].
    rewrite sem_if. apply sem_all_quiet.
    + destruct e3; repeat constructor; assumption.
    + destruct e3; cbn; rewrite ?B1, ?B2, ?B3; reflexivity.
  - cbn [binds] in B. apply orb_false_iff in B. destruct B as [B1 B3]. apply orb_false_iff in B1. destruct B1 as [B1 B2].
    fold binds_all in B2. rewrite sem_set. apply sem_all_quiet.
    + destruct c; cbn [app]; repeat constructor; assumption.
    + destruct c; cbn; rewrite ?B1, ?B3, B2; reflexivity.
  - cbn [binds] in B. apply orb_false_iff in B. destruct B as [B1 B2]. rewrite sem_show. apply sem_all_quiet.
    + destruct s; cbn [app]; repeat constructor; assumption.
    + destruct s; cbn; rewrite ?B1, ?B2; reflexivity.
  - cbn [sem]. specialize (IHe E B). destruct (sem W e E). exact IHe.
Qed.

(** * The analysis of an expression *)

Ltac foralls := repeat (apply Forall_cons; [assumption|]); apply Forall_nil.

Section Main.
Variable W : world.
Variable n : nat.
Hypothesis N : 2 <= n.
Hypothesis PW : plain_world W.

Definition pre (ment : list nat) (E : env) (w : st) : Prop :=
  init w = false /\ plainw w /\ forall x, In x ment -> x <> 0 -> agree W x w E.

Definition res (mk : list nat) (us : list use) (b : bool) (E E' : env) (w w' : st) : Prop :=
  good mk us w w'
  /\ (forall x, x <> 0 -> agree W x w E -> agree W x w' E')
  /\ (b = false -> forall x, x <> 0 -> srch W w' x = srch W w x).

Lemma pre_next m1 m2 mk us b E E1 w w1 :
  pre m1 E w -> incl m2 m1 -> res mk us b E E1 w w1 -> pre m2 E1 w1.
Proof.
  intros [P1 [P2 P3]] I [G [A _]]. split; [rewrite (g_init _ _ _ _ G); exact P1|].
  split; [apply (g_plain _ _ _ _ G); exact P2|]. intros x X Z. apply A; [exact Z|]. apply P3; auto.
Qed.

Lemma pre_sub m1 m2 E w : pre m1 E w -> incl m2 m1 -> pre m2 E w.
Proof. intros [P1 [P2 P3]] I. split; [exact P1|]. split; [exact P2|]. intros x X Z. apply P3; auto. Qed.

Lemma res_seq m1 m2 u1 u2 b1 b2 E E1 E2 w w1 w2 :
  res m1 u1 b1 E E1 w w1 -> res m2 u2 b2 E1 E2 w1 w2 -> (forall s, In s m1 -> In s m2 -> False) ->
  res (m1 ++ m2) (u1 ++ u2) (b1 || b2) E E2 w w2.
Proof.
  intros [G1 [A1 Q1]] [G2 [A2 Q2]] D. split; [eapply good_seq; eauto|]. split; [auto|].
  intros B x Z. apply orb_false_iff in B. destruct B as [B1 B2]. rewrite Q2 by auto. auto.
Qed.

Lemma res_equiv m m' u u' b b' E E' w w' :
  incl m m' -> (forall x, In x u <-> In x u') -> (b' = false -> b = false) ->
  res m u b E E' w w' -> res m' u' b' E E' w w'.
Proof.
  intros M U B [G [A Q]]. split; [eapply good_equiv; eauto|]. split; [exact A|]. auto.
Qed.

Lemma res_nil mk b E w : res mk [] b E E w w.
Proof. split; [apply good_refl|]. split; auto. Qed.

Definition ok (e : ast) : Prop := forall E w,
  tame W e E = true -> pre (mentions e) E w -> NoDup (marks e) ->
  res (marks e) (snd (sem W e E)) (binds e) E (fst (sem W e E)) w (check W n e w).

Lemma ok_all l : Forall ok l -> forall E w,
  tame_all W l E = true -> pre (mentions_all l) E w -> NoDup (marks_all l) ->
  res (marks_all l) (snd (sem_all W l E)) (binds_all l) E (fst (sem_all W l E)) w (check_all W n l w).
Proof.
  induction 1 as [|e l He Hl IH]; intros E w T P ND; [apply res_nil|].
  cbn [tame_all] in T. fold (tame_all W) in T. apply andb_true_iff in T. destruct T as [T1 T2].
  cbn [mentions_all marks_all] in *. rewrite sem_all_cons. cbn [fst snd check_all binds_all]. fold (check_all W n).
  assert (R1 : res (marks e) (snd (sem W e E)) (binds e) E (fst (sem W e E)) w (check W n e w)).
  { apply He; [exact T1|eapply pre_sub; [exact P|apply incl_appl, incl_refl]|eapply NoDup_app_l; exact ND]. }
  eapply res_seq; [exact R1| |apply NoDup_app_d; exact ND].
  apply IH; [exact T2| |eapply NoDup_app_r; exact ND].
  eapply pre_next; [exact P|apply incl_appr, incl_refl|exact R1].
Qed.

Lemma scope_res m u b E E' w f :
  (forall w1, last w1 = SLex [] -> up w1 = last w :: up w -> buf w1 = buf w -> init w1 = init w ->
     w1 = set_scopes (SLex []) (last w :: up w) w -> res m u b E E' w1 (f w1)) ->
  res m u false E E w (with_scope f w).
Proof.
  intros H. destruct (H (set_scopes (SLex []) (last w :: up w) w) eq_refl eq_refl eq_refl eq_refl eq_refl) as [G _].
  apply good_scope in G. destruct G as [G [L U]]. split; [exact G|].
  assert (S : forall x, srch W (with_scope f w) x = srch W w x) by (intros x; unfold srch; now rewrite L, U).
  split; [|auto]. intros x _ A. unfold agree. now rewrite S.
Qed.

Lemma pre_open m E w : pre m E w -> pre m E (set_scopes (SLex []) (last w :: up w) w).
Proof.
  intros [P1 [P2 P3]]. split; [exact P1|]. split; [|exact P3].
  intros m' x e. cbn. intros [H|H] I; [injection H as <-; destruct I|]. apply (P2 m' x e H I).
Qed.

Lemma apart_spec a b x : apart a b = true -> In x a -> ~ In x b.
Proof.
  unfold apart. rewrite forallb_forall. intros H I J. specialize (H x I).
  apply negb_true_iff in H. assert (existsb (Nat.eqb x) b = true); [|congruence].
  apply existsb_exists. exists x. split; [exact J|apply Nat.eqb_refl].
Qed.

Lemma vars_acc l : forall acc,
  fold_left (fun acc '(q, _) => qvars q ++ acc) (l : list (param * ast)) acc = vars l ++ acc.
Proof.
  unfold vars. induction l as [|[q d] l IH]; intros acc; [reflexivity|]. cbn.
  rewrite IH. rewrite (IH (qvars q ++ [])). rewrite app_nil_r, app_assoc. reflexivity.
Qed.

Lemma vars_cons q d l : vars ((q, d) :: l) = vars l ++ qvars q.
Proof. unfold vars at 1. cbn. rewrite app_nil_r. apply vars_acc. Qed.

Lemma bind_app a b : bind (a ++ b) = bind a ++ bind b.
Proof. apply map_app. Qed.
Lemma sites_app a b : sites (a ++ b) = sites a ++ sites b.
Proof. apply map_app. Qed.

Lemma defaults_quiet l : forall E seen, tame_params W E l seen = true -> forall F, fst (sem_defaults W l F) = F.
Proof.
  intros E seen T F. apply sem_defaults_quiet.
  - apply Forall_forall. intros [q d] _ F'. apply sem_quiet.
  - revert seen T. induction l as [|[q d] l IH]; intros seen T; [reflexivity|].
    cbn in T. apply andb_true_iff in T. destruct T as [T1 T2]. cbn. rewrite (IH _ T2), orb_false_r.
    destruct q; try (destruct d; try discriminate; reflexivity).
    apply andb_true_iff in T1. destruct T1 as [T1 _]. apply andb_true_iff in T1. destruct T1 as [T1 _].
    now apply negb_true_iff in T1.
Qed.

(** One parameter (without its default). *)
Lemma param_ok q w :
  NoDup (qmarks q) ->
  let w' := match q with
            | QPos p => check_pattern p w
            | QNamed sq xq => declare (DVar sq xq) w
            | QRest sq xq => declare (DVar sq xq) (resolve_ident W (DRef sq xq) false w)
            | QAny sq => declare (DSpread sq) w
            end in
  good (qmarks q) (sites (qvars q)) w w'
  /\ (forall x F, x <> 0 -> agree W x w F -> agree W x w' (bind (qvars q) ++ F))
  /\ (forall x, x <> 0 -> ~ In x (map snd (qvars q)) -> srch W w' x = srch W w x).
Proof.
  intros ND. cbn zeta. destruct q as [p|s x|s x|s]; cbn [qmarks qvars] in *.
  - destruct (pattern_ok W p w ND) as [G [A Q]]. repeat split; auto; apply G.
  - destruct (declares_ok W [(s, x)] w ND) as [G [A Q]]. split; [exact G|]. split; [intros; now apply A|auto].
  - assert (R : exists r, resolve_ident W (DRef s x) false w = resolve_at s r w).
    { unfold resolve_ident. destruct (eval_ident W w (dname (DRef s x)) false) as [e v].
      destruct (extract_ref e) as [ro st']. eexists. reflexivity. }
    destruct R as [r R]. rewrite R.
    destruct (declares_ok W [(s, x)] (resolve_at s r w) ND) as [G [A Q]].
    split; [|split; [intros; now apply A|intros; now apply Q]].
    destruct G as [a1 a2 a3 a4 a5 a6 [new [a7 [a8 [a9 a10]]]]]. split; auto.
    exists (new ++ [(s, r)]). split; [rewrite <- app_assoc; exact a7|]. split; [|split].
    + intros y. rewrite map_app, in_app_iff. intros [H|[<-|[]]]; [now apply a8|now left].
    + intros s' t' H. destruct (a9 _ _ H) as [r' [R1 R2]]. exists r'. rewrite find_app, R1. auto.
    + intros s' r'. rewrite find_app. destruct (find s' new) eqn:F.
      * intros [= <-]. apply a10. exact F.
      * cbn. destruct (Nat.eqb s' s) eqn:Q'; [|discriminate]. apply Nat.eqb_eq in Q'. subst s'.
        destruct (a9 s (TDef (DVar s x))) as [r0 [R0 _]]; [now left|]. congruence.
  - unfold declare. cbn [dname]. split; [|split].
    + eapply good_equiv; [| |eapply (good_seq [s] [] [] [])].
      * apply incl_refl.
      * intros y. apply iff_refl.
      * apply (good_silent s (as_def (DSpread s)) w). intros d L. unfold is_ref, as_def. cbn [r_decl r_root].
        rewrite orb_diag. destruct (decl_eq_dec (DSpread s) d) as [<-|]; [discriminate|reflexivity].
      * apply good_insert. reflexivity.
      * intros ? _ [].
    + intros y F Z A. apply agree_insert_other; [exact Z|exact A].
    + intros y Z _. rewrite srch_insert. apply Nat.eqb_neq in Z. now rewrite Z.
Qed.

Lemma params_ok l : Forall (fun qd => ok (snd qd)) l -> forall E seen w,
  tame_params W E l seen = true -> init w = false -> plainw w -> NoDup (marks_params l) ->
  (forall x, In x (ment_params l) -> x <> 0 -> ~ In x seen -> agree W x w E) ->
  good (marks_params l) (snd (sem_defaults W l E) ++ sites (vars l)) w (check_params W n l w)
  /\ (forall x F, x <> 0 -> agree W x w F -> agree W x (check_params W n l w) (bind (vars l) ++ F)).
Proof.
  induction 1 as [|[q d] l Hd Hl IH]; intros E seen w T I P ND A.
  - split; [apply good_refl|auto].
  - cbn [tame_params] in T. fold (tame_params W E) in T. apply andb_true_iff in T. destruct T as [T1 T2].
    cbn [marks_params ment_params snd] in *.
    assert (NDq := NoDup_app_l _ _ ND). assert (NDr := NoDup_app_r _ _ ND).
    assert (NDd := NoDup_app_l _ _ NDr). assert (NDl := NoDup_app_r _ _ NDr).
    (* the default *)
    assert (D : exists w1,
      check_params W n ((q, d) :: l) w = check_params W n l
        match q with
        | QPos p => check_pattern p w1
        | QNamed sq xq => declare (DVar sq xq) w1
        | QRest sq xq => declare (DVar sq xq) (resolve_ident W (DRef sq xq) false w1)
        | QAny sq => declare (DSpread sq) w1
        end
      /\ good (marks d) (match q with QNamed _ _ => snd (sem W d E) | _ => [] end) w w1
      /\ (forall x, x <> 0 -> srch W w1 x = srch W w x)
      /\ snd (sem_defaults W ((q, d) :: l) E) = match q with QNamed _ _ => snd (sem W d E) | _ => [] end ++ snd (sem_defaults W l E)).
    { destruct q as [p|s x|s x|s]; try (exists w; split; [reflexivity|]; split; [apply good_refl|]; split; [auto|reflexivity]).
      apply andb_true_iff in T1. destruct T1 as [T1 TA]. apply andb_true_iff in T1. destruct T1 as [TB TC].
      apply negb_true_iff in TB.
      destruct (Hd E w TC) as [G [_ Q]]; [|exact NDd|].
      - split; [exact I|]. split; [exact P|]. intros y Y Z. apply A; [apply in_app_iff; now left|exact Z|].
        eapply apart_spec; eauto.
      - exists (check W n d w). split; [reflexivity|]. split; [exact G|]. split; [intros y Z; now apply Q|].
        rewrite sem_defaults_cons. cbn [snd]. rewrite (sem_quiet W d E TB). reflexivity. }
    destruct D as [w1 [D1 [D2 [D3 D4]]]]. rewrite D1, D4.
    destruct (param_ok q w1 NDq) as [G [B Q]].
    set (w2 := match q with QPos p => check_pattern p w1 | QNamed _ _ => _ | QRest _ _ => _ | QAny _ => _ end) in *.
    destruct (IH E (map snd (qvars q) ++ seen) w2) as [J1 J2].
    + exact T2.
    + rewrite (g_init _ _ _ _ G), (g_init _ _ _ _ D2). exact I.
    + apply (g_plain _ _ _ _ G), (g_plain _ _ _ _ D2). exact P.
    + exact NDl.
    + intros x X Z S. rewrite in_app_iff in S. unfold agree. rewrite Q by tauto. rewrite D3 by exact Z.
      apply A; [apply in_app_iff; now right|exact Z|tauto].
    + rewrite vars_cons. split.
      * rewrite sites_app. eapply good_equiv; [| |eapply good_seq; [eapply good_seq; [exact D2|exact G|]|exact J1|]].
        -- intros y. rewrite !in_app_iff. tauto.
        -- intros y. rewrite !in_app_iff. tauto.
        -- intros y H1 H2. apply (NoDup_app_d _ _ ND y H2). apply in_app_iff. now left.
        -- intros y H1 H2. apply in_app_iff in H1. destruct H1 as [H1|H1].
           ++ apply (NoDup_app_d _ _ NDr y H1 H2).
           ++ apply (NoDup_app_d _ _ ND y H1). apply in_app_iff. now right.
      * intros x F Z AF. rewrite bind_app, <- app_assoc. apply J2; [exact Z|]. apply B; [exact Z|].
        unfold agree. rewrite D3 by exact Z. exact AF.
Qed.

Lemma src_include E c w :
  tame_src W E c = true -> pre (src_names c) E w ->
  good (src_marks c) (src_uses W false E c ++ path_uses c) w (check_src W c (fst (check_import W n c w)))
  /\ forall x, srch W (check_src W c (fst (check_import W n c w))) x = srch W w x.
Proof.
  intros T [P1 [P2 P3]].
  destruct (check_import_ok W n E c w N T P2 P3) as [w1 [e [C1 [C2 [C3 [C4 [C5 C6]]]]]]].
  rewrite C1. cbn [fst]. destruct c as [s f stem|s x|t s x|]; try discriminate.
  - cbn [check_src]. split; [exact C2|]. intros y. unfold srch. now rewrite C3, C4.
  - cbn [check_src src_uses path_uses app src_marks] in *.
    cbn [tame_src] in T. apply andb_true_iff in T. destruct T as [T1 _]. apply negb_true_iff, Nat.eqb_neq in T1.
    assert (A : agree W x w1 E).
    { unfold agree, srch. rewrite C3, C4. apply (P3 x); [now left|exact T1]. }
    destruct (ident_fits W w1 (DRef s x) false E) as [r [R1 R2]]; [apply (g_plain _ _ _ _ C2 P2)|reflexivity|exact A|].
    rewrite R1. cbn [dspan dname] in *. split.
    + destruct C2 as [a1 a2 a3 a4 a5 a6 [new [a7 [a8 [a9 a10]]]] [nd [a11 a12]]]. split; auto.
      * intros k s' t' [H|[]]. injection H as <- <- <-. now left.
      * exists ((s, r) :: new). split; [cbn; now rewrite a7|]. split; [|split].
        -- intros y [<-|H]; [now left|now apply a8].
        -- intros s' t' [H|[]]. injection H as <- <-. exists r. cbn. rewrite Nat.eqb_refl. auto.
        -- intros s' r'. cbn. destruct (Nat.eqb s' s) eqn:Q.
           ++ apply Nat.eqb_eq in Q. subst. intros [= <-]. left. eexists. split; [now left|exact R2].
           ++ intros H. apply find_in in H. apply (in_map fst) in H. apply a8 in H. cbn in H. destruct H as [<-|[]].
              rewrite Nat.eqb_refl in Q. discriminate.
      * exists nd. split; [exact a11|]. intros s' f [H|[]]. discriminate.
    + intros y. unfold srch. cbn. now rewrite C3, C4.
Qed.

Lemma init_defer (f : st -> st) w : init w = false -> defer f w = f w.
Proof. unfold defer. now intros ->. Qed.

Lemma res_ident d m E w :
  plainw w -> local d = false -> agree W (dname d) w E ->
  res [dspan d] [here (dspan d) (look W E m (dname d))] false E E w (resolve_ident W d m w).
Proof.
  intros P L A. destruct (ident_fits W w d m E P L A) as [r [R1 R2]]. rewrite R1.
  split; [now apply good_resolve|]. split; auto.
Qed.

Theorem check_ok e : ok e.
Proof.
  induction e using ast_ind'; intros E w T P ND.
  - apply res_nil.
  - cbn [check sem fst snd marks binds]. cbn [tame] in T. apply negb_true_iff, Nat.eqb_neq in T.
    destruct P as [P1 [P2 P3]]. apply (res_ident (DRef s x) false); [exact P2|reflexivity|].
    apply P3; [now left|exact T].
  - cbn [check sem fst snd marks binds]. cbn [tame] in T. apply negb_true_iff, Nat.eqb_neq in T.
    destruct P as [P1 [P2 P3]]. apply (res_ident (DMath s x) true); [exact P2|reflexivity|].
    apply P3; [now left|exact T].
  - apply (ok_all es H E w T P ND).
  - (* Keyed *)
    cbn [tame] in T. apply andb_true_iff in T. destruct T as [T TV]. apply andb_true_iff in T. destruct T as [T TK].
    apply andb_true_iff in T. destruct T as [BK BV]. apply negb_true_iff in BK, BV.
    cbn [mentions marks] in *.
    assert (RV : res (marks e2) (snd (sem W e2 E)) (binds e2) E (fst (sem W e2 E)) w (check W n e2 w))
      by (apply IHe2; [exact TV|eapply pre_sub; [exact P|apply incl_appr, incl_refl]|eapply NoDup_app_r; exact ND]).
    rewrite (sem_quiet W e2 E BV) in RV.
    rewrite sem_keyed. cbn zeta. cbn [check binds]. destruct c; cbn [fst snd app].
    + rewrite (sem_quiet W e2 E BV). eapply res_equiv; [apply incl_appr, incl_refl|intros y; apply iff_refl| |exact RV].
      intros Q. apply orb_false_iff in Q. tauto.
    + rewrite (sem_quiet W e1 E BK). rewrite (sem_quiet W e2 E BV).
      assert (RK : res (marks e1) (snd (sem W e1 E)) (binds e1) E (fst (sem W e1 E)) (check W n e2 w) (check W n e1 (check W n e2 w))).
      { apply IHe1; [exact TK| |eapply NoDup_app_l; exact ND].
        eapply pre_next; [exact P|apply incl_appl, incl_refl|exact RV]. }
      rewrite (sem_quiet W e1 E BK) in RK.
      eapply res_equiv; [| | |eapply res_seq; [exact RV|exact RK|]].
      * intros y. rewrite !in_app_iff. tauto.
      * intros y. rewrite !in_app_iff. tauto.
      * rewrite !orb_false_iff. tauto.
      * intros y H1 H2. apply (NoDup_app_d _ _ ND y H2 H1).
  - (* Blk *)
    cbn [sem fst snd]. fold (sem_all W). cbn [check binds marks]. fold (check_all W n). fold marks_all.
    eapply scope_res. intros w1 _ _ _ _ ->. apply ok_all; [exact H|exact T| |exact ND].
    apply pre_open. exact P.
  - (* Item *)
    cbn [tame] in T. fold (tame_all W) in T. apply andb_true_iff in T. destruct T as [TB T]. apply negb_true_iff in TB.
    assert (Q : fst (sem W (Item es) E) = E) by (apply sem_quiet; exact TB). rewrite Q.
    eapply res_equiv; [apply incl_refl|intros y; apply iff_refl| |].
    2:{ cbn [check]. eapply scope_res. intros w1 _ _ _ _ ->. apply ok_all; [exact H|exact T| |exact ND].
        apply pre_open. exact P. }
    reflexivity.
  - (* Let *)
    rewrite sem_let. cbn [fst snd check binds marks] in *.
    assert (R : res (match i with Some e => marks e | None => [] end) (snd (sem_opt W i E))
                  (match i with Some e => binds e | None => false end) E (fst (sem_opt W i E)) w
                  (match i with Some i => defer (check W n i) w | None => w end)).
    { destruct i as [i|]; [|apply res_nil]. rewrite init_defer by apply P. apply H; [exact T|exact P|eapply NoDup_app_l; exact ND]. }
    destruct (pattern_ok W p (match i with Some i => defer (check W n i) w | None => w end) (NoDup_app_r _ _ ND)) as [G [A Q]].
    eapply res_equiv; [apply incl_refl|intros y; apply iff_refl|discriminate|].
    eapply (res_seq _ _ _ _ _ true); [exact R| |apply NoDup_app_d; exact ND].
    split; [exact G|]. split; [intros x Z; apply A|discriminate].
  - (* Fun *)
    rewrite tame_fun in T. apply andb_true_iff in T. destruct T as [TP TB].
    rewrite sem_fun, check_fun. cbn zeta. rewrite (defaults_quiet _ _ _ TP). cbn [fst snd].
    set (d := self_decl s name).
    cbn [marks] in ND |- *. fold marks_params in ND |- *. cbn [mentions] in P. fold ment_params in P.
    inversion ND as [|? ? ND1 ND2]; subst.
    assert (NDn := NoDup_app_l _ _ ND2). assert (NDr := NoDup_app_r _ _ ND2).
    assert (NDp := NoDup_app_l _ _ NDr). assert (NDb := NoDup_app_r _ _ NDr).
    assert (PD : plain (EDecl d) = true) by (unfold d; destruct name as [[? ?]|]; reflexivity).
    (* the name of the function *)
    assert (G0 : exists m0, good m0 (at_self name) w (resolve_as (as_def d) w) /\ incl m0 (s :: omark name)).
    { unfold d, resolve_as. destruct name as [[sn xn]|]; cbn [self_decl r_decl as_def dspan at_self omark].
      - exists [sn]. split; [apply good_resolve; now apply fits_def|]. intros y [<-|[]]. right. now left.
      - exists [s]. split; [|apply incl_refl]. apply good_silent. now apply silent_def. }
    destruct G0 as [m0 [G0 I0]].
    set (w0 := resolve_as (as_def d) w) in *.
    assert (P0 : pre (ment_params ps ++ mentions e) E w0).
    { destruct P as [P1 [P2 P3]]. split; [exact P1|]. split; [apply (g_plain _ _ _ _ G0 P2)|]. exact P3. }
    (* the scope of the function *)
    assert (R : res (marks_params ps ++ marks e) ((snd (sem_defaults W ps E) ++ sites (vars ps)) ++ snd (sem W e (bind (vars ps) ++ self_of name ++ E))) false E E w0
       (with_scope (fun w => defer (check W n e) (check_params W n ps (insert (dname d) (EDecl d) w))) w0)).
    { eapply (scope_res _ _ true E (fst (sem W e (bind (vars ps) ++ self_of name ++ E)))). intros w1 _ _ _ _ ->.
      apply pre_open in P0. set (w1 := set_scopes (SLex []) (last w0 :: up w0) w0) in *.
      destruct P0 as [P1 [P2 P3]].
      pose proof (good_insert (dname d) (EDecl d) w1 PD) as GI.
      set (w2 := insert (dname d) (EDecl d) w1) in *.
      assert (AI : forall x, x <> 0 -> agree W x w1 E -> agree W x w2 (self_of name ++ E)).
      { intros x Z A. unfold w2, d. destruct name as [[sn xn]|]; cbn [self_decl self_of app dname].
        - apply agree_insert; [reflexivity|exact A].
        - apply agree_insert_other; [exact Z|exact A]. }
      destruct (params_ok ps H E (own name) w2 TP) as [J1 J2].
      - rewrite (g_init _ _ _ _ GI). exact P1.
      - apply (g_plain _ _ _ _ GI P2).
      - exact NDp.
      - intros x X Z S. unfold agree, w2. rewrite srch_insert.
        assert (Y : x <> dname d).
        { unfold d. destruct name as [[sn xn]|]; cbn [self_decl dname own] in *; [|exact Z].
          intros ->. apply S. now left. }
        apply Nat.eqb_neq in Y. rewrite Y. apply P3; [apply in_app_iff; now left|exact Z].
      - set (w3 := check_params W n ps w2) in *.
        assert (I3 : init w3 = false) by (rewrite (g_init _ _ _ _ J1), (g_init _ _ _ _ GI); exact P1).
        rewrite init_defer by exact I3.
        assert (RB : res (marks e) (snd (sem W e (bind (vars ps) ++ self_of name ++ E))) (binds e)
                       (bind (vars ps) ++ self_of name ++ E) (fst (sem W e (bind (vars ps) ++ self_of name ++ E))) w3 (check W n e w3)).
        { apply IHe; [exact TB| |exact NDb]. split; [exact I3|]. split.
          - apply (g_plain _ _ _ _ J1), (g_plain _ _ _ _ GI). exact P2.
          - intros x X Z. apply J2; [exact Z|]. apply AI; [exact Z|]. apply P3; [apply in_app_iff; now right|exact Z]. }
        destruct RB as [GB [AB _]]. split; [|split; [|discriminate]].
        + eapply good_equiv; [| |eapply good_seq; [eapply (good_seq [] (marks_params ps) []); [exact GI|exact J1|]|exact GB|]].
          * apply incl_refl.
          * intros y. apply iff_refl.
          * intros ? [].
          * apply (NoDup_app_d _ _ NDr).
        + intros x Z A. apply AB; [exact Z|]. apply J2; [exact Z|]. apply AI; assumption. }
    set (w5 := with_scope _ w0) in *. destruct R as [G [A Q]].
    split; [|split].
    + eapply good_equiv; [| |eapply good_seq; [eapply good_seq; [exact G0|exact G|]|apply (good_insert (dname d) (EDecl d) w5 PD)|]].
      * intros y. rewrite !in_app_iff. intros [[Y|Y]|[]]; [apply I0 in Y; cbn [In] in *; rewrite !in_app_iff; tauto|cbn [In]; rewrite !in_app_iff; tauto].
      * intros y. rewrite !in_app_iff. cbn [In]. tauto.
      * intros y H1 H2. apply I0 in H1. destruct H1 as [<-|H1].
        -- apply ND1. apply in_app_iff. now right.
        -- apply (NoDup_app_d _ _ ND2 y H1 H2).
      * intros ? _ [].
    + intros x Z AX. assert (A5 : agree W x w5 E) by (apply A; [exact Z|exact AX]).
      unfold d. destruct name as [[sn xn]|]; cbn [self_decl self_of app dname].
      * apply agree_insert; [reflexivity|exact A5].
      * apply agree_insert_other; [exact Z|exact A5].
    + intros B x Z. cbn [binds] in B. destruct name; [discriminate|]. unfold d. cbn [self_decl dname].
      rewrite srch_insert. apply Nat.eqb_neq in Z as Z'. rewrite Z'. rewrite Q by auto. reflexivity.
  - (* Import *)
    cbn [tame] in T. destruct P as [P1 [P2 P3]]. cbn [check sem].
    destruct (import_ok W n E s c new im w N PW T P2 ND P3) as [G A].
    split; [exact G|]. split; [intros x _; apply A|discriminate].
  - (* Include *)
    cbn [tame check sem fst snd marks] in *. destruct (src_include E c w T P) as [G S].
    split; [exact G|]. split; [|auto]. intros x _ A. unfold agree. rewrite S. exact A.
  - (* For *)
    cbn [tame] in T. apply andb_true_iff in T. destruct T as [T TB]. apply andb_true_iff in T. destruct T as [T TA].
    apply andb_true_iff in T. destruct T as [BI TI]. apply negb_true_iff in BI.
    rewrite sem_for. cbn zeta. cbn [fst snd]. rewrite (sem_quiet W e1 E BI).
    cbn [marks mentions binds check] in *. rewrite BI.
    assert (NDp := NoDup_app_l _ _ ND). assert (NDr := NoDup_app_r _ _ ND).
    eapply (scope_res _ _ true E (fst (sem W e2 (bind (pvars p) ++ E)))). intros w1 _ _ _ _ ->.
    apply pre_open in P. set (w1 := set_scopes (SLex []) (last w :: up w) w) in *.
    destruct P as [P1 [P2 P3]].
    destruct (pattern_ok W p w1 NDp) as [G [A Q]]. set (w2 := check_pattern p w1) in *.
    assert (I2 : init w2 = false) by (rewrite (g_init _ _ _ _ G); exact P1).
    assert (PL2 : plainw w2) by (apply (g_plain _ _ _ _ G P2)).
    destruct (IHe1 E w2 TI) as [G1 [A1 Q1]]; [|eapply NoDup_app_l; exact NDr|].
    { split; [exact I2|]. split; [exact PL2|]. intros x X Z. unfold agree. rewrite Q by (eapply apart_spec; eauto).
      apply P3; [apply in_app_iff; now left|exact Z]. }
    set (w3 := check W n e1 w2) in *.
    assert (I3 : init w3 = false) by (rewrite (g_init _ _ _ _ G1); exact I2).
    rewrite init_defer by exact I3.
    assert (AX : forall x, x <> 0 -> agree W x w1 E -> agree W x w3 (bind (pvars p) ++ E)).
    { intros x Z H. unfold agree. rewrite (Q1 BI x Z). apply A. exact H. }
    destruct (IHe2 (bind (pvars p) ++ E) w3 TB) as [G2 [A2 _]]; [|eapply NoDup_app_r; exact NDr|].
    { split; [exact I3|]. split; [apply (g_plain _ _ _ _ G1 PL2)|]. intros x X Z. apply AX; [exact Z|].
      apply P3; [apply in_app_iff; now right|exact Z]. }
    split; [|split; [|discriminate]].
    + eapply good_equiv; [| |eapply good_seq; [eapply good_seq; [exact G|exact G1|]|exact G2|]].
      * rewrite app_assoc. apply incl_refl.
      * intros y. rewrite !in_app_iff. tauto.
      * intros y H1 H2. apply (NoDup_app_d _ _ ND y H1). apply in_app_iff. now left.
      * rewrite app_assoc in ND. apply (NoDup_app_d _ _ ND).
    + intros x Z H. apply A2; [exact Z|]. now apply AX.
  - (* While *)
    cbn [tame] in T. rewrite sem_while.
    assert (X : res (marks_all [e1; e2]) (snd (sem_all W [e1; e2] E)) (binds_all [e1; e2]) E (fst (sem_all W [e1; e2] E)) w (check_all W n [e1; e2] w)).
    { apply ok_all; [foralls| | |].
      - cbn. rewrite andb_true_r. exact T.
      - cbn [mentions_all]. rewrite app_nil_r. exact P.
      - cbn [marks_all]. rewrite app_nil_r. exact ND. }
    cbn [check_all] in X. cbn [check].
    assert (I1 : init (check W n e1 w) = false).
    { destruct (IHe1 E w) as [G _].
      - apply andb_true_iff in T. tauto.
      - eapply pre_sub; [exact P|apply incl_appl, incl_refl].
      - eapply NoDup_app_l; exact ND.
      - rewrite (g_init _ _ _ _ G). apply P. }
    rewrite init_defer by exact I1.
    eapply res_equiv; [| | |exact X].
    + cbn [marks_all]. rewrite app_nil_r. apply incl_refl.
    + intros y. apply iff_refl.
    + cbn. now rewrite orb_false_r.
  - (* If *)
    cbn [tame] in T. rewrite sem_if.
    set (l := e1 :: e2 :: match e3 with Some e => [e] | None => [] end).
    assert (ML : marks_all l = marks (If e1 e2 e3)) by (unfold l; destruct e3; cbn; rewrite ?app_nil_r; reflexivity).
    assert (MT : mentions_all l = mentions (If e1 e2 e3)) by (unfold l; destruct e3; cbn; rewrite ?app_nil_r; reflexivity).
    assert (F : Forall ok l) by (unfold l; destruct e3; foralls).
    assert (TL : tame_all W l E = true).
    { unfold l. apply andb_true_iff in T. destruct T as [T T3]. apply andb_true_iff in T. destruct T as [T1 T2].
      destruct e3; cbn; rewrite ?T1, ?T2, ?T3; reflexivity. }
    assert (X : res (marks_all l) (snd (sem_all W l E)) (binds_all l) E (fst (sem_all W l E)) w (check_all W n l w)).
    { apply ok_all; [exact F|exact TL|rewrite MT; exact P|rewrite ML; exact ND]. }
    assert (I1 : init (check W n e1 w) = false /\ init (check W n e2 (check W n e1 w)) = false).
    { assert (R1 : res (marks e1) (snd (sem W e1 E)) (binds e1) E (fst (sem W e1 E)) w (check W n e1 w)).
      { apply IHe1; [apply andb_true_iff in T; destruct T as [T _]; apply andb_true_iff in T; tauto
                    |eapply pre_sub; [exact P|apply incl_appl, incl_refl]|eapply NoDup_app_l; exact ND]. }
      split; [rewrite (g_init _ _ _ _ (proj1 R1)); apply P|].
      destruct (IHe2 (fst (sem W e1 E)) (check W n e1 w)) as [G2 _].
      - apply andb_true_iff in T. destruct T as [T _]. apply andb_true_iff in T. tauto.
      - eapply pre_next; [exact P| |exact R1]. cbn [mentions]. intros y Y. rewrite !in_app_iff. tauto.
      - cbn [marks] in ND. apply NoDup_app_r in ND. eapply NoDup_app_l; exact ND.
      - rewrite (g_init _ _ _ _ G2), (g_init _ _ _ _ (proj1 R1)). apply P. }
    destruct I1 as [I1 I2].
    rewrite ML in X. eapply (res_equiv _ _ _ _ (binds_all l)); [apply incl_refl|intros y; apply iff_refl| |].
    2:{ cbn [check]. rewrite (init_defer (check W n e2)) by exact I1. unfold l in X.
        destruct e3 as [e3|]; [rewrite init_defer by exact I2|]; exact X. }
    unfold l. destruct e3; cbn; rewrite ?orb_false_r, ?orb_assoc; auto.
  - discriminate.
  - (* Set *)
    cbn [tame] in T. fold (tame_all W) in T. apply andb_true_iff in T. destruct T as [T TC]. apply andb_true_iff in T. destruct T as [T TA].
    apply andb_true_iff in T. destruct T as [TB TT]. apply negb_true_iff in TB.
    assert (QE : fst (sem W (SetR e args c) E) = E) by (apply sem_quiet; exact TB). rewrite QE.
    cbn [binds] in TB. fold binds_all in TB. apply orb_false_iff in TB. destruct TB as [TB BC]. apply orb_false_iff in TB. destruct TB as [BT BA].
    assert (QA : fst (sem_all W args E) = E) by (apply sem_all_quiet; [apply Forall_forall; intros y _; apply sem_quiet|exact BA]).
    assert (US : forall y, In y ((snd (sem W e E) ++ snd (sem_all W args E)) ++ snd (sem_opt W c E)) <-> In y (snd (sem W (SetR e args c) E))).
    { intros y. rewrite sem_set. destruct c as [c|]; cbn [app sem_opt].
      - rewrite !sem_all_cons. cbn [fst snd]. rewrite (sem_quiet W c E BC), (sem_quiet W e E BT). rewrite !in_app_iff. tauto.
      - rewrite !sem_all_cons. cbn [fst snd]. rewrite (sem_quiet W e E BT). rewrite !in_app_iff. cbn. tauto. }
    cbn [marks mentions] in *. fold marks_all in *. fold mentions_all in *.
    assert (ND' := NoDup_app_r _ _ ND).
    assert (R1 : res (marks e) (snd (sem W e E)) (binds e) E E w (check W n e w)).
    { pose proof (IHe E w TT) as X. rewrite (sem_quiet W e E BT) in X. apply X;
        [eapply pre_sub; [exact P|apply incl_appl, incl_refl]|eapply NoDup_app_l; exact ND]. }
    assert (P1 : pre (mentions_all args ++ match c with Some e => mentions e | None => [] end) E (check W n e w))
      by (eapply pre_next; [exact P|apply incl_appr, incl_refl|exact R1]).
    assert (R2 : res (marks_all args) (snd (sem_all W args E)) (binds_all args) E E (check W n e w) (check_all W n args (check W n e w))).
    { pose proof (ok_all args H E (check W n e w) TA) as X. rewrite QA in X. apply X;
        [eapply pre_sub; [exact P1|apply incl_appl, incl_refl]|eapply NoDup_app_l; exact ND']. }
    assert (P2 : pre (match c with Some e => mentions e | None => [] end) E (check_all W n args (check W n e w)))
      by (eapply pre_next; [exact P1|apply incl_appr, incl_refl|exact R2]).
    assert (R3 : res (match c with Some e => marks e | None => [] end) (snd (sem_opt W c E)) (match c with Some e => binds e | None => false end) E E
       (check_all W n args (check W n e w)) (match c with Some ce => check W n ce (check_all W n args (check W n e w)) | None => check_all W n args (check W n e w) end)).
    { destruct c as [c|]; [|apply res_nil]. cbn [sem_opt]. pose proof (H0 E (check_all W n args (check W n e w)) TC) as X.
      rewrite (sem_quiet W c E BC) in X. apply X; [exact P2|eapply NoDup_app_r; exact ND']. }
    eapply res_equiv; [| | |eapply res_seq; [eapply res_seq; [exact R1|exact R2|]|exact R3|]].
    + rewrite app_assoc. apply incl_refl.
    + exact US.
    + cbn [binds]. auto.
    + intros y H1 H2. apply (NoDup_app_d _ _ ND y H1). apply in_app_iff. now left.
    + rewrite app_assoc in ND. apply (NoDup_app_d _ _ ND).
  - (* Show *)
    cbn [tame] in T. rewrite sem_show. apply andb_true_iff in T. destruct T as [T1 T2].
    set (l := match s with Some e => [e] | None => [] end ++ [e]).
    assert (ML : marks_all l = marks (Show s e)) by (unfold l; destruct s; cbn; rewrite ?app_nil_r; reflexivity).
    assert (MT : mentions_all l = mentions (Show s e)) by (unfold l; destruct s; cbn; rewrite ?app_nil_r; reflexivity).
    assert (F : Forall ok l) by (unfold l; destruct s; cbn [app]; foralls).
    assert (TL : tame_all W l E = true) by (unfold l; destruct s; cbn; rewrite ?T1, ?T2; reflexivity).
    assert (X : res (marks_all l) (snd (sem_all W l E)) (binds_all l) E (fst (sem_all W l E)) w (check_all W n l w)).
    { apply ok_all; [exact F|exact TL|rewrite MT; exact P|rewrite ML; exact ND]. }
    rewrite ML in X. eapply (res_equiv _ _ _ _ (binds_all l)); [apply incl_refl|intros y; apply iff_refl| |].
    2:{ cbn [check]. unfold l in X. destruct s as [s|]; [|rewrite init_defer by apply P; exact X].
        rewrite init_defer; [exact X|]. destruct (H E w T1) as [G _].
        - eapply pre_sub; [exact P|apply incl_appl, incl_refl].
        - eapply NoDup_app_l; exact ND.
        - rewrite (g_init _ _ _ _ G). apply P. }
    unfold l. destruct s; cbn; rewrite ?orb_false_r; auto.
  - (* Context *)
    cbn [tame] in T. apply andb_true_iff in T. destruct T as [TB T]. apply negb_true_iff in TB.
    cbn [check sem fst snd marks binds]. rewrite init_defer by apply P.
    pose proof (IHe E w T P ND) as X. rewrite (sem_quiet W e E TB) in X. exact X.
  - (* Field *)
    cbn [tame] in T. apply andb_true_iff in T. destruct T as [T TF]. rewrite sem_field. cbn [fst snd].
    destruct (field_uses W (fst (sem W e E)) e s x); [|discriminate]. rewrite app_nil_r.
    cbn [check marks binds mentions] in *. eapply res_equiv; [apply incl_appl, incl_refl|intros y; apply iff_refl|intros B; exact B|].
    apply IHe; [exact T|exact P|eapply NoDup_app_l; exact ND].
Qed.

End Main.
