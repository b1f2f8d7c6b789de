(** Theorems about the simplification of types. *)
From Coq Require Import List Arith Bool Lia Sorted Permutation.
From Verif Require Import SimpModel SimpSpec SimpProof SimpRunProof.
Import ListNotations.

Lemma simplify_run : forall ord V t p r, simplify ord V t p = Some r -> exists s c, run ord p s V true t [] r c.
Proof.
  intros ord V t p r H. unfold simplify in H.
  destruct (analyze_at _ true t _) as [s|]; [|discriminate].
  destruct (transform_at _ _ _ _ _ _ _) as [(r', c)|] eqn:E; [|discriminate]. inversion H; subst.
  exists s, c. eapply transform_run; eauto.
Qed.

(** ** C119: there is a result, and no variable is left in it *)

Theorem C119_total : forall ord V t p, closed V -> known V t -> exists r, simplify ord V t p = Some r.
Proof.
  intros ord V t p HC HK. unfold simplify. destruct (analyze_total V t HC HK) as (s & ->).
  destruct (transform_total ord p s V HC t HK) as (r & c & ->). eauto.
Qed.
Print Assumptions C119_total.

Theorem C119_ground : forall ord V t p r, simplify ord V t p = Some r -> tvars r = [].
Proof.
  intros ord V t p r H. apply simplify_run in H. destruct H as (s & c & H).
  apply (proj1 (run_novar ord p s V)) in H; [|intros v x E; discriminate]. destruct H as (H & _).
  destruct (tvars r) as [|v l] eqn:E; auto. exfalso. apply (H v). rewrite E. left; auto.
Qed.
Print Assumptions C119_ground.

(** The variables met from a type. *)
Inductive meets (V : vars) : ty -> nat -> Prop :=
| meets_here t v : In v (tvars t) -> meets V t v
| meets_bound t v l u b w : In v (tvars t) -> In (v, (l, u)) V -> In b (l ++ u) -> meets V b w -> meets V t w.

Lemma run_known : forall ord p s V,
  (forall pol t c r c', run ord p s V pol t c r c' -> forall v, In v (map fst c') -> In v (map fst c) \/ In v (map fst V)) /\
  (forall pol l c l' c', run_seq ord p s V pol l c l' c' -> forall v, In v (map fst c') -> In v (map fst c) \/ In v (map fst V)) /\
  (forall pol o c o' c', run_opt ord p s V pol o c o' c' -> forall v, In v (map fst c') -> In v (map fst c) \/ In v (map fst V)) /\
  (forall b pol l c l' c', run_part ord p s V b pol l c l' c' -> forall v, In v (map fst c') -> In v (map fst c) \/ In v (map fst V)).
Proof.
  intros ord p s V. apply run_ind4; intros; auto.
  - assert (X : forall w, w = v -> In w (map fst V)) by (intros w ->; apply get_some; eauto).
    destruct H5 as [H5|H5]; [right; apply X; auto|].
    destruct (H4 _ H5) as [H6|H6]; auto. destruct (H2 _ H6) as [[H7|H7]|H7]; auto.
  - destruct (H2 _ H3); auto.
  - destruct (H2 _ H3); auto.
  - destruct (H4 _ H5); auto. destruct (H2 _ H6); auto.
  - destruct (H2 _ H3); auto.
Qed.

(** A variable without bounds that is met is a panic. *)
Theorem C119_known : forall ord V t r, NoDup (map fst V) -> simplify ord V t false = Some r ->
  forall v, meets V t v -> In v (map fst V).
Proof.
  intros ord V t r HN H v Hv. apply simplify_run in H. destruct H as (s & c & H).
  pose proof (proj1 (run_known ord false s V) _ _ _ _ _ H) as HK.
  assert (HD : forall w, In w (map fst c) -> In w (map fst V)) by (intros w Hw; destruct (HK w Hw) as [[]|]; auto).
  destruct (proj1 (run_complete ord V HN s) _ _ _ _ _ H) as (_ & B & _ & C).
  apply HD. clear H HK. induction Hv as [t v Hv|t v l u b w Hv Hi Hb Hw IH]; [apply B; auto|].
  apply IH. destruct (C v l u b) as (_ & D); auto.
Qed.
Print Assumptions C119_known.

Definition le_size (a b : ty) : bool :=
  match a, b with
  | TLeaf n, TLeaf m => n <=? m
  | TLeaf _, _ => true
  | _, TLeaf _ => false
  | _, _ => true
  end.

(** Two variables bounded by each other, and by an integer and a string. *)
Definition ring : vars := [(0, ([TVar 1; TLeaf 1], [])); (1, ([TVar 0; TLeaf 2], []))].

Lemma ring_closed : closed ring.
Proof.
  split; [repeat constructor; cbn; intuition congruence|].
  intros v l u b [E|[E|[]]] Hb w Hw; inversion E; subst; cbn in Hb;
    destruct Hb as [<-|[<-|[]]]; cbn in Hw; try contradiction; destruct Hw as [<-|[]]; cbn; auto.
Qed.

Example C119_nonvacuous :
  closed ring /\ known ring (TComp CTuple [TVar 0; TSig SFunc 0 [TVar 1] (Some (TVar 0))]) /\
  simplify le_size ring (TComp CTuple [TVar 0; TSig SFunc 0 [TVar 1] (Some (TVar 0))]) false =
    Some (TComp CTuple [TLet [TLeaf 1; TLet [TLeaf 2; TAny] []] [];
      TSig SFunc 0 [TLet [TLeaf 2; TAny] []] (Some (TLet [TLeaf 1; TLet [TLeaf 2; TAny] []] []))]) /\
  simplify le_size ring (TVar 2) false = None.
Proof.
  split; [exact ring_closed|]. split.
  - intros v Hv. cbn in Hv. cbn. intuition.
  - split; vm_compute; reflexivity.
Qed.

(** ** C120: what the result tells *)

Theorem C120_labels : forall ord V t r, NoDup (map fst V) -> simplify ord V t false = Some r ->
  forall x, In x (labels r) <-> reach V t x.
Proof.
  intros ord V t r HN H. apply simplify_run in H. destruct H as (s & c & H). eapply labels_exact; eauto.
Qed.
Print Assumptions C120_labels.

(** Of the principal type only that it invents nothing. *)
Theorem C120_principal : forall ord V t r, simplify ord V t true = Some r -> forall x, In x (labels r) -> reach V t x.
Proof.
  intros ord V t r H x Hx. apply simplify_run in H. destruct H as (s & c & H).
  eapply (proj1 (run_sound ord V true s)); eauto. intros v r' y E. discriminate.
Qed.
Print Assumptions C120_principal.

Example C120_nonvacuous :
  NoDup (map fst ring) /\ simplify le_size ring (TVar 1) false = Some (TLet [TLeaf 2; TLet [TLeaf 1; TAny] []] []) /\
  reach ring (TVar 1) (LLeaf 1) /\ ~ reach ring (TVar 1) (LLeaf 3).
Proof.
  assert (E : simplify le_size ring (TVar 1) false = Some (TLet [TLeaf 2; TLet [TLeaf 1; TAny] []] [])) by (vm_compute; reflexivity).
  assert (N : NoDup (map fst ring)) by apply ring_closed.
  split; [exact N|]. split; [exact E|]. split.
  - apply (proj1 (C120_labels le_size ring (TVar 1) _ N E _)). cbn. auto.
  - intro H. apply (proj2 (C120_labels le_size ring (TVar 1) _ N E _)) in H. cbn in H. intuition congruence.
Qed.

(** ** C121: without cycles every variable is replaced by its bounds *)

Theorem C121_exact : forall ord V t r, total ord -> acyclic V -> simplify ord V t false = Some r -> simp ord V t r.
Proof.
  intros ord V t r HT (rank & HR) H. apply simplify_run in H. destruct H as (s & c & H). eapply simp_exact; eauto.
Qed.
Print Assumptions C121_exact.

(** That determines the result. *)
Theorem C121_unique : forall ord V t r, linear ord -> NoDup (map fst V) -> simplify ord V t false = Some r -> acyclic V ->
  forall r', simp ord V t r' -> r' = r.
Proof.
  intros ord V t r HL HN H HA r' Hr. eapply simp_det; eauto. apply C121_exact; auto. apply HL.
Qed.
Print Assumptions C121_unique.

(** The order in which the bounds are, and how often, does not matter. *)
Theorem C121_sets : forall ord V V' t r r', linear ord -> NoDup (map fst V) -> NoDup (map fst V') -> acyclic V -> acyclic V' ->
  same_bounds V V' -> simplify ord V t false = Some r -> simplify ord V' t false = Some r' -> r = r'.
Proof.
  intros ord V V' t r r' HL HN HN' HA HA' HS H H'. apply C121_exact in H; auto; [|apply HL]. apply C121_exact in H'; auto; [|apply HL].
  eapply simp_det; [exact HL|exact HN'| |exact H']. eapply simp_sets; eauto.
Qed.
Print Assumptions C121_sets.

(** With cycles a variable may stand for less at one place than at another, or
    than alone: the tuple of [0] and [1] has no [TLeaf 1] in its second part. *)
Example C121_cycle :
  exists a b a', simplify le_size ring (TComp CTuple [TVar 0; TVar 1]) false = Some (TComp CTuple [a; b]) /\
    simplify le_size ring (TVar 1) false = Some a' /\ In (LLeaf 1) (labels a') /\ ~ In (LLeaf 1) (labels b).
Proof.
  eexists _, _, _. split; [vm_compute; reflexivity|]. split; [vm_compute; reflexivity|]. cbn. intuition congruence.
Qed.

(** A linear order of types: that of their codes. *)
Definition code_ck (k : ckind) : list nat :=
  match k with
  | CDict names => 0 :: flat_map (fun n => [1; n]) names ++ [0]
  | CTuple => [1] | CArray => [2] | CSelect f => [3; f] | CUnary o => [4; o] | CBinary o => [5; o] | CIf => [6] | CParam p => [7; p]
  end.
Definition code_sk (k : skind) : nat := match k with SFunc => 0 | SArgs => 1 | SPattern => 2 end.
Fixpoint code (t : ty) : list nat :=
  let many := fun l => flat_map (fun t => 1 :: code t) l ++ [0] in
  let one := fun o => match o with Some b => 1 :: code b | None => [0] end in
  match t with
  | TLeaf n => [0; n]
  | TAny => [1]
  | TVar v => [2; v]
  | TLet l u => 3 :: many l ++ many u
  | TUnion l => 4 :: many l
  | TComp k l => 5 :: code_ck k ++ many l
  | TSig k sh l o => 6 :: code_sk k :: sh :: many l ++ one o
  | TWith f sh l o => 7 :: code f ++ sh :: many l ++ one o
  end.
Fixpoint lex (a b : list nat) : bool :=
  match a, b with
  | [], _ => true
  | _ :: _, [] => false
  | x :: a', y :: b' => (x <? y) || ((x =? y) && lex a' b')
  end.
Definition le_code (a b : ty) : bool := lex (code a) (code b).

Lemma names_inj : forall l l' x y, flat_map (fun n => [1; n]) l ++ 0 :: x = flat_map (fun n => [1; n]) l' ++ 0 :: y -> l = l' /\ x = y.
Proof.
  induction l as [|n l IH]; intros [|m l'] x y H; cbn in H; inversion H; auto. apply IH in H2. destruct H2; subst; auto.
Qed.

Lemma ck_inj : forall k k' x y, code_ck k ++ x = code_ck k' ++ y -> k = k' /\ x = y.
Proof.
  intros k k' x y H. destruct k, k'; cbn in H; inversion H; subst; auto.
  rewrite <- !app_assoc in H1. cbn in H1. apply names_inj in H1. destruct H1; subst; auto.
Qed.

Lemma code_inj : forall a b x y, code a ++ x = code b ++ y -> a = b /\ x = y.
Proof.
  assert (HM : forall l, Forall (fun a => forall b x y, code a ++ x = code b ++ y -> a = b /\ x = y) l ->
    forall l' x y, flat_map (fun t => 1 :: code t) l ++ 0 :: x = flat_map (fun t => 1 :: code t) l' ++ 0 :: y -> l = l' /\ x = y).
  { intros l H. induction H as [|t l Ht _ IH]; intros [|t' l'] x y E; cbn in E; inversion E; auto.
    rewrite <- !app_assoc in H0. apply Ht in H0. destruct H0 as (-> & H0). apply IH in H0. destruct H0; subst; auto. }
  assert (HO : forall o, opt_prop (fun a => forall b x y, code a ++ x = code b ++ y -> a = b /\ x = y) o -> forall o' x y,
    match o with Some b => 1 :: code b | None => [0] end ++ x = match o' with Some b => 1 :: code b | None => [0] end ++ y -> o = o' /\ x = y).
  { intros [a|] H [b|] x y E; cbn in E; inversion E; auto. apply H in H1. destruct H1; subst; auto. }
  induction a as [|m|v|l u Hl Hu|l Hl|k l Hl|k sh l o Hl Ho|f sh l o Hf Hl Ho] using ty_ind2; intros b x y E; destruct b; cbn in E;
    inversion E; subst; auto.
  - rewrite <- !app_assoc in H0. cbn in H0. apply HM in H0; auto. destruct H0 as (-> & H0).
    apply HM in H0; auto. destruct H0; subst; auto.
  - rewrite <- !app_assoc in H0. cbn in H0. apply HM in H0; auto. destruct H0; subst; auto.
  - rewrite <- !app_assoc in H0. apply ck_inj in H0. destruct H0 as (-> & H0). cbn in H0. apply HM in H0; auto. destruct H0; subst; auto.
  - rewrite <- !app_assoc in H2. cbn in H2. apply HM in H2; auto. destruct H2 as (-> & H2). apply HO in H2; auto. destruct H2; subst.
    split; auto. f_equal. destruct k, k0; cbn in H0; auto; discriminate.
  - rewrite <- !app_assoc in H0. apply Hf in H0. destruct H0 as (-> & H0). cbn in H0. inversion H0; subst. rewrite <- !app_assoc in H2.
    cbn in H2. apply HM in H2; auto. destruct H2 as (-> & H2). apply HO in H2; auto. destruct H2; subst; auto.
Qed.

Lemma le_code_linear : linear le_code.
Proof.
  assert (T : forall a b, lex a b = true \/ lex b a = true).
  { induction a as [|x a IH]; intros [|y b]; cbn [lex]; auto. rewrite !orb_true_iff, !andb_true_iff, !Nat.ltb_lt, !Nat.eqb_eq.
    destruct (IH b), (lt_eq_lt_dec x y) as [[|]|]; auto. }
  assert (A : forall a b, lex a b = true -> lex b a = true -> a = b).
  { induction a as [|x a IH]; intros [|y b]; cbn [lex]; try discriminate; auto.
    rewrite !orb_true_iff, !andb_true_iff, !Nat.ltb_lt, !Nat.eqb_eq. intros [H|(H1 & H2)] [G|(G1 & G2)]; try lia. subst. f_equal. auto. }
  assert (R : forall a b c, lex a b = true -> lex b c = true -> lex a c = true).
  { induction a as [|x a IH]; intros [|y b] [|z c]; cbn [lex]; try discriminate; auto.
    rewrite !orb_true_iff, !andb_true_iff, !Nat.ltb_lt, !Nat.eqb_eq. intros [H|(H1 & H2)] [G|(G1 & G2)]; try (left; lia).
    right. subst. split; eauto. }
  split; [intros a b; apply T|]. split; [|intros a b c; apply R].
  intros a b H1 H2. destruct (code_inj a b [] []) as (E & _); auto. rewrite !app_nil_r. apply A; auto.
Qed.

Definition chain : vars := [(0, ([TVar 1; TLeaf 1; TVar 1], [TLeaf 3])); (1, ([TLeaf 4; TLeaf 2], []))].
Definition chain' : vars := [(1, ([TLeaf 2; TLeaf 4; TLeaf 2], [])); (0, ([TLeaf 1; TVar 1], [TLeaf 3]))].

Example C121_nonvacuous :
  acyclic chain /\ acyclic chain' /\ same_bounds chain chain' /\ linear le_code /\
  simplify le_code chain (TComp CTuple [TVar 0; TVar 1]) false =
    Some (TComp CTuple [TLet [TLeaf 1; TLet [TLeaf 2; TLeaf 4] []] [TLeaf 3]; TLet [TLeaf 2; TLeaf 4] []]) /\
  simplify le_code chain' (TComp CTuple [TVar 0; TVar 1]) false =
    Some (TComp CTuple [TLet [TLeaf 1; TLet [TLeaf 2; TLeaf 4] []] [TLeaf 3]; TLet [TLeaf 2; TLeaf 4] []]).
Proof.
  split; [exists (fun v => 1 - v); intros v l u b w [E|[E|[]]] Hb Hw; inversion E; subst; cbn in Hb;
    repeat (destruct Hb as [<-|Hb]; [cbn in Hw; intuition lia|]); destruct Hb|].
  split; [exists (fun v => 1 - v); intros v l u b w [E|[E|[]]] Hb Hw; inversion E; subst; cbn in Hb;
    repeat (destruct Hb as [<-|Hb]; [cbn in Hw; intuition lia|]); destruct Hb|].
  split.
  { intros v l u [E|[E|[]]]; inversion E; subst; eexists _, _; cbn; (split; [eauto|]); split; intro; cbn; intuition. }
  split; [exact le_code_linear|].
  split; vm_compute; reflexivity.
Qed.

(** ** C122: the result is simplified to itself *)

Theorem C122_normal : forall ord V t p r, total ord -> simplify ord V t p = Some r -> normal ord r.
Proof.
  intros ord V t p r HT H. apply simplify_run in H. destruct H as (s & c & H).
  apply (proj1 (run_normal ord HT p s V)) in H; [tauto|]. intros v x E. discriminate.
Qed.
Print Assumptions C122_normal.

Theorem C122_again : forall ord V t p r, total ord -> simplify ord V t p = Some r ->
  forall V', closed V' -> simplify ord V' r false = Some r.
Proof.
  intros ord V t p r HT H V' HC. pose proof (C122_normal ord V t p r HT H) as HN.
  assert (HK : known V' r) by (intros v Hv; apply normal_novar in HN; destruct (HN v Hv)).
  unfold simplify. destruct (analyze_total V' r HC HK) as (s & ->). rewrite normal_id; auto.
Qed.
Print Assumptions C122_again.

(** What is normal is left as it is. *)
Theorem C122_fixed : forall ord V r, total ord -> closed V -> normal ord r -> simplify ord V r false = Some r.
Proof.
  intros ord V r HT HC HN.
  assert (HK : known V r) by (intros v Hv; apply normal_novar in HN; destruct (HN v Hv)).
  unfold simplify. destruct (analyze_total V r HC HK) as (s & ->). rewrite normal_id; auto.
Qed.
Print Assumptions C122_fixed.

Example C122_nonvacuous :
  total le_size /\ simplify le_size ring (TUnion [TVar 0; TAny; TLeaf 0]) false =
    Some (TUnion [TLeaf 0; TLet [TLeaf 1; TLet [TLeaf 2; TAny] []] []]) /\
  simplify le_size [] (TUnion [TLeaf 0; TLet [TLeaf 1; TLet [TLeaf 2; TAny] []] []]) false =
    Some (TUnion [TLeaf 0; TLet [TLeaf 1; TLet [TLeaf 2; TAny] []] []]).
Proof.
  split; [intros a b; destruct a, b; cbn; auto; rewrite !Nat.leb_le; lia|]. split; vm_compute; reflexivity.
Qed.
