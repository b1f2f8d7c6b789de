From Coq Require Import List Arith Bool Lia Sorted Permutation.
From Verif Require Import SimpModel SimpSpec.
Import ListNotations.

Definition opt_prop (P : ty -> Prop) (o : option ty) : Prop := match o with Some t => P t | None => True end.

Section Ind.
  Variable P : ty -> Prop.
  Hypothesis H1 : P TAny.
  Hypothesis H2 : forall n, P (TLeaf n).
  Hypothesis H3 : forall v, P (TVar v).
  Hypothesis H4 : forall l u, Forall P l -> Forall P u -> P (TLet l u).
  Hypothesis H5 : forall l, Forall P l -> P (TUnion l).
  Hypothesis H6 : forall k l, Forall P l -> P (TComp k l).
  Hypothesis H7 : forall k sh l o, Forall P l -> opt_prop P o -> P (TSig k sh l o).
  Hypothesis H8 : forall f sh l o, P f -> Forall P l -> opt_prop P o -> P (TWith f sh l o).
  Fixpoint ty_ind2 (t : ty) : P t :=
    let all := fix go (l : list ty) : Forall P l :=
      match l with [] => Forall_nil _ | x :: l' => Forall_cons _ (ty_ind2 x) (go l') end in
    let opt := fun o : option ty => match o return opt_prop P o with Some b => ty_ind2 b | None => I end in
    match t with
    | TAny => H1 | TLeaf n => H2 n | TVar v => H3 v
    | TLet l u => H4 l u (all l) (all u)
    | TUnion l => H5 l (all l)
    | TComp k l => H6 k l (all l)
    | TSig k sh l o => H7 k sh l o (all l) (opt o)
    | TWith f sh l o => H8 f sh l o (ty_ind2 f) (all l) (opt o)
    end.
End Ind.

(** ** Equality *)

Lemma list_eqb_ok : forall l, Forall (fun a => forall b, ty_eqb a b = true <-> a = b) l ->
  forall l', list_eqb ty_eqb l l' = true <-> l = l'.
Proof.
  induction 1 as [|a l Ha Hl IH]; intros [|b l']; cbn [list_eqb]; try (split; congruence).
  rewrite andb_true_iff, Ha, IH. split; [intros [-> ->]; auto|intro E; inversion E; auto].
Qed.

Lemma opt_eqb_ok : forall o, opt_prop (fun a => forall b, ty_eqb a b = true <-> a = b) o ->
  forall o', opt_eqb ty_eqb o o' = true <-> o = o'.
Proof.
  intros [a|] H [b|]; cbn in *; try (split; congruence). rewrite H. split; congruence.
Qed.

Lemma ck_eqb_ok : forall a b, ck_eqb a b = true <-> a = b.
Proof.
  intros [] []; cbn; try (split; congruence); try (rewrite Nat.eqb_eq; split; congruence).
  destruct (list_eq_dec Nat.eq_dec names names0); split; congruence.
Qed.

Lemma sk_eqb_ok : forall a b, sk_eqb a b = true <-> a = b.
Proof. intros [] []; cbn; split; congruence. Qed.

Lemma ty_eqb_ok : forall a b, ty_eqb a b = true <-> a = b.
Proof.
  induction a using ty_ind2; intros []; cbn [ty_eqb]; try (split; congruence);
    try (rewrite Nat.eqb_eq; split; congruence);
    rewrite ?andb_true_iff, ?Nat.eqb_eq, ?ck_eqb_ok, ?sk_eqb_ok;
    repeat match goal with HF : Forall _ ?l |- _ => rewrite (list_eqb_ok l HF); clear HF end;
    repeat match goal with HF : opt_prop _ ?o |- _ => rewrite (opt_eqb_ok o HF); clear HF end;
    try (rewrite IHa); try (split; [intuition congruence|intro E; inversion E; auto]).
Qed.

Lemma dedup_in : forall l t, In t (dedup l) <-> In t l.
Proof.
  induction l as [|a l IH]; intro t; cbn [dedup]; [tauto|].
  destruct (existsb (ty_eqb a) l) eqn:E; cbn [In]; rewrite IH; [|tauto].
  split; [auto|]. intros [->|H]; auto. apply existsb_exists in E. destruct E as (x & Hx & E). apply ty_eqb_ok in E. subst. auto.
Qed.

Lemma dedup_nodup : forall l, NoDup (dedup l).
Proof.
  induction l as [|a l IH]; cbn [dedup]; [constructor|]. destruct (existsb (ty_eqb a) l) eqn:E; auto.
  constructor; auto. rewrite dedup_in. intro H.
  assert (Ht : existsb (ty_eqb a) l = true) by (apply existsb_exists; exists a; split; auto; apply ty_eqb_ok; auto). congruence.
Qed.

Lemma dedup_id : forall l, NoDup l -> dedup l = l.
Proof.
  induction 1 as [|a l Hn H IH]; cbn [dedup]; auto. destruct (existsb (ty_eqb a) l) eqn:E; [|rewrite IH; auto].
  exfalso. apply existsb_exists in E. destruct E as (x & Hx & E). apply ty_eqb_ok in E. subst. auto.
Qed.

(** ** Sorting *)

Lemma insert_perm : forall ord t l, Permutation (t :: l) (insert ord t l).
Proof.
  induction l as [|u l IH]; cbn [insert]; auto. destruct (ord t u); auto.
  etransitivity; [apply perm_swap|]. constructor. exact IH.
Qed.

Lemma sort_perm : forall ord l, Permutation l (sort ord l).
Proof.
  induction l as [|t l IH]; cbn [sort fold_right]; auto.
  etransitivity; [constructor; exact IH|]. apply insert_perm.
Qed.

Lemma insert_sorted : forall ord t l, total ord -> Sorted (fun a b => ord a b = true) l ->
  Sorted (fun a b => ord a b = true) (insert ord t l).
Proof.
  intros ord t l HT H. induction H as [|u l H IH Hd]; cbn [insert]; [repeat constructor|].
  destruct (ord t u) eqn:E; [constructor; [constructor; auto|constructor; auto]|].
  constructor; [exact IH|]. assert (Ho : ord u t = true) by (destruct (HT t u); congruence).
  inversion Hd; subst; cbn [insert]; [constructor; auto|]. destruct (ord t b); constructor; auto.
Qed.

Lemma sort_sorted : forall ord l, total ord -> Sorted (fun a b => ord a b = true) (sort ord l).
Proof.
  intros ord l HT. induction l as [|t l IH]; cbn [sort fold_right]; [constructor|]. apply insert_sorted; auto.
Qed.

Lemma sort_id : forall ord l, Sorted (fun a b => ord a b = true) l -> sort ord l = l.
Proof.
  induction 1 as [|t l H IH Hd]; cbn [sort fold_right]; auto. change (fold_right (insert ord) [] l) with (sort ord l).
  rewrite IH. inversion Hd; subst; cbn [insert]; auto. rewrite H0. auto.
Qed.

Lemma sort_in : forall ord l t, In t (sort ord l) <-> In t l.
Proof. intros. split; apply Permutation_in; [apply Permutation_sym|]; apply sort_perm. Qed.

Lemma sort_set : forall ord l, total ord -> sorted_set ord l (sort ord (dedup l)).
Proof.
  intros ord l HT. split; [|split].
  - intro t. rewrite sort_in, dedup_in. tauto.
  - eapply Permutation_NoDup; [apply sort_perm|apply dedup_nodup].
  - apply sort_sorted; auto.
Qed.

Lemma sort_length : forall ord l, length (sort ord l) = length l.
Proof. intros. symmetry. apply Permutation_length, sort_perm. Qed.

Lemma dedup_nil : forall l, dedup l = [] -> l = [].
Proof. intros [|t l] H; auto. assert (Hi : In t (dedup (t :: l))) by (apply dedup_in; left; auto). rewrite H in Hi. destruct Hi. Qed.

Lemma dedup_one : forall l t, dedup l = [t] -> In t l /\ forall t', In t' l -> t' = t.
Proof.
  intros l t H. split.
  - apply dedup_in. rewrite H. left; auto.
  - intros t' Hi. apply dedup_in in Hi. rewrite H in Hi. destruct Hi as [?|[]]; auto.
Qed.

Lemma collapse_frozen : forall ord l u, total ord -> frozen ord l u (collapse ord (dedup l) (dedup u)).
Proof.
  intros ord l u HT. unfold collapse.
  assert (HB : 2 <= length (dedup l) + length (dedup u) -> frozen ord l u (TLet (sort ord (dedup l)) (sort ord (dedup u)))).
  { intro H. apply frozen_both; try apply sort_set; auto. rewrite !sort_length. exact H. }
  destruct (dedup l) as [|x [|y dl]] eqn:El, (dedup u) as [|x' [|y' du]] eqn:Eu; cbn [length] in HB;
    try (apply HB; lia).
  - apply frozen_none; apply dedup_nil; auto.
  - apply dedup_one in Eu. apply dedup_nil in El. apply frozen_high; tauto.
  - apply dedup_one in El. apply dedup_nil in Eu. apply frozen_low; tauto.
Qed.

Lemma filter_without : forall l, without_any l (filter (fun t => negb (is_any t)) l).
Proof.
  induction l as [|t l IH]; cbn [filter]; [constructor|].
  destruct t; cbn [is_any negb]; constructor; auto; discriminate.
Qed.

Lemma from_joined : forall ord l, total ord -> joined ord l (from_types ord (filter (fun t => negb (is_any t)) l)).
Proof.
  intros ord l HT. pose proof (filter_without l) as H. destruct (filter (fun t => negb (is_any t)) l) as [|a [|b p]] eqn:E; cbn [from_types].
  - apply joined_none; auto.
  - apply joined_one; auto.
  - eapply joined_more; [exact H|apply sort_perm|apply sort_sorted; auto|rewrite sort_length; cbn; lia].
Qed.

(** ** The map of variables *)

Lemma get_in : forall A (l : list (nat * A)) k a, get k l = Some a -> In (k, a) l.
Proof.
  induction l as [|(x, b) l IH]; intros k a H; cbn in H; [discriminate|].
  destruct (Nat.eqb_spec k x); [inversion H; subst; left; auto|right; auto].
Qed.

Lemma get_nodup : forall A (l : list (nat * A)) k a, NoDup (map fst l) -> In (k, a) l -> get k l = Some a.
Proof.
  induction l as [|(x, b) l IH]; intros k a HN HI; [destruct HI|]. cbn in *. inversion HN; subst.
  destruct HI as [E|HI]; [inversion E; subst; rewrite Nat.eqb_refl; auto|].
  destruct (Nat.eqb_spec k x); [|auto]. subst. exfalso. apply H1. apply in_map_iff. exists (x, a). auto.
Qed.

Lemma get_some : forall A (l : list (nat * A)) k, In k (map fst l) <-> exists a, get k l = Some a.
Proof.
  induction l as [|(x, b) l IH]; intro k; cbn; [split; [tauto|intros (a & H); discriminate]|].
  destruct (Nat.eqb_spec k x).
  - subst. split; eauto.
  - rewrite <- IH. split; [intros [E|H]; [congruence|auto]|auto].
Qed.

Lemma mem_in : forall v s, mem v s = true <-> In v s.
Proof.
  intros. unfold mem. rewrite existsb_exists. split; [intros (x & H & E); apply Nat.eqb_eq in E; subst; auto|].
  intro H. exists v. split; auto. apply Nat.eqb_refl.
Qed.

(** ** How much fuel is left: the variables not yet met *)

Definition left_of (V : vars) (s : list nat) : nat := length (filter (fun v => negb (mem v s)) (map fst V)).

Lemma filter_le : forall A (f g : A -> bool) l, (forall a, In a l -> f a = true -> g a = true) ->
  length (filter f l) <= length (filter g l).
Proof.
  induction l as [|a l IH]; intros H; cbn; auto.
  assert (IH' := IH (fun b Hb => H b (or_intror Hb))). specialize (H a (or_introl eq_refl)).
  destruct (f a); [rewrite H by auto; cbn; lia|]. destruct (g a); cbn; lia.
Qed.

Lemma filter_lt : forall A (f g : A -> bool) l x, (forall a, In a l -> f a = true -> g a = true) ->
  In x l -> f x = false -> g x = true -> length (filter f l) < length (filter g l).
Proof.
  induction l as [|a l IH]; intros x H HI Hf Hg; [destruct HI|]. cbn.
  assert (Hl := filter_le A f g l (fun b Hb => H b (or_intror Hb))).
  destruct HI as [->|HI].
  - rewrite Hf, Hg. cbn. lia.
  - assert (IH' := IH x (fun b Hb => H b (or_intror Hb)) HI Hf Hg). specialize (H a (or_introl eq_refl)).
    destruct (f a); [rewrite H by auto; cbn; lia|]. destruct (g a); cbn; lia.
Qed.

Lemma left_mono : forall V s s', incl s s' -> left_of V s' <= left_of V s.
Proof.
  intros V s s' H. apply filter_le. intros a _ Ha. apply negb_true_iff in Ha. apply negb_true_iff.
  destruct (mem a s) eqn:E; auto. apply mem_in in E. apply H, mem_in in E. congruence.
Qed.

Lemma left_less : forall V s v, In v (map fst V) -> ~ In v s -> left_of V (v :: s) < left_of V s.
Proof.
  intros V s v HI HN. apply filter_lt with (x := v); auto.
  - intros a _ Ha. apply negb_true_iff in Ha. apply negb_true_iff. destruct (mem a s) eqn:E; auto.
    apply mem_in in E. assert (mem a (v :: s) = true) by (apply mem_in; right; auto). congruence.
  - apply negb_false_iff, mem_in. left; auto.
  - apply negb_true_iff. destruct (mem v s) eqn:E; auto. apply mem_in in E. tauto.
Qed.

Lemma left_pos : forall V s v, In v (map fst V) -> ~ In v s -> 0 < left_of V s.
Proof. intros. pose proof (left_less V s v H H0). lia. Qed.

Lemma left_all : forall V s, left_of V s <= length V.
Proof.
  intros. unfold left_of. rewrite <- (map_length fst V). induction (map fst V) as [|a l IH]; cbn; auto.
  destruct (negb (mem a s)); cbn; lia.
Qed.

(** ** The analysis does not fail *)

Definition grows (s s' : list nat * list nat) : Prop := incl (fst s) (fst s') /\ incl (snd s) (snd s').
Lemma grows_refl : forall s, grows s s.
Proof. intros; split; apply incl_refl. Qed.
Lemma grows_trans : forall a b c, grows a b -> grows b c -> grows a c.
Proof. intros a b c (A & B) (C & D). split; eapply incl_tran; eauto. Qed.

Lemma known_in : forall V l, (forall v, In v (flat_map tvars l) -> In v (map fst V)) -> Forall (known V) l.
Proof. intros V l H. apply Forall_forall. intros t Ht v Hv. apply H. apply in_flat_map. eauto. Qed.

Section Analyze.
  Variable V : vars.
  Variable var : nat -> bool -> list nat * list nat -> option (list nat * list nat).
  Variable n : nat.
  Hypothesis Hvar : forall v pol s, In v (map fst V) -> left_of V (fst s) + left_of V (snd s) <= n ->
    exists s', var v pol s = Some s' /\ grows s s'.

  Lemma each_ok : forall (f : ty -> list nat * list nat -> option (list nat * list nat)) l s,
    Forall (fun t => forall s, left_of V (fst s) + left_of V (snd s) <= n -> exists s', f t s = Some s' /\ grows s s') l ->
    left_of V (fst s) + left_of V (snd s) <= n ->
    exists s', each f l s = Some s' /\ grows s s'.
  Proof.
    intros f l s H. revert s. induction H as [|t l Ht Hl IH]; intros s Hs; cbn [each].
    - exists s. split; auto. apply grows_refl.
    - destruct (Ht s Hs) as (s1 & -> & G1).
      assert (Hs1 : left_of V (fst s1) + left_of V (snd s1) <= n).
      { destruct G1 as (A & B). pose proof (left_mono V _ _ A). pose proof (left_mono V _ _ B). lia. }
      destruct (IH s1 Hs1) as (s2 & H2 & G2). exists s2. split; [exact H2|]. eapply grows_trans; eauto.
  Qed.

  Lemma step_ok : forall s s1, left_of V (fst s) + left_of V (snd s) <= n -> grows s s1 ->
    left_of V (fst s1) + left_of V (snd s1) <= n.
  Proof. intros s s1 H (A & B). pose proof (left_mono V _ _ A). pose proof (left_mono V _ _ B). lia. Qed.

  Lemma analyze_at_ok : forall t pol s, known V t -> left_of V (fst s) + left_of V (snd s) <= n ->
    exists s', analyze_at var pol t s = Some s' /\ grows s s'.
  Proof.
    induction t as [|m|v|l u Hl Hu|l Hl|k l Hl|k sh l o Hl Ho|f sh l o Hf Hl Ho] using ty_ind2; intros pol s HK Hs; cbn [analyze_at].
    - exists s. split; auto. apply grows_refl.
    - exists s. split; auto. apply grows_refl.
    - apply Hvar; auto. apply HK. left; auto.
    - assert (Kl : Forall (known V) l) by (apply known_in; intros; apply HK; cbn; apply in_or_app; auto).
      assert (Ku : Forall (known V) u) by (apply known_in; intros; apply HK; cbn; apply in_or_app; auto).
      destruct (each_ok (analyze_at var (negb pol)) l s) as (s1 & -> & G1); auto.
      { rewrite Forall_forall in *. intros; auto. }
      destruct (each_ok (analyze_at var pol) u s1) as (s2 & -> & G2).
      { rewrite Forall_forall in *. intros; auto. }
      { eapply step_ok; eauto. }
      exists s2. split; auto. eapply grows_trans; eauto.
    - assert (Kl : Forall (known V) l) by (apply known_in; intros; apply HK; auto).
      apply each_ok; auto. rewrite Forall_forall in *. intros; auto.
    - assert (Kl : Forall (known V) l) by (apply known_in; intros; apply HK; auto).
      apply each_ok; auto. rewrite Forall_forall in *. intros; auto.
    - assert (Kl : Forall (known V) l) by (apply known_in; intros; apply HK; cbn; apply in_or_app; auto).
      assert (HE : forall pol, exists s', each (analyze_at var pol) l s = Some s' /\ grows s s').
      { intro p. apply each_ok; auto. rewrite Forall_forall in *. intros; auto. }
      destruct k; try apply HE. destruct (HE (negb pol)) as (s1 & -> & G1). destruct o as [b|]; cbn [maybe].
      + destruct (Ho pol s1) as (s2 & H2 & G2).
        { intros v Hv. apply HK. cbn. apply in_or_app; auto. }
        { eapply step_ok; eauto. }
        exists s2. split; auto. eapply grows_trans; eauto.
      + exists s1. split; auto.
    - assert (Kl : Forall (known V) l) by (apply known_in; intros; apply HK; cbn; apply in_or_app; right; apply in_or_app; auto).
      destruct (Hf pol s) as (s1 & -> & G1); auto.
      { intros v Hv. apply HK. cbn. apply in_or_app; auto. }
      destruct (each_ok (analyze_at var pol) l s1) as (s2 & H2 & G2).
      { rewrite Forall_forall in *. intros; auto. }
      { eapply step_ok; eauto. }
      exists s2. split; auto. eapply grows_trans; eauto.
  Qed.
End Analyze.

Lemma analyze_var_ok : forall V, closed V -> forall n v pol s, In v (map fst V) ->
  left_of V (fst s) + left_of V (snd s) <= n ->
  exists s', analyze_var n V v pol s = Some s' /\ grows s s'.
Proof.
  intros V HC. induction n as [|n IH]; intros v pol (ps, ns) HI Hs; cbn [analyze_var fst snd] in *;
    destruct (proj1 (get_some _ V v) HI) as ((l, u) & E); rewrite E;
    destruct (mem v (if pol then ps else ns)) eqn:EM.
  - eexists. split; auto. apply grows_refl.
  - exfalso. assert (HN : ~ In v (if pol then ps else ns)) by (intro X; apply mem_in in X; congruence).
    pose proof (left_pos V _ v HI HN). destruct pol; lia.
  - eexists. split; auto. apply grows_refl.
  - assert (HN : ~ In v (if pol then ps else ns)) by (intro X; apply mem_in in X; congruence).
    pose proof (left_less V _ v HI HN) as HL. apply get_in in E. destruct HC as (_ & HC).
    assert (HT : forall t, In t (l ++ u) -> forall s, left_of V (fst s) + left_of V (snd s) <= n ->
       exists s', analyze_at (analyze_var n V) pol t s = Some s' /\ grows s s').
    { intros t Ht s Hs'. apply analyze_at_ok with (V := V) (n := n); auto. eapply HC; eauto. }
    destruct pol.
    + destruct (each_ok V n (analyze_at (analyze_var n V) true) l (v :: ps, ns)) as (s' & H & G).
      { apply Forall_forall. intros t Ht. apply HT. apply in_or_app; auto. }
      { cbn [fst snd]. lia. }
      exists s'. split; auto. eapply grows_trans; [|exact G]. split; cbn; [apply incl_tl|]; apply incl_refl.
    + destruct (each_ok V n (analyze_at (analyze_var n V) false) u (ps, v :: ns)) as (s' & H & G).
      { apply Forall_forall. intros t Ht. apply HT. apply in_or_app; auto. }
      { cbn [fst snd]. lia. }
      exists s'. split; auto. eapply grows_trans; [|exact G]. split; cbn; [|apply incl_tl]; apply incl_refl.
Qed.

Lemma analyze_total : forall V t, closed V -> known V t ->
  exists s, analyze_at (analyze_var (2 * length V) V) true t ([], []) = Some s.
Proof.
  intros V t HC HK.
  destruct (analyze_at_ok V (analyze_var (2 * length V) V) (2 * length V) (analyze_var_ok V HC _) t true ([], []) HK) as (s & H & _).
  { cbn [fst snd]. pose proof (left_all V []). lia. }
  eauto.
Qed.
