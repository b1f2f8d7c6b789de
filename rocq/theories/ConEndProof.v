(** Proofs about sequences of constraints, calls and weakenings. *)
From Coq Require Import List Arith Bool Sorted Lia.
From Verif Require Import SimpModel SimpProof ConModel ConSpec ConProof ConRunProof.
Import ListNotations.

Lemma list_eqb_sg : forall l l', list_eqb sg_eqb l l' = true <-> l = l'.
Proof.
  assert (G : forall a b, sg_eqb a b = true <-> a = b).
  { intros (s, i, o) (s', i', o'). unfold sg_eqb. cbn. rewrite !andb_true_iff, Nat.eqb_eq.
    rewrite list_eqb_ok by (apply Forall_forall; intros; apply ty_eqb_ok).
    rewrite opt_eqb_ok by (destruct o; cbn; auto; intros; apply ty_eqb_ok).
    split; [intros ((-> & ->) & ->); auto|]. intros E. injection E as -> -> ->. auto. }
  induction l as [|a l IH]; intros [|b l']; cbn; split; try discriminate; auto.
  - rewrite andb_true_iff, G, IH. intros (-> & ->). auto.
  - intros E. injection E as -> ->. rewrite andb_true_iff, G, IH. auto.
Qed.
Lemma sg_eqb_ok a b : sg_eqb a b = true <-> a = b.
Proof.
  pose proof (list_eqb_sg [a] [b]) as H. cbn in H. rewrite andb_true_r in H. rewrite H. split; [congruence|intros ->; auto].
Qed.
Lemma call_eqb_ok a b : call_eqb a b = true <-> a = b.
Proof.
  destruct a as [g a w], b as [g' a' w']. unfold call_eqb. cbn. rewrite !andb_true_iff, !sg_eqb_ok.
  assert (O : opt_eqb (list_eqb sg_eqb) w w' = true <-> w = w').
  { destruct w, w'; cbn; try (split; congruence). rewrite list_eqb_sg. split; congruence. }
  rewrite O. split; [intros ((-> & ->) & ->); auto|]. intros E. injection E as -> -> ->. auto.
Qed.
Lemma seen_in c l : existsb (call_eqb c) l = true <-> In c l.
Proof.
  rewrite existsb_exists. split.
  - intros (x & Hx & E). apply call_eqb_ok in E. subst. auto.
  - intros H. exists c. split; auto. apply call_eqb_ok. auto.
Qed.

(** * Bounds only grow *)

Lemma each_ind {A S} (f : A -> S -> option S) (R : S -> S -> Prop) : (forall s, R s s) -> (forall a b c, R a b -> R b c -> R a c) ->
  forall l s s', (forall a s s', In a l -> f a s = Some s' -> R s s') -> each f l s = Some s' -> R s s'.
Proof.
  intros Hr Ht. induction l as [|a l IH]; intros s s' Hf H; cbn in H.
  - injection H as <-. auto.
  - destruct (f a s) as [s1|] eqn:E; [|discriminate]. eapply Ht; [eapply Hf; eauto; left; auto|]. eapply IH; eauto.
    intros b s2 s3 Hb. apply Hf. right. auto.
Qed.

Lemma constrain_grows e : forall n a b s s', constrain n e a b s = Some s' -> grows s s'.
Proof.
  induction n as [|n IH]; intros a b s s' H; [discriminate|]. rewrite constrain_S in H.
  destruct (plan e a b) as [|v|v|l|c].
  - injection H as <-. apply grows_refl.
  - apply upper_ok in H. tauto.
  - apply lower_ok in H. destruct H as (? & _ & H & _). auto.
  - revert H. apply (each_ind _ grows); [apply grows_refl|apply grows_trans|]. intros p s1 s2 _. apply IH.
  - unfold sig_inputs in H. destruct (existsb (call_eqb c) (seen s)); [injection H as <-; apply grows_refl|].
    apply (grows_trans _ _ _ (grows_seen s c)). revert H. apply (each_ind _ grows); [apply grows_refl|apply grows_trans|]. intros p s1 s2 _. apply IH.
Qed.
Lemma call_grows e n c s s' : sig_inputs (constrain n e) e c s = Some s' -> grows s s'.
Proof.
  unfold sig_inputs. destruct (existsb (call_eqb c) (seen s)); [intros H; injection H as <-; apply grows_refl|].
  intros H. apply (grows_trans _ _ _ (grows_seen s c)). revert H. apply (each_ind _ grows); [apply grows_refl|apply grows_trans|].
  intros p s1 s2 _. apply constrain_grows.
Qed.

(** * Every new bound is wanted *)

Definition only (e : env) (W : want -> Prop) (s s' : st) : Prop :=
  (forall v t, above s' v t -> above s v t \/ W (Up v t)) /\
  (forall v t, below s' v t -> below s v t \/ exists u b, W (Low v u) /\ get v (vars_ s') = Some b /\ t = weaken_constraint e u (weak b)).
Lemma only_refl e W s : only e W s s.
Proof. split; auto. Qed.
Lemma only_trans e W s1 s2 s3 : grows s2 s3 -> only e W s1 s2 -> only e W s2 s3 -> only e W s1 s3.
Proof.
  intros G (A & B) (A' & B'). split.
  - intros v t H. apply A' in H. destruct H as [H|H]; auto.
  - intros v t H. apply B' in H. destruct H as [H|H]; auto. apply B in H. destruct H as [H|(u & b & Hu & Hb & ->)]; auto.
    right. destruct G as (_ & G). destruct (G _ _ Hb) as (b' & Hb' & Hw & _). exists u, b'. rewrite Hw. auto.
Qed.
Lemma only_weak e (W W' : want -> Prop) s s' : (forall w, W w -> W' w) -> only e W s s' -> only e W' s s'.
Proof.
  intros H (A & B). split.
  - intros v t Ht. apply A in Ht. destruct Ht; auto.
  - intros v t Ht. apply B in Ht. destruct Ht as [Ht|(u & b & Hu & Ht)]; auto. right. exists u, b. auto.
Qed.
Lemma each_only {A} e (f : A -> st -> option st) (W : want -> Prop) : (forall a s s', f a s = Some s' -> grows s s') ->
  forall l s s', (forall a s s', In a l -> f a s = Some s' -> only e W s s') -> each f l s = Some s' -> only e W s s'.
Proof.
  intros G. induction l as [|a l IH]; intros s s' Hf H; cbn in H.
  - injection H as <-. apply only_refl.
  - destruct (f a s) as [s1|] eqn:E; [|discriminate]. eapply only_trans; [|eapply Hf; eauto; left; auto|].
    + revert H. apply (each_ind _ grows); [apply grows_refl|apply grows_trans|]. intros b s2 s3 _. apply G.
    + eapply IH; eauto. intros b s2 s3 Hb. apply Hf. right. auto.
Qed.

Lemma constrain_only e : good_env e -> forall n a b s s', tidy a -> tidy b -> constrain n e a b s = Some s' -> only e (wants e a b) s s'.
Proof.
  intros He. induction n as [|n IH]; intros a b s s' Ta Tb H; [discriminate|]. rewrite constrain_S in H.
  assert (K : forall x y s s', In (x, y) (kids e a b) -> constrain n e x y s = Some s' -> only e (wants e a b) s s').
  { intros x y s1 s2 Hk Hc. destruct (kid_tidy _ _ _ _ _ He Ta Tb (kids_kid _ _ _ _ _ He Ta Tb Hk)).
    apply (only_weak e (wants e x y)); [|eapply IH; eauto]. intros w. apply kids_wants; auto. }
  unfold kids in K. destruct (plan e a b) as [|v|v|l|c] eqn:E.
  - injection H as <-. apply only_refl.
  - apply upper_ok in H. destruct H as (_ & _ & _ & A & B). apply up_wants in E. split; auto.
    intros w u Hu. apply A in Hu. destruct Hu as [Hu|(-> & ->)]; auto. right. tauto.
  - apply lower_ok in H. destruct H as (b0 & Hb & G & _ & _ & A & B). apply low_wants in E. split; auto.
    intros w u Hu. apply A in Hu. destruct Hu as [Hu|(-> & ->)]; auto. right.
    destruct G as (_ & G). destruct (G _ _ Hb) as (b' & Hb' & Hw & _). exists a, b'. rewrite Hw. tauto.
  - revert H. apply each_only; [intros p s1 s2; apply constrain_grows|]. intros (x, y) s1 s2 Hi. apply K. auto.
  - unfold sig_inputs in H. destruct (existsb (call_eqb c) (seen s)); [injection H as <-; apply only_refl|].
    apply (each_only e _ (wants e a b)) in H; auto.
    + intros p s1 s2. apply constrain_grows.
    + intros (r, t) s1 s2 Hi. apply (K t r). apply in_map_iff. exists (r, t). auto.
Qed.

Definition op_tidy (o : op) : Prop := forall t, op_types o t -> tidy t.

Lemma call_tidy c r t e : op_tidy (OCall c) -> passed e c r t -> tidy r /\ tidy t.
Proof.
  intros Ht Hp. apply passed_in in Hp. destruct Hp as (Hr & g & Hg & Hg'). split; apply Ht; cbn.
  - exists (c_sig c). auto.
  - exists g. tauto.
Qed.

Lemma call_only e n c s s' : good_env e -> op_tidy (OCall c) -> sig_inputs (constrain n e) e c s = Some s' -> only e (asks e (OCall c)) s s'.
Proof.
  intros He Ht H. unfold sig_inputs in H. destruct (existsb (call_eqb c) (seen s)); [injection H as <-; apply only_refl|].
  apply (each_only e _ (asks e (OCall c))) in H; auto.
  - intros p s1 s2. apply constrain_grows.
  - intros (r, t) s1 s2 Hi Hc. apply (matches_in e c r t He) in Hi. destruct (call_tidy _ _ _ _ Ht Hi).
    apply (only_weak e (wants e t r)); [|eapply constrain_only; eauto]. intros w Hw. cbn. eauto.
Qed.

(** * Everything wanted is there *)

Section Has.
Variable e : env.
Hypothesis He : good_env e.
Variable has : st -> want -> Prop.
Hypothesis has_grows : forall s s' w, grows s s' -> has s w -> has s' w.
Hypothesis has_up : forall v t s s', upper v t s = Some s' -> has s' (Up v t).
Hypothesis has_low : forall v t s s', lower e v t s = Some s' -> has s' (Low v t).

Definition now (s : st) (a b : ty) : Prop :=
  match plan e a b with DoUp v => has s (Up v b) | DoLow v => has s (Low v a) | _ => True end.

Definition closed_mod (D P : ty * ty -> Prop) (s : st) : Prop :=
  (forall a b, D (a, b) -> now s a b /\ forall k, In k (kids e a b) -> D k \/ P k) /\
  (forall c r t, In c (seen s) -> In (r, t) (matches e (c_sig c) (c_args c) (c_withs c)) -> D (t, r) \/ P (t, r)).

Lemma now_grows s s' a b : grows s s' -> now s a b -> now s' a b.
Proof. unfold now. intros G. destruct (plan e a b); auto; apply has_grows; auto. Qed.

Lemma closed_each {A} (g : A -> ty * ty) (f : A -> st -> option st) :
  (forall p s s' D P, f p s = Some s' -> closed_mod D P s -> exists D' : ty * ty -> Prop, (forall q, D q -> D' q) /\ D' (g p) /\ closed_mod D' P s') ->
  forall l s s' D P, each f l s = Some s' -> closed_mod D P s ->
  exists D' : ty * ty -> Prop, (forall q, D q -> D' q) /\ (forall p, In p l -> D' (g p)) /\ closed_mod D' P s'.
Proof.
  intros Hf. induction l as [|p l IH]; intros s s' D P H HC; cbn in H.
  - injection H as <-. exists D. split; auto. split; auto. intros p [].
  - destruct (f p s) as [s1|] eqn:E; [|discriminate]. destruct (Hf _ _ _ _ _ E HC) as (D1 & I1 & P1 & C1).
    destruct (IH _ _ _ _ H C1) as (D2 & I2 & P2 & C2). exists D2. split; auto. split; auto. intros q [<-|Hq]; auto.
Qed.

Lemma closed_call n c s s' D P :
  (forall a b s s' D P, constrain n e a b s = Some s' -> closed_mod D P s -> exists D' : ty * ty -> Prop, (forall q, D q -> D' q) /\ D' (a, b) /\ closed_mod D' P s') ->
  sig_inputs (constrain n e) e c s = Some s' -> closed_mod D P s ->
  exists D' : ty * ty -> Prop, (forall q, D q -> D' q) /\
    (forall r t, In (r, t) (matches e (c_sig c) (c_args c) (c_withs c)) -> D' (t, r) \/ P (t, r)) /\ closed_mod D' P s'.
Proof.
  intros IH H HC. unfold sig_inputs in H. destruct (existsb (call_eqb c) (seen s)) eqn:E.
  - injection H as <-. apply seen_in in E. exists D. split; auto. split; auto. intros r t Hi. eapply HC; eauto.
  - set (P1 := fun q : ty * ty => P q \/ In (snd q, fst q) (matches e (c_sig c) (c_args c) (c_withs c))).
    assert (C1 : closed_mod D P1 {| vars_ := vars_ s; seen := c :: seen s |}).
    { split.
      - intros a b Hd. destruct HC as (HC & _). destruct (HC a b Hd) as (Hn & Hk). split.
        + eapply now_grows; [apply grows_seen|auto].
        + intros k Hi. destruct (Hk k Hi); auto. right. left. auto.
      - intros c' r t [<-|Hc] Hi.
        + right. right. auto.
        + destruct HC as (_ & HC). destruct (HC c' r t Hc Hi); auto. right. left. auto. }
    apply (closed_each (fun p => (snd p, fst p))) with (D := D) (P := P1) in H; auto.
    + destruct H as (D2 & I2 & A2 & C2). exists D2. split; auto.
      assert (M : forall q, D2 q \/ P1 q -> D2 q \/ P q).
      { intros (x, y) [Hq|[Hq|Hq]]; auto. left. apply (A2 (y, x)). auto. }
      split.
      * intros r t Hi. left. apply (A2 (r, t)). auto.
      * destruct C2 as (C2 & S2). split.
        -- intros a b Hd. destruct (C2 a b Hd) as (Hn & Hk). split; auto.
        -- intros c' r t Hc Hi. apply M. eapply S2; eauto.
    + intros (r, t) s1 s2 D1 P2. apply IH.
Qed.

Lemma constrain_closed : forall n a b s s' D P, constrain n e a b s = Some s' -> closed_mod D P s ->
  exists D' : ty * ty -> Prop, (forall q, D q -> D' q) /\ D' (a, b) /\ closed_mod D' P s'.
Proof.
  induction n as [|n IH]; intros a b s s' D P H HC; [discriminate|].
  pose proof (constrain_grows _ _ _ _ _ _ H) as G. rewrite constrain_S in H.
  (* adding the pair itself to what is closed in [s'] *)
  assert (Add : forall D', closed_mod D' P s' -> now s' a b -> (forall k, In k (kids e a b) -> D' k \/ P k) ->
    (forall q, D q -> D' q) -> exists D2 : ty * ty -> Prop, (forall q, D q -> D2 q) /\ D2 (a, b) /\ closed_mod D2 P s').
  { intros D' (C1 & C2) Hn Hk Hi. exists (fun q => D' q \/ q = (a, b)). split; auto. split; auto. split.
    - intros x y [Hd|E].
      + destruct (C1 x y Hd) as (Hn' & Hk'). split; auto. intros k Hkk. destruct (Hk' k Hkk); auto.
      + injection E as -> ->. split; auto. intros k Hkk. destruct (Hk k Hkk); auto.
    - intros c r t Hc Hi'. destruct (C2 c r t Hc Hi'); auto. }
  assert (Same : forall s2, grows s s2 -> seen s2 = seen s -> closed_mod D P s2).
  { intros s2 G2 E2. destruct HC as (C1 & C2). split.
    - intros x y Hd. destruct (C1 x y Hd). split; auto. eapply now_grows; eauto.
    - rewrite E2. auto. }
  unfold kids, now in Add. destruct (plan e a b) as [|v|v|l|c] eqn:E.
  - injection H as <-. eapply Add; eauto. intros k [].
  - pose proof (has_up _ _ _ _ H) as Hu. apply upper_ok in H. destruct H as (_ & Hs & _). eapply Add; eauto. intros k [].
  - pose proof (has_low _ _ _ _ H) as Hu. apply lower_ok in H. destruct H as (_ & _ & _ & Hs & _). eapply Add; eauto. intros k [].
  - apply (closed_each (fun p => p)) with (D := D) (P := P) in H; auto.
    + destruct H as (D2 & I2 & A2 & C2). eapply Add; eauto.
    + intros (x, y) s1 s2 D1 P2. apply IH.
  - apply closed_call with (D := D) (P := P) in H; auto.
    destruct H as (D2 & I2 & A2 & C2). eapply Add; eauto.
    intros (x, y) Hk. apply in_map_iff in Hk. destruct Hk as ((r & t) & Ek & Hk). cbn in Ek. injection Ek as <- <-. auto.
Qed.

Lemma closed_wants D s a b w : closed_mod D (fun _ => False) s -> D (a, b) -> tidy a -> tidy b -> wants e a b w -> has s w.
Proof.
  intros (C1 & C2) Hd Ta Tb Hw. revert Hd.
  apply (wants_steps e (fun a b w => D (a, b) -> has s w)) with (a := a) (b := b) (w := w); auto.
  - intros x y v E Hd. destruct (C1 x y Hd) as (Hn & _). unfold now in Hn. rewrite E in Hn. auto.
  - intros x y v E Hd. destruct (C1 x y Hd) as (Hn & _). unfold now in Hn. rewrite E in Hn. auto.
  - intros x y x' y' w' Hk _ IH Hd. apply IH. destruct (C1 x y Hd) as (_ & Hk'). destruct (Hk' _ Hk) as [?|[]]; auto.
Qed.
End Has.

(** * Fuel *)

Lemma each_fuel {A S} (f g : A -> S -> option S) : forall l s s', (forall a s s', In a l -> f a s = Some s' -> g a s = Some s') ->
  each f l s = Some s' -> each g l s = Some s'.
Proof.
  induction l as [|a l IH]; intros s s' H E; cbn in *; auto. destruct (f a s) as [s1|] eqn:E1; [|discriminate].
  rewrite (H a s s1); auto.
Qed.
Lemma constrain_fuel e : forall n m a b s s', n <= m -> constrain n e a b s = Some s' -> constrain m e a b s = Some s'.
Proof.
  induction n as [|n IH]; intros m a b s s' Hm H; [discriminate|]. destruct m as [|m]; [lia|].
  rewrite constrain_S in *. destruct (plan e a b); auto.
  - revert H. apply each_fuel. intros p s1 s2 _. apply IH. lia.
  - unfold sig_inputs in *. destruct (existsb (call_eqb c) (seen s)); auto. revert H. apply each_fuel. intros p s1 s2 _. apply IH. lia.
Qed.
Lemma op_fuel e n m o s s' : n <= m -> do_op n e o s = Some s' -> do_op m e o s = Some s'.
Proof.
  intros Hm. destruct o; cbn; auto.
  - apply constrain_fuel. auto.
  - unfold sig_inputs. destruct (existsb (call_eqb c) (seen s)); auto. apply each_fuel. intros p s1 s2 _. apply constrain_fuel. auto.
Qed.

(** * An end *)

Section End.
Variable e : env.
Hypothesis He : good_env e.
Variable D : list nat.

Definition halts (a b : ty) : Prop := exists n, forall s, dom s = D -> exists s', constrain n e a b s = Some s'.

Definition fine (t : ty) : Prop := tidy t /\ inside D t.

Lemma halts_each (f : nat -> ty * ty -> st -> option st) (l : list (ty * ty)) :
  (forall n m p s s', n <= m -> f n p s = Some s' -> f m p s = Some s') ->
  (forall n p s s', f n p s = Some s' -> grows s s') ->
  (forall p, In p l -> exists n, forall s, dom s = D -> exists s', f n p s = Some s') ->
  exists n, forall s, dom s = D -> exists s', each (f n) l s = Some s'.
Proof.
  intros Hm Hg. induction l as [|p l IH]; intros Hl.
  - exists 0. intros s _. exists s. auto.
  - destruct (Hl p) as (n1 & H1); [left; auto|]. destruct IH as (n2 & H2); [intros q Hq; apply Hl; right; auto|].
    exists (n1 + n2). intros s Hs. destruct (H1 s Hs) as (s1 & E1). cbn. rewrite (Hm n1 (n1 + n2) p s s1); auto; [|lia].
    destruct (H2 s1) as (s2 & E2). { destruct (Hg _ _ _ _ E1) as (Hd & _). congruence. }
    exists s2. revert E2. apply each_fuel. intros q s3 s4 _. apply Hm. lia.
Qed.

Lemma halts_kids a b : fine a -> fine b -> (forall x y, In (x, y) (kids e a b) -> halts x y) -> halts a b.
Proof.
  intros (Ta & Ia) (Tb & Ib) Hk. unfold kids in Hk. unfold halts.
  destruct (plan e a b) as [|v|v|l|c] eqn:E.
  - exists 1. intros s _. rewrite constrain_S, E. eauto.
  - exists 1. intros s Hs. rewrite constrain_S, E. apply up_wants in E. destruct E as (_ & ->).
    assert (Hv : In v (dom s)) by (rewrite Hs; apply Ia; constructor). apply get_dom in Hv. destruct Hv as (bd & Hv).
    unfold upper. rewrite Hv. eauto.
  - exists 1. intros s Hs. rewrite constrain_S, E. apply low_wants in E. destruct E as (_ & ->).
    assert (Hv : In v (dom s)) by (rewrite Hs; apply Ib; constructor). apply get_dom in Hv. destruct Hv as (bd & Hv).
    unfold lower. rewrite Hv. eauto.
  - destruct (halts_each (fun n p => constrain n e (fst p) (snd p)) l) as (n & Hn).
    + intros n m p s s'. apply constrain_fuel.
    + intros n p s s'. apply constrain_grows.
    + intros (x, y) Hi. apply Hk. auto.
    + exists (S n). intros s Hs. rewrite constrain_S, E. apply Hn. auto.
  - destruct (halts_each (fun n p => constrain n e (snd p) (fst p)) (matches e (c_sig c) (c_args c) (c_withs c))) as (n & Hn).
    + intros n m p s s'. apply constrain_fuel.
    + intros n p s s'. apply constrain_grows.
    + intros (r, t) Hi. apply (Hk t r). apply in_map_iff. exists (r, t). auto.
    + exists (S n). intros s Hs. rewrite constrain_S, E. unfold sig_inputs. destruct (existsb (call_eqb c) (seen s)); [eauto|].
      apply Hn. auto.
Qed.

Lemma fine_sub a t : sub a t -> fine t -> fine a.
Proof. intros H (T & I). split; [eapply tidy_sub|eapply inside_sub]; eauto. Qed.
Lemma fine_flow n names types : leaf_of e n = LFlow names types -> fine (TComp (CDict names) types).
Proof. intros L. destruct (flow_dict _ _ _ _ He L) as (T & I). split; auto. intros v Hv. exfalso. apply (I v Hv). Qed.

Lemma dict_kids n1 l1 n2 l2 x y : tidy (TComp (CDict n1) l1) -> tidy (TComp (CDict n2) l2) ->
  In (x, y) (kids e (TComp (CDict n1) l1) (TComp (CDict n2) l2)) -> In x l1 /\ In y l2.
Proof.
  intros T1 T2 H. unfold kids in H. destruct (plan_view e (TComp (CDict n1) l1) (TComp (CDict n2) l2)) as [E|V]; [rewrite E in H; contradiction|].
  remember (plan e (TComp (CDict n1) l1) (TComp (CDict n2) l2)) as p. clear Heqp. inversion V; subst; try contradiction.
  - apply common_in in H; [|eapply T1; constructor|eapply T2; constructor]. destruct H as (i & j & k & _ & _ & Hx & Hy).
    split; eapply nth_error_In; eauto.
Qed.

(** One side without the builtins. *)
Lemma halts_flowless : forall N M a b, size a <= N -> size b <= M -> flowless e a -> fine a -> fine b -> halts a b /\ halts b a.
Proof.
  induction N as [|N IHN]; [intros M a b Ha; destruct a; cbn in Ha; lia|].
  induction M as [|M IHM]; [intros a b Ha Hb; destruct b; cbn in Hb; lia|].
  intros a b Ha Hb Fl Fa Fb.
  assert (Sa : forall x y, psub x a -> fine y -> halts x y /\ halts y x).
  { intros x y (Hx & Hlt) Fy. eapply (IHN (size y)); eauto; [lia|eapply flowless_sub; eauto|eapply fine_sub; eauto]. }
  assert (Sb : forall y, psub y b -> halts a y /\ halts y a).
  { intros y (Hy & Hlt). apply IHM; auto; [lia|eapply fine_sub; eauto]. }
  split; apply halts_kids; auto; intros x y Hk.
  - apply (kids_kid _ _ _ _ _ He) in Hk; try apply Fa; try apply Fb.
    destruct Hk as [Hx Hy|Hx ->| -> Hy|Hx Hy|n1 l1 n names types -> -> L -> ->|n1 l1 n names types -> -> L -> ->].
    + refine (proj1 (Sa x y Hx _)). eapply fine_sub; [apply Hy|auto].
    + exact (proj1 (Sa x b Hx Fb)).
    + exact (proj1 (Sb y Hy)).
    + refine (proj2 (Sa y x Hy _)). eapply fine_sub; [apply Hx|auto].
    + pose proof (fine_flow _ _ _ L) as Fd. apply halts_kids; auto. intros x y Hk. apply dict_kids in Hk; [|apply Fa|apply Fd].
      destruct Hk as (Hx & Hy). refine (proj1 (Sa x y _ _)); [apply psub_comp; auto|]. eapply fine_sub; [|apply Fd]. apply psub_comp. auto.
    + exfalso. eapply Fl; [constructor|eauto].
  - apply (kids_kid _ _ _ _ _ He) in Hk; try apply Fa; try apply Fb.
    destruct Hk as [Hx Hy|Hx ->| -> Hy|Hx Hy|n1 l1 n names types -> -> L -> ->|n1 l1 n names types -> -> L -> ->].
    + refine (proj2 (Sa y x Hy _)). eapply fine_sub; [apply Hx|auto].
    + exact (proj2 (Sb x Hx)).
    + exact (proj2 (Sa y b Hy Fb)).
    + refine (proj1 (Sa x y Hx _)). eapply fine_sub; [apply Hy|auto].
    + exfalso. eapply Fl; [constructor|eauto].
    + pose proof (fine_flow _ _ _ L) as Fd. apply halts_kids; auto. intros x y Hk. apply dict_kids in Hk; [|apply Fd|apply Fa].
      destruct Hk as (Hx & Hy). refine (proj2 (Sa y x _ _)); [apply psub_comp; auto|]. eapply fine_sub; [|apply Fd]. apply psub_comp. auto.
Qed.

(** One side from the dictionary of a builtin. *)
Lemma halts_shallow : forall N M a b, size b <= N -> size a <= M -> shallow e a -> fine a -> fine b -> halts a b /\ halts b a.
Proof.
  induction N as [|N IHN]; [intros M a b Hb; destruct b; cbn in Hb; lia|].
  induction M as [|M IHM]; [intros a b Hb Ha; destruct a; cbn in Ha; lia|].
  intros a b Hb Ha Sh Fa Fb.
  assert (Sb : forall x y, psub y b -> shallow e x -> fine x -> halts x y /\ halts y x).
  { intros x y (Hy & Hlt) Sx Fx. eapply (IHN (size x)); eauto; [lia|eapply fine_sub; eauto]. }
  assert (Sa : forall x, psub x a -> halts x b /\ halts b x).
  { intros x (Hx & Hlt). apply IHM; auto; [lia|eapply shallow_sub; eauto|eapply fine_sub; eauto]. }
  assert (Ss : forall x, psub x a -> shallow e x /\ fine x).
  { intros x (Hx & Hlt). split; [eapply shallow_sub; eauto|eapply fine_sub; eauto]. }
  assert (Fields : forall n names types x, leaf_of e n = LFlow names types -> In x types -> shallow e x /\ fine x).
  { intros n names types x L Hx. split; [eapply He; eauto|]. eapply fine_sub; [|eapply fine_flow; eauto]. apply psub_comp. auto. }
  split; apply halts_kids; auto; intros x y Hk.
  - apply (kids_kid _ _ _ _ _ He) in Hk; try apply Fa; try apply Fb.
    destruct Hk as [Hx Hy|Hx ->| -> Hy|Hx Hy|n1 l1 n names types -> -> L -> ->|n1 l1 n names types -> -> L -> ->].
    + refine (proj1 (Sb x y Hy _ _)); apply Ss; auto.
    + exact (proj1 (Sa x Hx)).
    + exact (proj1 (Sb a y Hy Sh Fa)).
    + refine (proj2 (Sb y x Hx _ _)); apply Ss; auto.
    + refine (proj1 (halts_flowless _ _ _ _ (le_n _) (le_n _) _ Fa _)); [apply Sh; constructor|]. eapply fine_flow; eauto.
    + pose proof (fine_flow _ _ _ L) as Fd. apply halts_kids; auto. intros x y Hk. apply dict_kids in Hk; [|apply Fd|apply Fb].
      destruct Hk as (Hx & Hy). refine (proj1 (Sb x y _ _ _)); [apply psub_comp; auto| |]; eapply Fields; eauto.
  - apply (kids_kid _ _ _ _ _ He) in Hk; try apply Fa; try apply Fb.
    destruct Hk as [Hx Hy|Hx ->| -> Hy|Hx Hy|n1 l1 n names types -> -> L -> ->|n1 l1 n names types -> -> L -> ->].
    + refine (proj2 (Sb y x Hx _ _)); apply Ss; auto.
    + exact (proj2 (Sb a x Hx Sh Fa)).
    + exact (proj2 (Sa y Hy)).
    + refine (proj1 (Sb x y Hy _ _)); apply Ss; auto.
    + pose proof (fine_flow _ _ _ L) as Fd. apply halts_kids; auto. intros x y Hk. apply dict_kids in Hk; [|apply Fb|apply Fd].
      destruct Hk as (Hx & Hy). refine (proj2 (Sb y x _ _ _)); [apply psub_comp; auto| |]; eapply Fields; eauto.
    + refine (proj2 (halts_flowless _ _ _ _ (le_n _) (le_n _) _ Fa _)); [apply Sh; constructor|]. eapply fine_flow; eauto.
Qed.

Lemma halts_all : forall N a b, size a + size b <= N -> fine a -> fine b -> halts a b.
Proof.
  induction N as [|N IH]; [intros a b Ha; destruct a; cbn in Ha; lia|]. intros a b HN Fa Fb.
  assert (Fields : forall n names types x, leaf_of e n = LFlow names types -> In x types -> shallow e x /\ fine x).
  { intros n names types x L Hx. split; [eapply He; eauto|]. eapply fine_sub; [|eapply fine_flow; eauto]. apply psub_comp. auto. }
  apply halts_kids; auto. intros x y Hk.
  apply (kids_kid _ _ _ _ _ He) in Hk; try apply Fa; try apply Fb.
  destruct Hk as [(Hx & Lx) (Hy & Ly)|(Hx & Lx) ->| -> (Hy & Ly)|(Hx & Lx) (Hy & Ly)|n1 l1 n names types -> -> L -> ->|n1 l1 n names types -> -> L -> ->].
  - apply IH; [lia| |]; eapply fine_sub; eauto.
  - apply IH; [lia| |auto]; eapply fine_sub; eauto.
  - apply IH; [lia|auto|]; eapply fine_sub; eauto.
  - apply IH; [lia| |]; eapply fine_sub; eauto.
  - pose proof (fine_flow _ _ _ L) as Fd. apply halts_kids; auto. intros x y Hk. apply dict_kids in Hk; [|apply Fa|apply Fd].
    destruct Hk as (Hx & Hy). refine (proj2 (halts_shallow _ _ _ _ (le_n _) (le_n _) _ _ _)); [apply (Fields _ _ _ y L Hy)|apply (Fields _ _ _ y L Hy)|].
    eapply fine_sub; [|apply Fa]. apply psub_comp. auto.
  - pose proof (fine_flow _ _ _ L) as Fd. apply halts_kids; auto. intros x y Hk. apply dict_kids in Hk; [|apply Fd|apply Fb].
    destruct Hk as (Hx & Hy). refine (proj1 (halts_shallow _ _ _ _ (le_n _) (le_n _) _ _ _)); [apply (Fields _ _ _ x L Hx)|apply (Fields _ _ _ x L Hx)|].
    eapply fine_sub; [|apply Fb]. apply psub_comp. auto.
Qed.
End End.

(** * Weakening *)

Definition same_but (R : nat -> Prop) (s s' : st) : Prop :=
  dom s' = dom s /\ seen s' = seen s /\
  forall v b, get v (vars_ s) = Some b ->
    exists b', get v (vars_ s') = Some b' /\ lows b' = lows b /\ ups b' = ups b /\ (weak b' = true <-> weak b = true \/ R v).
Lemma same_refl (R : nat -> Prop) s : (forall v, ~ R v) -> same_but R s s.
Proof. intros HR. split; auto. split; auto. intros v b H. exists b. repeat split; auto. intros [H'|H']; auto. exfalso. eapply HR; eauto. Qed.
Lemma same_trans (R1 R2 R : nat -> Prop) s1 s2 s3 : (forall v, R v <-> R1 v \/ R2 v) -> same_but R1 s1 s2 -> same_but R2 s2 s3 -> same_but R s1 s3.
Proof.
  intros HR (D1 & S1 & H1) (D2 & S2 & H2). split; [congruence|]. split; [congruence|]. intros v b Hb.
  destruct (H1 v b Hb) as (b1 & Hb1 & L1 & U1 & W1). destruct (H2 v b1 Hb1) as (b2 & Hb2 & L2 & U2 & W2).
  exists b2. split; auto. split; [congruence|]. split; [congruence|]. rewrite W2, W1, HR. tauto.
Qed.
Lemma same_iff (R R' : nat -> Prop) s s' : (forall v, R v <-> R' v) -> same_but R s s' -> same_but R' s s'.
Proof.
  intros HR (D & S & H). split; auto. split; auto. intros v b Hb. destruct (H v b Hb) as (b' & Hb' & L & U & W).
  exists b'. split; auto. split; auto. split; auto. rewrite W, HR. tauto.
Qed.

Definition weakens (f : st -> option st) (R : nat -> Prop) : Prop :=
  (forall s s', f s = Some s' -> same_but R s s' /\ forall v, R v -> In v (dom s)) /\
  (forall s, (forall v, R v -> In v (dom s)) -> exists s', f s = Some s').

Lemma weakens_seq f g R1 R2 (R : nat -> Prop) : (forall v, R v <-> R1 v \/ R2 v) -> weakens f R1 -> weakens g R2 ->
  weakens (fun s => match f s with Some s1 => g s1 | None => None end) R.
Proof.
  intros HR (F1 & F2) (G1 & G2). split.
  - intros s s' H. destruct (f s) as [s1|] eqn:E; [|discriminate]. destruct (F1 _ _ E) as (A & B). destruct (G1 _ _ H) as (A' & B').
    split; [eapply same_trans; eauto|]. intros v Hv. apply HR in Hv. destruct Hv as [Hv|Hv]; auto. apply B' in Hv. destruct A as (D & _). congruence.
  - intros s Hs. destruct (F2 s) as (s1 & E); [intros v Hv; apply Hs; apply HR; auto|]. rewrite E. apply G2.
    intros v Hv. destruct (F1 _ _ E) as ((D & _) & _). rewrite D. apply Hs. apply HR. auto.
Qed.
Lemma weakens_iff f R R' : (forall v, R v <-> R' v) -> weakens f R -> weakens f R'.
Proof.
  intros HR (F1 & F2). split.
  - intros s s' H. destruct (F1 _ _ H) as (A & B). split; [eapply same_iff; eauto|]. intros v Hv. apply B. apply HR. auto.
  - intros s Hs. apply F2. intros v Hv. apply Hs. apply HR. auto.
Qed.
Lemma weakens_none (R : nat -> Prop) : (forall v, ~ R v) -> weakens (fun s => Some s) R.
Proof. intros HR. split; [|eauto]. intros s s' H. injection H as <-. split; [apply same_refl; auto|]. intros v Hv. exfalso. eapply HR; eauto. Qed.
Lemma weakens_each (l : list ty) : Forall (fun t => weakens (weaken t) (fun v => reached v t)) l ->
  weakens (each weaken l) (fun v => exists t, In t l /\ reached v t).
Proof.
  induction 1 as [|t l Ht Hl IH].
  - apply weakens_none. intros v (t & [] & _).
  - eapply weakens_seq; eauto. intros v. split.
    + intros (x & [<-|Hx] & Hr); eauto.
    + intros [H|(x & Hx & Hr)]; [exists t; cbn; auto|exists x; cbn; auto].
Qed.

Lemma weaken_weakens : forall t, weakens (weaken t) (fun v => reached v t).
Proof.
  induction t as [|m|v|l u Hl Hu|l Hl|k l Hl|k sh l o Hl Ho|g sh l o Hg Hl Ho] using ty_ind2.
  - apply weakens_none. intros v H. inversion H.
  - apply weakens_none. intros v H. inversion H.
  - split.
    + intros s s' H. cbn in H. unfold weaken_var in H. destruct (get v (vars_ s)) as [b|] eqn:E; [|discriminate]. injection H as <-. split.
      * split; [unfold dom; cbn; apply dom_put|]. split; auto. cbn. intros w c Hc. rewrite get_put, E.
        destruct (w =? v) eqn:Ew.
        -- apply Nat.eqb_eq in Ew. subst w. rewrite E in Hc. injection Hc as <-. eexists. split; [reflexivity|]. cbn. repeat split; auto. right. constructor.
        -- apply Nat.eqb_neq in Ew. exists c. repeat split; auto. intros [Hw|Hw]; auto. inversion Hw. congruence.
      * intros w Hw. inversion Hw. subst. unfold dom. apply get_dom. eauto.
    + intros s Hs. cbn. unfold weaken_var. assert (Hv : In v (dom s)) by (apply Hs; constructor). apply get_dom in Hv. destruct Hv as (b & ->). eauto.
  - cbn [weaken]. eapply weakens_seq; [|apply weakens_each; eauto|apply weakens_each; eauto]. intros v. split.
    + intros H. inversion H; subst; eauto.
    + intros [(x & Hx & H)|(x & Hx & H)]; [eapply reached_low|eapply reached_up]; eauto.
  - cbn [weaken]. eapply weakens_iff; [|apply weakens_each; eauto]. intros v. split.
    + intros (x & Hx & H). eapply reached_union; eauto.
    + intros H. inversion H; subst; eauto.
  - cbn [weaken]. eapply weakens_iff; [|apply weakens_each; eauto]. intros v. split.
    + intros (x & Hx & H). eapply reached_comp; eauto.
    + intros H. inversion H; subst; eauto.
  - cbn [weaken]. eapply weakens_iff; [|apply weakens_each; eauto]. intros v. split.
    + intros (x & Hx & H). eapply reached_ins; eauto.
    + intros H. inversion H; subst; eauto.
  - cbn [weaken]. eapply weakens_seq; [|exact Hg|apply weakens_each; eauto]. intros v. split.
    + intros H. inversion H; subst; eauto.
    + intros [H|(x & Hx & H)]; [eapply reached_with_sig|eapply reached_with_ins]; eauto.
Qed.

(** * Sequences *)

Lemma lifts_ok e u t : lifts e u t <-> t = weaken_constraint e u true.
Proof.
  unfold weaken_constraint. split.
  - intros [n b u' H|t' H]; [rewrite H; auto|]. destruct t'; auto. destruct (leaf_of e n) eqn:E; auto. exfalso. eapply H; eauto.
  - intros ->. destruct u; try (apply lifts_other; intros; discriminate). destruct (leaf_of e n) eqn:E;
      try (apply lifts_other; intros m b u Em; injection Em as <-; rewrite E; discriminate). eapply lifts_value; eauto.
Qed.

Section Seq.
Variable e : env.
Hypothesis He : good_env e.
Variable W0 : nat -> Prop.

Definition inv (s : st) : Prop := forall v b, W0 v -> get v (vars_ s) = Some b -> weak b = true.
Definition has (s : st) (w : want) : Prop :=
  match w with
  | Up v t => above s v t
  | Low v u => exists b, get v (vars_ s) = Some b /\ (weak b = false -> In u (lows b)) /\
      (In u (lows b) \/ In (weaken_constraint e u true) (lows b)) /\ (inv s -> W0 v -> In (weaken_constraint e u true) (lows b))
  end.

Lemma inv_grows s s' : grows s s' -> inv s' <-> inv s.
Proof.
  intros (D & G). split; intros H v b Hw Hb.
  - destruct (G v b Hb) as (b' & Hb' & Ew & _). rewrite <- Ew. eapply H; eauto.
  - assert (Hd : In v (dom s)) by (rewrite <- D; apply get_dom; eauto). apply get_dom in Hd. destruct Hd as (b0 & Hb0).
    destruct (G v b0 Hb0) as (b' & Hb' & Ew & _). assert (b' = b) by congruence. subst. rewrite Ew. eapply H; eauto.
Qed.
Lemma has_grows s s' w : grows s s' -> has s w -> has s' w.
Proof.
  intros G. pose proof (inv_grows _ _ G) as HI. destruct G as (D & G). destruct w as [v t|v u]; cbn.
  - intros (b & Hb & Ht). destruct (G v b Hb) as (b' & Hb' & _ & _ & U). exists b'. auto.
  - intros (b & Hb & H1 & H2 & H3). destruct (G v b Hb) as (b' & Hb' & Ew & L & _). exists b'. split; auto. rewrite Ew. split; [auto|].
    split; [destruct H2; auto|]. intros Hi Hw. apply L. apply H3; auto. apply HI; auto.
Qed.
Lemma has_up v t s s' : upper v t s = Some s' -> has s' (Up v t).
Proof. intros H. apply upper_ok in H. cbn. tauto. Qed.
Lemma has_low v t s s' : lower e v t s = Some s' -> has s' (Low v t).
Proof.
  intros H. apply lower_ok in H. destruct H as (b & Hb & G & _ & (b' & Hb' & Hin) & _). cbn. exists b'. split; auto.
  destruct G as (_ & G). destruct (G v b Hb) as (b2 & Hb2 & Ew & _). assert (b2 = b') by congruence. subst b2. rewrite <- Ew in Hin.
  split; [intros E; rewrite E in Hin; auto|]. split.
  - destruct (weak b'); auto.
  - intros Hi Hw. rewrite (Hi v b' Hw Hb') in Hin. auto.
Qed.
Lemma has_weak R s s' w : same_but R s s' -> inv s -> has s w -> has s' w.
Proof.
  intros (D & S & H) Hi. destruct w as [v t|v u]; cbn.
  - intros (b & Hb & Ht). destruct (H v b Hb) as (b' & Hb' & L & U & _). exists b'. rewrite U. auto.
  - intros (b & Hb & H1 & H2 & H3). destruct (H v b Hb) as (b' & Hb' & L & U & Ew). exists b'. rewrite L. split; auto. split; auto.
    intros E. apply H1. destruct (weak b) eqn:Eb; auto. rewrite (proj2 Ew) in E by auto. discriminate.
Qed.
Lemma inv_weak R s s' : same_but R s s' -> inv s -> inv s'.
Proof.
  intros (D & _ & H) Hi v b Hw Hb. assert (Hd : In v (dom s)) by (rewrite <- D; apply get_dom; eauto). apply get_dom in Hd. destruct Hd as (b0 & Hb0).
  destruct (H v b0 Hb0) as (b' & Hb' & _ & _ & Ew). assert (b' = b) by congruence. subst. apply Ew. left. eauto.
Qed.

Definition no_pair : ty * ty -> Prop := fun _ => False.

Lemma op_closed n o s s' D : do_op n e o s = Some s' -> op_tidy o -> inv s -> closed_mod e has D no_pair s ->
  exists D' : ty * ty -> Prop, (forall q, D q -> D' q) /\ closed_mod e has D' no_pair s' /\ inv s' /\
    forall a b, match o with OCon x y => (a, b) = (x, y) | OCall c => passed e c b a | OWeak _ => False end -> D' (a, b).
Proof.
  intros H Ht Hi HC. destruct o as [a b|c|t]; cbn in H.
  - pose proof (constrain_grows _ _ _ _ _ _ H) as G.
    destruct (constrain_closed e has has_grows has_up has_low _ _ _ _ _ _ _ H HC) as (D' & I' & A' & C').
    exists D'. split; auto. split; auto. split; [apply (inv_grows _ _ G); auto|]. intros x y E. injection E as -> ->. auto.
  - pose proof (call_grows _ _ _ _ _ H) as G.
    destruct (closed_call e has has_grows n c s s' D no_pair) as (D' & I' & A' & C'); auto.
    { intros a b s1 s2 D1 P1. apply (constrain_closed e has has_grows has_up has_low). }
    exists D'. split; auto. split; auto. split; [apply (inv_grows _ _ G); auto|].
    intros x y Hp. apply (matches_in e c y x He) in Hp. destruct (A' _ _ Hp) as [?|[]]; auto.
  - destruct (weaken_weakens t) as (F & _). destruct (F _ _ H) as (Sm & _). exists D. split; auto. split; [|split].
    + destruct HC as (C1 & C2). split.
      * intros a b Hd. destruct (C1 a b Hd) as (Hn & Hk). split; auto. unfold now in *. destruct (plan e a b); auto; eapply has_weak; eauto.
      * destruct Sm as (_ & -> & _). auto.
    + eapply inv_weak; eauto.
    + intros a b [].
Qed.

Lemma run_closed n : forall os s s' D, run n e os s = Some s' -> (forall o, In o os -> op_tidy o) -> inv s -> closed_mod e has D no_pair s ->
  exists D' : ty * ty -> Prop, (forall q, D q -> D' q) /\ closed_mod e has D' no_pair s' /\ inv s' /\
    forall o a b, In o os -> match o with OCon x y => (a, b) = (x, y) | OCall c => passed e c b a | OWeak _ => False end -> D' (a, b).
Proof.
  induction os as [|o os IH]; intros s s' D H Ht Hi HC; cbn in H.
  - injection H as <-. exists D. split; auto. split; auto. split; auto. intros o a b [].
  - destruct (do_op n e o s) as [s1|] eqn:E; [|discriminate].
    destruct (op_closed _ _ _ _ _ E (Ht o (or_introl eq_refl)) Hi HC) as (D1 & I1 & C1 & V1 & A1).
    destruct (IH s1 s' D1 H) as (D2 & I2 & C2 & V2 & A2); auto.
    { intros o' Ho. apply Ht. right. auto. }
    exists D2. split; auto. split; auto. split; auto. intros o' a b [<-|Ho] Hm; eauto.
Qed.

Lemma run_has n os V s' w : run n e os {| vars_ := V; seen := [] |} = Some s' -> (forall o, In o os -> op_tidy o) ->
  inv {| vars_ := V; seen := [] |} -> asked e os w -> inv s' /\ has s' w.
Proof.
  intros H Ht Hi (o & Ho & Ha).
  destruct (run_closed _ _ _ _ no_pair H Ht Hi) as (D' & _ & C' & I' & A').
  { split; [intros a b []|]. intros c r t []. }
  split; auto. destruct o as [a b|c|t]; cbn in Ha.
  - eapply closed_wants; eauto.
    + eapply (A' _ a b Ho). auto.
    + apply (Ht _ Ho). cbn. auto.
    + apply (Ht _ Ho). cbn. auto.
  - destruct Ha as (r & t & Hp & Hw). destruct (call_tidy _ _ _ _ (Ht _ Ho) Hp). assert (Hd : D' (t, r)) by (apply (A' _ t r Ho); auto). eapply closed_wants; eauto.
  - contradiction.
Qed.
End Seq.

Definition strong_op (o : op) : Prop := match o with OWeak _ => False | _ => True end.
Lemma strong_grows n e o s s' : strong_op o -> do_op n e o s = Some s' -> grows s s'.
Proof. destruct o; cbn; intros Ho H; [eapply constrain_grows; eauto|eapply call_grows; eauto|contradiction]. Qed.

Lemma op_only e n o s s' : good_env e -> op_tidy o -> strong_op o -> do_op n e o s = Some s' -> only e (asks e o) s s'.
Proof.
  intros He Ht Ho H. destruct o as [a b|c|t]; cbn in *.
  - eapply constrain_only; eauto; apply Ht; cbn; auto.
  - eapply call_only; eauto.
  - contradiction.
Qed.

Lemma run_only e n : good_env e -> forall os s s', (forall o, In o os -> op_tidy o) -> (forall o, In o os -> strong_op o) ->
  run n e os s = Some s' -> grows s s' /\ only e (asked e os) s s'.
Proof.
  intros He. induction os as [|o os IH]; intros s s' Ht Ho H; cbn in H.
  - injection H as <-. split; [apply grows_refl|apply only_refl].
  - destruct (do_op n e o s) as [s1|] eqn:E; [|discriminate].
    destruct (IH s1 s') as (G & O); auto.
    { intros; apply Ht; right; auto. } { intros; apply Ho; right; auto. }
    pose proof (strong_grows _ _ _ _ _ (Ho o (or_introl eq_refl)) E) as G1. split; [eapply grows_trans; eauto|].
    eapply only_trans; eauto.
    + apply (only_weak e (asks e o)); [|eapply op_only; eauto; [apply Ht|apply Ho]; left; auto]. intros w Hw. exists o. split; [left|]; auto.
    + apply (only_weak e (asked e os)); auto. intros w (o' & Ho' & Hw). exists o'. split; [right|]; auto.
Qed.

(** The same with weakenings. *)
Definition loose (e : env) (W : want -> Prop) (s s' : st) : Prop :=
  (forall v t, above s' v t -> above s v t \/ W (Up v t)) /\
  (forall v t, below s' v t -> below s v t \/ exists u, W (Low v u) /\ (t = u \/ is_weak s' v /\ t = weaken_constraint e u true)).
Definition keeps (s s' : st) : Prop :=
  dom s' = dom s /\ (forall v t, above s v t -> above s' v t) /\ (forall v t, below s v t -> below s' v t).

Lemma grows_keeps s s' : grows s s' -> keeps s s' /\ forall v, is_weak s' v <-> is_weak s v.
Proof.
  intros (D & G). split; [split; [auto|split]|].
  - intros v t (b & Hb & Ht). destruct (G v b Hb) as (b' & Hb' & _ & _ & U). exists b'. auto.
  - intros v t (b & Hb & Ht). destruct (G v b Hb) as (b' & Hb' & _ & L & _). exists b'. auto.
  - intros v. split; intros (b & Hb & Hw).
    + assert (Hd : In v (dom s)) by (rewrite <- D; apply get_dom; eauto). apply get_dom in Hd. destruct Hd as (b0 & Hb0).
      destruct (G v b0 Hb0) as (b' & Hb' & Ew & _). exists b0. split; auto. congruence.
    + destruct (G v b Hb) as (b' & Hb' & Ew & _). exists b'. split; auto. congruence.
Qed.
Lemma same_keeps R s s' : same_but R s s' -> keeps s s' /\ (forall v t, above s' v t -> above s v t) /\ (forall v t, below s' v t -> below s v t) /\
  forall v, is_weak s' v <-> is_weak s v \/ R v /\ In v (dom s).
Proof.
  intros (D & _ & H).
  assert (B : forall v b', get v (vars_ s') = Some b' -> exists b, get v (vars_ s) = Some b /\ lows b' = lows b /\ ups b' = ups b /\ (weak b' = true <-> weak b = true \/ R v)).
  { intros v b' Hb'. assert (Hd : In v (dom s)) by (rewrite <- D; apply get_dom; eauto). apply get_dom in Hd. destruct Hd as (b0 & Hb0).
    destruct (H v b0 Hb0) as (b2 & Hb2 & X). exists b0. split; auto. replace b' with b2 by congruence. auto. }
  split; [split; [auto|split]|split; [|split]].
  - intros v t (b & Hb & Ht). destruct (H v b Hb) as (b' & Hb' & _ & U & _). exists b'. rewrite U. auto.
  - intros v t (b & Hb & Ht). destruct (H v b Hb) as (b' & Hb' & L & _). exists b'. rewrite L. auto.
  - intros v t (b' & Hb' & Ht). destruct (B v b' Hb') as (b & Hb & _ & U & _). exists b. rewrite <- U. auto.
  - intros v t (b' & Hb' & Ht). destruct (B v b' Hb') as (b & Hb & L & _). exists b. rewrite <- L. auto.
  - intros v. split.
    + intros (b' & Hb' & Hw). destruct (B v b' Hb') as (b & Hb & _ & _ & Ew). apply Ew in Hw. destruct Hw as [Hw|Hw]; [left; exists b; auto|].
      right. split; auto. apply get_dom. eauto.
    + intros [(b & Hb & Hw)|(Hr & Hd)].
      * destruct (H v b Hb) as (b' & Hb' & _ & _ & Ew). exists b'. split; auto. apply Ew. auto.
      * apply get_dom in Hd. destruct Hd as (b & Hb). destruct (H v b Hb) as (b' & Hb' & _ & _ & Ew). exists b'. split; auto. apply Ew. auto.
Qed.
Lemma only_loose e W s s' : only e W s s' -> loose e W s s'.
Proof.
  intros (A & B). split; auto. intros v t H. apply B in H. destruct H as [H|(u & b & Hu & Hb & ->)]; auto.
  right. exists u. split; auto. destruct (weak b) eqn:E; auto. right. split; auto. exists b. auto.
Qed.

Definition op_weakens (o : op) (v : nat) : Prop := match o with OWeak t => reached v t | _ => False end.

Lemma op_loose e n o s s' : good_env e -> op_tidy o -> do_op n e o s = Some s' ->
  loose e (asks e o) s s' /\ keeps s s' /\ forall v, is_weak s' v <-> is_weak s v \/ op_weakens o v.
Proof.
  intros He Ht H. assert (C : strong_op o \/ exists t, o = OWeak t) by (destruct o; cbn; eauto).
  destruct C as [C|(t & ->)].
  - split; [apply only_loose; eapply op_only; eauto|]. destruct (grows_keeps _ _ (strong_grows _ _ _ _ _ C H)) as (K & Wk).
    split; auto. intros v. rewrite Wk. destruct o; cbn in *; tauto.
  - cbn in H. destruct (weaken_weakens t) as (F & _). destruct (F _ _ H) as (Sm & Hd). apply same_keeps in Sm.
    destruct Sm as (K & A & B & Wk). split; [split; auto|]. split; auto. intros v. rewrite Wk. cbn. intuition auto.
Qed.

Lemma run_loose e n : good_env e -> forall os s s', (forall o, In o os -> op_tidy o) -> run n e os s = Some s' ->
  loose e (asked e os) s s' /\ keeps s s' /\ forall v, is_weak s' v <-> is_weak s v \/ weakened os v.
Proof.
  intros He. induction os as [|o os IH]; intros s s' Ht H; cbn in H.
  - injection H as <-. split; [split; auto|]. split; [split; auto|]. intros v. split; auto. intros [?|(t & [] & _)]; auto.
  - destruct (do_op n e o s) as [s1|] eqn:E; [|discriminate].
    destruct (op_loose _ _ _ _ _ He (Ht o (or_introl eq_refl)) E) as ((A1 & B1) & (D1 & K1 & K1') & W1).
    destruct (IH s1 s') as ((A2 & B2) & (D2 & K2 & K2') & W2); auto. { intros; apply Ht; right; auto. }
    split; [split|split; [split; [congruence|auto]|]].
    + intros v t Hv. apply A2 in Hv. destruct Hv as [Hv|(o' & Ho' & Hv)].
      * apply A1 in Hv. destruct Hv as [Hv|Hv]; auto. right. exists o. split; [left|]; auto.
      * right. exists o'. split; [right|]; auto.
    + intros v t Hv. apply B2 in Hv. destruct Hv as [Hv|(u & (o' & Ho' & Hv) & Hu)].
      * apply B1 in Hv. destruct Hv as [Hv|(u & Hv & Hu)]; auto. right. exists u. split; [exists o; split; [left|]; auto|].
        destruct Hu as [?|(Hw & ?)]; auto. right. split; auto. apply W2. auto.
      * right. exists u. split; auto. exists o'. split; [right|]; auto.
    + intros v. rewrite W2, W1. unfold weakened. split.
      * intros [[Hw|Hw]|(t & Hi & Hr)]; auto.
        -- destruct o; cbn in Hw; try contradiction. right. exists t. cbn. auto.
        -- right. exists t. cbn. auto.
      * intros [Hw|(t & [->|Hi] & Hr)]; auto. right. eauto.
Qed.

Lemma run_total e : good_env e -> forall os D, (forall o, In o os -> op_tidy o) -> (forall t, about os t -> inside D t) ->
  exists n, forall s, dom s = D -> exists s', run n e os s = Some s'.
Proof.
  intros He. induction os as [|o os IH]; intros D Ht Hi.
  - exists 0. intros s _. exists s. auto.
  - destruct (IH D) as (n2 & H2).
    { intros o' Ho. apply Ht. right; auto. } { intros t (o' & Ho & Hx). apply Hi. exists o'. split; [right|]; auto. }
    assert (Hi' : forall t, op_types o t -> inside D t) by (intros t Hx; apply Hi; exists o; split; [left|]; auto).
    assert (Hf : forall t, op_types o t -> fine D t).
    { intros t Hx. split; auto. apply (Ht o); [left; auto|auto]. }
    assert (H1 : exists n, forall s, dom s = D -> exists s', do_op n e o s = Some s').
    { destruct o as [a b|c|t]; cbn [do_op].
      - apply (halts_all e He D (size a + size b)); auto; apply Hf; cbn; auto.
      - destruct (halts_each D (fun n p => constrain n e (snd p) (fst p)) (matches e (c_sig c) (c_args c) (c_withs c))) as (n & Hn).
        + intros n m p s s'. apply constrain_fuel.
        + intros n p s s'. apply constrain_grows.
        + intros (r, t) Hr. apply (matches_in e c r t He) in Hr. apply passed_in in Hr. destruct Hr as (Hr & g & Hg & Hg').
          apply (halts_all e He D (size t + size r)); auto; apply Hf; cbn.
          * exists g. tauto.
          * exists (c_sig c). auto.
        + exists n. intros s Hs. unfold sig_inputs. destruct (existsb (call_eqb c) (seen s)); [eauto|]. apply Hn. auto.
      - exists 0. intros s Hs. destruct (weaken_weakens t) as (_ & F). apply F. intros v Hv. rewrite Hs.
        apply (Hi' t); [cbn; auto|]. clear -Hv. induction Hv; [constructor| | | | | | |];
          [eapply sub_low|eapply sub_up|eapply sub_union|eapply sub_comp|eapply sub_ins|eapply sub_with_sig|eapply sub_with_ins]; eauto. }
    destruct H1 as (n1 & H1). exists (n1 + n2). intros s Hs. destruct (H1 s Hs) as (s1 & E1). cbn.
    assert (E1' := op_fuel e n1 (n1 + n2) o s s1 ltac:(lia) E1). rewrite E1'.
    assert (Hd : dom s1 = D).
    { destruct (op_loose _ _ _ _ _ He (Ht o (or_introl eq_refl)) E1) as (_ & (Hd & _) & _). congruence. }
    destruct (H2 s1 Hd) as (s2 & E2). exists s2. revert E2. apply each_fuel. intros o' s3 s4 _. apply op_fuel. lia.
Qed.
