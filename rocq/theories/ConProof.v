(** Proofs about passing arguments, substitution, weakening and joining. *)
From Coq Require Import List Arith Bool Sorted Lia.
From Verif Require Import SimpModel SimpProof ConModel ConSpec.
Import ListNotations.

(** * Passing arguments *)

Lemma pos_of_eq e g : pos_of e g = s_pos e g.
Proof. unfold pos_of, s_pos, s_start. destruct (shape_of e (sh_ g)) as [[? ?] ?]. auto. Qed.
Lemma bone_of_eq e g : bone_of e g = s_names e g.
Proof. unfold bone_of, s_names. destruct (shape_of e (sh_ g)) as [[? ?] ?]. auto. Qed.
Lemma field_of_eq e g i : field_of e g i = nth_error (ins_ g) (s_start e g + i).
Proof. unfold field_of, s_start. destruct (shape_of e (sh_ g)) as [[? ?] ?]. cbn. f_equal. lia. Qed.
Lemma last_opt_ok {A} : forall (l : list A) t, last_opt l = Some t <-> exists l', l = l' ++ [t].
Proof.
  induction l as [|x l IH]; intros t; split.
  - discriminate.
  - intros ([|? ?] & H); discriminate.
  - destruct l as [|y l]; cbn.
    + intros E. injection E as <-. exists []. auto.
    + intros E. apply IH in E. destruct E as (l' & E). exists (x :: l'). rewrite E. auto.
  - intros (l' & E). destruct l as [|y l].
    + destruct l' as [|z l']; [|destruct l'; discriminate]. injection E as ->. auto.
    + change (last_opt (y :: l) = Some t). apply IH. destruct l' as [|z l']; [discriminate|].
      injection E as _ E. eauto.
Qed.
Lemma rest_of_ok e g t : rest_of e g = Some t <-> s_rest e g t.
Proof.
  unfold rest_of, s_rest, s_spread. destruct (shape_of e (sh_ g)) as [[? ?] b]. cbn.
  destruct b; [rewrite last_opt_ok; intuition auto|]. split; [discriminate|]. intros (? & _). discriminate.
Qed.

Lemma nth_repeat {A} : forall n i (t u : A), nth_error (repeat t n) i = Some u <-> i < n /\ t = u.
Proof.
  induction n as [|n IH]; intros [|i] t u; cbn; split; try discriminate; try lia.
  - intros E. injection E as <-. split; auto; lia.
  - intros (_ & ->). auto.
  - intros E. apply IH in E. intuition lia.
  - intros (H & ->). apply IH. split; auto; lia.
Qed.

Lemma stream_nth n l r i t :
  nth_error (stream n l r) i = Some t <-> i < n /\ slot l (fun x => r = Some x) i t.
Proof.
  unfold stream, slot.
  assert (F : forall (m : list ty), nth_error (firstn n m) i = Some t <-> i < n /\ nth_error m i = Some t).
  { revert i. induction n as [|n IH]; intros i m.
    - rewrite firstn_O. split; [destruct i; discriminate|lia].
    - destruct m as [|x m]; cbn.
      + split; [destruct i; discriminate|]. destruct i; intros (_ & E); discriminate.
      + destruct i as [|i]; cbn; [intuition lia|]. rewrite IH. intuition lia. }
  rewrite F. split; intros (Hi & H); split; auto.
  - destruct (Nat.lt_ge_cases i (length l)).
    + rewrite nth_error_app1 in H by auto. auto.
    + rewrite nth_error_app2 in H by auto. right. split; auto. destruct r as [x|]; [|destruct (i - length l); discriminate].
      apply nth_repeat in H. destruct H as (_ & ->). auto.
  - destruct H as [H|(H & ->)].
    + rewrite nth_error_app1; auto. apply nth_error_Some. congruence.
    + rewrite nth_error_app2 by auto. apply nth_repeat. split; auto. lia.
Qed.

Lemma combine_nth {A B} : forall (l : list A) (l' : list B) i x y,
  nth_error (combine l l') i = Some (x, y) <-> nth_error l i = Some x /\ nth_error l' i = Some y.
Proof.
  induction l as [|a l IH]; intros [|b l'] [|i] x y; cbn; try (split; [discriminate|intros (? & ?); discriminate]).
  - split; [intros E; injection E as -> ->; auto|]. intros (E & E'). congruence.
  - apply IH.
Qed.

Lemma ordered_tail x l : ordered (x :: l) -> ordered l.
Proof. intros H. inversion H; auto. Qed.
Lemma ordered_head x l y : ordered (x :: l) -> In y l -> x < y.
Proof. intros H Hy. inversion H as [|? ? _ F]; subst. rewrite Forall_forall in F. auto. Qed.

Lemma intersect_ok : forall l i r j a b, ordered l -> ordered r ->
  (In (a, b) (intersect l i r j) <-> exists a' b' k, a = i + a' /\ b = j + b' /\ nth_error l a' = Some k /\ nth_error r b' = Some k).
Proof.
  induction l as [|x l IH]; intros i r j a b Hl Hr.
  - cbn. split; [tauto|]. intros (a' & ? & ? & _ & _ & E & _). destruct a'; discriminate.
  - revert j. induction r as [|y r IHr]; intros j.
    + cbn. split; [tauto|]. intros (? & b' & ? & _ & _ & _ & E). destruct b'; discriminate.
    + assert (Hl' := ordered_tail _ _ Hl). assert (Hr' := ordered_tail _ _ Hr).
      change (intersect (x :: l) i (y :: r) j) with
        (if x <? y then intersect l (S i) (y :: r) j
         else if y <? x then intersect (x :: l) i r (S j)
         else (i, j) :: intersect l (S i) r (S j)).
      destruct (x <? y) eqn:E1; [|destruct (y <? x) eqn:E2].
      * apply Nat.ltb_lt in E1. rewrite IH by auto. split.
        -- intros (a' & b' & k & -> & -> & Ha & Hb). exists (S a'), b', k. repeat split; auto; lia.
        -- intros (a' & b' & k & -> & -> & Ha & Hb). destruct a' as [|a'].
           ++ injection Ha as <-. exfalso. destruct b' as [|b']; [injection Hb as ->; lia|].
              cbn in Hb. apply nth_error_In in Hb. pose proof (ordered_head _ _ _ Hr Hb). lia.
           ++ exists a', b', k. repeat split; auto; lia.
      * apply Nat.ltb_lt in E2. rewrite IHr by auto. split.
        -- intros (a' & b' & k & -> & -> & Ha & Hb). exists a', (S b'), k. repeat split; auto; lia.
        -- intros (a' & b' & k & -> & -> & Ha & Hb). destruct b' as [|b'].
           ++ injection Hb as <-. exfalso. destruct a' as [|a']; [injection Ha as ->; lia|].
              cbn in Ha. apply nth_error_In in Ha. pose proof (ordered_head _ _ _ Hl Ha). lia.
           ++ exists a', b', k. repeat split; auto; lia.
      * apply Nat.ltb_ge in E1, E2. assert (x = y) by lia. subst y. cbn [In]. rewrite IH by auto. split.
        -- intros [E|(a' & b' & k & -> & -> & Ha & Hb)].
           ++ injection E as <- <-. exists 0, 0, x. repeat split; auto; lia.
           ++ exists (S a'), (S b'), k. repeat split; auto; lia.
        -- intros (a' & b' & k & -> & -> & Ha & Hb). destruct a' as [|a'], b' as [|b'].
           ++ left. f_equal; lia.
           ++ injection Ha as <-. cbn in Hb. apply nth_error_In in Hb. pose proof (ordered_head _ _ _ Hr Hb). lia.
           ++ injection Hb as <-. cbn in Ha. apply nth_error_In in Ha. pose proof (ordered_head _ _ _ Hl Ha). lia.
           ++ right. exists a', b', k. repeat split; auto; lia.
Qed.

Lemma intersect_sorted : forall l i r j,
  StronglySorted (fun p q : nat * nat => fst p < fst q) (intersect l i r j) /\ (forall p, In p (intersect l i r j) -> i <= fst p).
Proof.
  induction l as [|x l IH]; intros i r j.
  - cbn. split; [constructor|tauto].
  - revert j. induction r as [|y r IHr]; intros j.
    + cbn. split; [constructor|tauto].
    + change (intersect (x :: l) i (y :: r) j) with
        (if x <? y then intersect l (S i) (y :: r) j
         else if y <? x then intersect (x :: l) i r (S j)
         else (i, j) :: intersect l (S i) r (S j)).
      destruct (x <? y); [|destruct (y <? x)].
      * destruct (IH (S i) (y :: r) j) as (A & C). split; auto. intros p Hp. specialize (C p Hp). lia.
      * apply IHr.
      * destruct (IH (S i) r (S j)) as (A & C). split.
        -- constructor; auto. apply Forall_forall. intros p Hp. specialize (C p Hp). cbn. lia.
        -- intros p [<-|Hp]; cbn; auto. specialize (C p Hp). lia.
Qed.

(** The matches with how each is passed. *)
Definition tagged := list ((nat * nat * nat) * (ty * ty)).

Definition tag_common (j : nat) (n1 : list nat) (f1 : nat -> option ty) (n2 : list nat) (f2 : nat -> option ty) : tagged :=
  flat_map (fun p => match f1 (fst p), f2 (snd p) with Some a, Some b => [((1, j, fst p), (a, b))] | _, _ => [] end) (intersect n1 0 n2 0).
Lemma tag_common_eq j n1 f1 n2 f2 : map snd (tag_common j n1 f1 n2 f2) = common n1 f1 n2 f2.
Proof.
  unfold tag_common, common. induction (intersect n1 0 n2 0) as [|p l IH]; auto. cbn [flat_map].
  rewrite map_app, IH. f_equal. destruct (f1 (fst p)), (f2 (snd p)); auto.
Qed.

Fixpoint tag_layers (e : env) (g : sg) (j : nat) (ws : list sg) : tagged :=
  match ws with
  | [] => []
  | w :: ws' => tag_common j (bone_of e g) (field_of e g) (bone_of e w) (field_of e w) ++ tag_layers e g (S j) ws'
  end.
Lemma tag_layers_eq e g : forall ws j,
  map snd (tag_layers e g j ws) = flat_map (fun w => common (bone_of e g) (field_of e g) (bone_of e w) (field_of e w)) ws.
Proof. induction ws as [|w ws IH]; intros j; auto. cbn [tag_layers flat_map]. rewrite map_app, tag_common_eq, IH. auto. Qed.

Fixpoint tag_pos (i : nat) (l : list (ty * ty)) : tagged :=
  match l with [] => [] | p :: l' => ((0, i, 0), p) :: tag_pos (S i) l' end.
Lemma tag_pos_eq : forall l i, map snd (tag_pos i l) = l.
Proof. induction l as [|p l IH]; intros i; cbn; f_equal; auto. Qed.
Lemma tag_pos_in : forall l i p x, In (p, x) (tag_pos i l) <-> exists k, p = (0, i + k, 0) /\ nth_error l k = Some x.
Proof.
  induction l as [|y l IH]; intros i p x; cbn.
  - split; [tauto|]. intros (k & _ & E). destruct k; discriminate.
  - rewrite IH. split.
    + intros [E|(k & -> & E)].
      * injection E as <- <-. exists 0. split; auto. rewrite Nat.add_0_r. auto.
      * exists (S k). split; auto. rewrite Nat.add_succ_r. auto.
    + intros ([|k] & -> & E).
      * left. injection E as <-. rewrite Nat.add_0_r. auto.
      * right. exists k. split; auto. rewrite Nat.add_succ_r. auto.
Qed.

Definition tag_all (e : env) (g args : sg) (withs : option (list sg)) : tagged :=
  let ws := match withs with Some l => l | None => [] end in
  let with_len := fold_right (fun w n => length (pos_of e w) + n) 0 ws in
  let both := match rest_of e g, rest_of e args with Some _, Some _ => 1 | _, _ => 0 end in
  let max_len := Nat.max (length (pos_of e g)) (with_len + length (pos_of e args)) + both in
  let arg_pos := flat_map (pos_of e) (rev ws) ++ pos_of e args in
  tag_pos 0 (combine (stream max_len (pos_of e g) (rest_of e g)) (stream max_len arg_pos (rest_of e args)))
    ++ tag_layers e g 0 (rev ws ++ [args]).
Lemma tag_all_eq e g args withs : map snd (tag_all e g args withs) = matches e g args withs.
Proof. unfold tag_all, matches. cbv zeta. rewrite map_app, tag_pos_eq, tag_layers_eq. auto. Qed.

Definition tbefore (x y : (nat * nat * nat) * (ty * ty)) : Prop := before (fst x) (fst y).

Lemma sorted_app {A} (R : A -> A -> Prop) : forall l l', StronglySorted R l -> StronglySorted R l' ->
  (forall x y, In x l -> In y l' -> R x y) -> StronglySorted R (l ++ l').
Proof.
  induction l as [|x l IH]; intros l' H H' HR; auto. cbn. inversion H as [|? ? Hs F]; subst.
  constructor.
  - apply IH; auto. intros y z Hy Hz. apply HR; auto. right; auto.
  - apply Forall_app. split; auto. apply Forall_forall. intros y Hy. apply HR; auto. left; auto.
Qed.

Lemma tag_pos_sorted : forall l i, StronglySorted tbefore (tag_pos i l).
Proof.
  induction l as [|x l IH]; intros i; cbn; constructor; auto.
  apply Forall_forall. intros (p & y) Hy. apply tag_pos_in in Hy. destruct Hy as (k & -> & _).
  unfold tbefore, before. cbn. right. split; auto. left. lia.
Qed.

Lemma tag_common_in j n1 f1 n2 f2 p a b : In (p, (a, b)) (tag_common j n1 f1 n2 f2) <->
  exists i k, In (i, k) (intersect n1 0 n2 0) /\ p = (1, j, i) /\ f1 i = Some a /\ f2 k = Some b.
Proof.
  unfold tag_common. rewrite in_flat_map. split.
  - intros ((i & k) & Hi & H). cbn [fst snd] in H. destruct (f1 i) eqn:E1; [|contradiction]. destruct (f2 k) eqn:E2; [|contradiction].
    destruct H as [H|[]]. injection H as <- <- <-. exists i, k. auto.
  - intros (i & k & Hi & -> & E1 & E2). exists (i, k). split; auto. cbn [fst snd]. rewrite E1, E2. left. auto.
Qed.

Lemma tag_common_sorted j n1 f1 n2 f2 : StronglySorted tbefore (tag_common j n1 f1 n2 f2).
Proof.
  unfold tag_common. destruct (intersect_sorted n1 0 n2 0) as (S & _). induction S as [|p l S IH F]; [constructor|].
  cbn [flat_map]. apply sorted_app; auto.
  - destruct (f1 (fst p)), (f2 (snd p)); repeat constructor.
  - intros x y Hx Hy. apply in_flat_map in Hy. destruct Hy as (q & Hq & Hy). rewrite Forall_forall in F. specialize (F q Hq).
    destruct (f1 (fst p)); [|contradiction]. destruct (f2 (snd p)); [|contradiction].
    destruct (f1 (fst q)); [|contradiction]. destruct (f2 (snd q)); [|contradiction].
    destruct Hx as [<-|[]], Hy as [<-|[]]. unfold tbefore, before. cbn. right. split; auto.
Qed.

Lemma tag_layers_in e g : forall ws j p a b, In (p, (a, b)) (tag_layers e g j ws) <->
  exists n w, nth_error ws n = Some w /\ In (p, (a, b)) (tag_common (j + n) (bone_of e g) (field_of e g) (bone_of e w) (field_of e w)).
Proof.
  induction ws as [|w ws IH]; intros j p a b; cbn [tag_layers].
  - split; [intros []|]. intros (n & ? & E & _). destruct n; discriminate.
  - rewrite in_app_iff, IH. split.
    + intros [H|(n & w' & E & H)].
      * exists 0, w. split; auto. rewrite Nat.add_0_r. auto.
      * exists (S n), w'. split; auto. rewrite Nat.add_succ_r. auto.
    + intros ([|n] & w' & E & H).
      * injection E as ->. rewrite Nat.add_0_r in H. auto.
      * right. exists n, w'. split; auto. rewrite Nat.add_succ_r in H. auto.
Qed.

Lemma tag_layers_sorted e g : forall ws j, StronglySorted tbefore (tag_layers e g j ws).
Proof.
  induction ws as [|w ws IH]; intros j; cbn [tag_layers]; [constructor|]. apply sorted_app; auto.
  - apply tag_common_sorted.
  - intros (p & a & b) (q & c & d) Hx Hy. apply tag_common_in in Hx. destruct Hx as (i & k & _ & -> & _).
    apply tag_layers_in in Hy. destruct Hy as (n & w' & _ & Hy). apply tag_common_in in Hy. destruct Hy as (i' & k' & _ & -> & _).
    unfold tbefore, before. cbn. right. split; auto. left. lia.
Qed.

Lemma tag_all_sorted e g args withs : StronglySorted tbefore (tag_all e g args withs).
Proof.
  unfold tag_all. cbv zeta. apply sorted_app; [apply tag_pos_sorted|apply tag_layers_sorted|].
  intros (p & x) (q & c & d) Hx Hy. apply tag_pos_in in Hx. destruct Hx as (k & -> & _).
  apply tag_layers_in in Hy. destruct Hy as (n & w & _ & Hy). apply tag_common_in in Hy. destruct Hy as (i & k' & _ & -> & _).
  unfold tbefore, before. cbn. left. lia.
Qed.

Lemma given_eq e args ws : flat_map (pos_of e) (rev ws) ++ pos_of e args = given e args ws.
Proof.
  unfold given. rewrite pos_of_eq. f_equal. rewrite flat_map_concat_map. f_equal. apply map_ext. intros g. apply pos_of_eq.
Qed.
Lemma given_len e args ws :
  fold_right (fun w n => length (pos_of e w) + n) 0 ws + length (pos_of e args) = length (given e args ws).
Proof.
  rewrite <- given_eq, app_length. f_equal.
  induction ws as [|w ws IH]; auto. cbn [fold_right rev]. rewrite flat_map_app, app_length, <- IH. cbn. rewrite app_nil_r. lia.
Qed.

Lemma slot_eq l e g i t : slot l (fun x => rest_of e g = Some x) i t <-> slot l (s_rest e g) i t.
Proof. unfold slot. rewrite rest_of_ok. tauto. Qed.

Lemma tag_all_in e g args withs p r t : good_env e ->
  (In (p, (r, t)) (tag_all e g args withs) <-> passed_at e g args (match withs with Some l => l | None => [] end) p r t).
Proof.
  intros (Hsh & _). unfold tag_all. cbv zeta. set (ws := match withs with Some l => l | None => [] end).
  rewrite given_len, given_eq, in_app_iff, tag_pos_in, tag_layers_in.
  set (both := match rest_of e g, rest_of e args with Some _, Some _ => 1 | _, _ => 0 end).
  split.
  - intros [(k & -> & H)|(n & w & Hw & H)].
    + apply combine_nth in H. destruct H as (H1 & H2). apply stream_nth in H1, H2.
      destruct H1 as (Hk & H1), H2 as (_ & H2). apply at_pos.
      * rewrite pos_of_eq in *. destruct (Nat.lt_ge_cases k (length (s_pos e g))); auto.
        destruct (Nat.lt_ge_cases k (length (given e args ws))); auto. right. right.
        subst both. destruct (rest_of e g) eqn:E1; [|lia]. destruct (rest_of e args) eqn:E2; [|lia].
        split; [lia|]. apply rest_of_ok in E1, E2. eauto.
      * apply slot_eq. rewrite <- pos_of_eq. auto.
      * apply slot_eq. auto.
    + apply tag_common_in in H. destruct H as (i & k & Hi & -> & H1 & H2).
      rewrite !bone_of_eq in Hi. apply intersect_ok in Hi; [|apply Hsh|apply Hsh].
      destruct Hi as (a' & b' & x & -> & -> & Ha & Hb). cbn [Nat.add] in *. rewrite field_of_eq in *.
      eapply at_name; eauto. exists b'. auto.
  - intros [i r' t' Hi H1 H2|j w i k r' t' Hw Hk Hr Ht].
    + left. exists i. split; auto. apply combine_nth. rewrite !stream_nth, !slot_eq, !pos_of_eq.
      assert (i < Nat.max (length (s_pos e g)) (length (given e args ws)) + both).
      { destruct Hi as [Hi|[Hi|(-> & (t1 & Hi1) & (t2 & Hi2))]]; try lia.
        subst both. apply rest_of_ok in Hi1, Hi2. rewrite Hi1, Hi2. lia. }
      auto.
    + right. exists j, w. split; auto. apply tag_common_in. destruct Ht as (i' & Hi' & Ht). exists i, i'.
      rewrite !bone_of_eq, !field_of_eq. split; auto. apply intersect_ok; [apply Hsh|apply Hsh|].
      exists i, i', k. auto.
Qed.

Lemma matches_in e c r t : good_env e ->
  (In (r, t) (matches e (c_sig c) (c_args c) (c_withs c)) <-> passed e c r t).
Proof.
  intros He. rewrite <- tag_all_eq, in_map_iff. unfold passed. split.
  - intros ((p & x) & E & H). cbn in E. subst x. apply tag_all_in in H; eauto.
  - intros (p & H). exists (p, (r, t)). split; auto. apply tag_all_in; auto.
Qed.

(** * Substitution *)

Lemma get_split {A} : forall (B : list (nat * A)) v u,
  get v B = Some u <-> exists B1 B2, B = B1 ++ (v, u) :: B2 /\ ~ In v (map fst B1).
Proof.
  induction B as [|(x, a) B IH]; intros v u; cbn.
  - split; [discriminate|]. intros ([|? ?] & ? & E & _); discriminate.
  - destruct (v =? x) eqn:E.
    + apply Nat.eqb_eq in E. subst x. split.
      * intros H. injection H as <-. exists [], B. auto.
      * intros ([|(y, c) B1] & B2 & E & Hn); cbn in *; [congruence|]. injection E as <- <- _. tauto.
    + apply Nat.eqb_neq in E. rewrite IH. split.
      * intros (B1 & B2 & -> & Hn). exists ((x, a) :: B1), B2. split; auto. cbn. intros [?|?]; auto.
      * intros ([|(y, c) B1] & B2 & E' & Hn); cbn in *; [congruence|]. injection E' as -> -> ->. exists B1, B2. split; auto.
Qed.

Lemma before_trans p q r : before p q -> before q r -> before p r.
Proof. destruct p as [[? ?] ?], q as [[? ?] ?], r as [[? ?] ?]. unfold before. lia. Qed.

Lemma bind_all_get : forall (L : tagged) B v, StronglySorted tbefore L ->
  (exists p u, In (p, (TVar v, u)) L /\ (forall q u', In (q, (TVar v, u')) L -> q = p \/ before q p) /\ get v (bind_all (map snd L) B) = Some u) \/
  ((forall p u, ~ In (p, (TVar v, u)) L) /\ get v (bind_all (map snd L) B) = get v B).
Proof.
  induction L as [|(p & r & t) L IH]; intros B v HS; cbn [map snd].
  - right. split; auto.
  - inversion HS as [|? ? HS' F]; subst. rewrite Forall_forall in F.
    assert (Hhd : r = TVar v \/ r <> TVar v).
    { destruct r; try (right; discriminate). destruct (Nat.eq_dec v0 v); [left; congruence|right; congruence]. }
    set (B' := match r with TVar w => (w, t) :: B | _ => B end).
    assert (Eb : bind_all ((r, t) :: map snd L) B = bind_all (map snd L) B') by (unfold B'; destruct r; auto).
    rewrite Eb.
    destruct (IH B' v HS') as [(q & u & Hq & Hmax & E)|(Hno & E)].
    + left. exists q, u. split; [right; auto|]. split; auto. intros q' u' [Hq'|Hq']; eauto.
      injection Hq' as -> -> ->. right. apply (F _ Hq).
    + rewrite E. destruct Hhd as [->|Hr].
      * left. exists p, t. split; [left; auto|]. split.
        -- intros q u' [Hq|Hq]; [injection Hq as <- <-; auto|]. exfalso. eapply Hno; eauto.
        -- unfold B'. cbn. rewrite Nat.eqb_refl. auto.
      * right. split.
        -- intros q u [Hq|Hq]; [congruence|]. eapply Hno; eauto.
        -- unfold B'. destruct r; auto. cbn. destruct (v =? v0) eqn:Ev; auto. apply Nat.eqb_eq in Ev. congruence.
Qed.

Lemma before_irrefl p : ~ before p p.
Proof. destruct p as [[? ?] ?]. unfold before. lia. Qed.

Lemma sorted_unique : forall (L : tagged) p x y, StronglySorted tbefore L -> In (p, x) L -> In (p, y) L -> x = y.
Proof.
  induction L as [|z L IH]; intros p x y HS Hx Hy; [contradiction|]. inversion HS as [|? ? HS' F]; subst. rewrite Forall_forall in F.
  destruct Hx as [->|Hx], Hy as [Hy|Hy].
  - congruence.
  - exfalso. apply (before_irrefl p). apply (F _ Hy).
  - subst z. exfalso. apply (before_irrefl p). apply (F _ Hx).
  - eauto.
Qed.

Lemma bound_by_ok e B g args withs v u : good_env e ->
  (get v (bind_all (matches e g args withs) B) = Some u <->
   bound_by e B g args (match withs with Some l => l | None => [] end) v u).
Proof.
  intros He. rewrite <- tag_all_eq. pose proof (tag_all_sorted e g args withs) as HS.
  unfold bound_by. destruct (bind_all_get _ B v HS) as [(p & u0 & Hp & Hmax & E)|(Hno & E)]; rewrite E.
  - split.
    + intros Hu. injection Hu as ->. left. exists p. split; [apply tag_all_in; auto|].
      intros q u' Hq. eapply Hmax. apply tag_all_in; eauto.
    + intros [(q & Hq & Hqm)|(Hn & _)].
      * apply tag_all_in in Hq; auto. f_equal.
        assert (p = q).
        { assert (A := Hmax _ _ Hq). assert (C := Hqm p u0). rewrite <- tag_all_in in C by auto.
          specialize (C Hp). destruct A as [->|A]; auto. destruct C as [->|C]; auto.
          exfalso. eapply before_irrefl. eapply before_trans; eauto. }
        subst q. assert (X := sorted_unique _ _ _ _ HS Hp Hq). congruence.
      * exfalso. eapply Hn. apply tag_all_in; eauto.
  - rewrite get_split. split.
    + intros H. right. split; auto. intros p u' Hp. eapply Hno. apply tag_all_in; eauto.
    + intros [(q & Hq & _)|(_ & H)]; auto. exfalso. apply tag_all_in in Hq; auto. eapply Hno; eauto.
Qed.

Lemma mutate_vec_or f l : or_else (mutate_vec f l) l = map (fun t => or_else (f t) t) l.
Proof.
  unfold mutate_vec.
  assert (H : fst (mutate_all f l) = map (fun t => or_else (f t) t) l /\ (snd (mutate_all f l) = false -> fst (mutate_all f l) = l)).
  { induction l as [|t l IH]; auto. cbn. destruct (mutate_all f l) as (r & m). cbn in IH. destruct IH as (-> & IH).
    destruct (f t); cbn; split; auto; try discriminate. intros Hm. f_equal. auto. }
  destruct (mutate_all f l) as (r & m). cbn in H. destruct H as (H & H'). destruct m; cbn; auto. rewrite <- H. symmetry. auto.
Qed.
Lemma mutate_option_or f o : or_else (mutate_option f o) o = match o with Some t => Some (or_else (f t) t) | None => None end.
Proof. destruct o as [t|]; auto. cbn. destruct (f t); auto. Qed.

Lemma subst_puts (bound : nat -> ty -> Prop) B : (forall v u, get v B = Some u <-> bound v u) ->
  forall t, puts bound t (or_else (subst B t) t).
Proof.
  intros HB. set (f := fun t => or_else (subst B t) t).
  assert (HF : forall l, Forall (fun t => puts bound t (f t)) l -> Forall2 (puts bound) l (map f l)).
  { induction 1; cbn; constructor; auto. }
  assert (HV : forall l, Forall (fun t => puts bound t (f t)) l -> Forall2 (puts bound) l (or_else (mutate_vec (subst B) l) l)).
  { intros l H. rewrite mutate_vec_or. apply HF. auto. }
  induction t as [|m|v|l u Hl Hu|l Hl|k l Hl|k sh l o Hl Ho|g sh l o Hg Hl Ho] using ty_ind2; cbn [subst].
  - constructor.
  - constructor.
  - destruct (get v B) as [u|] eqn:E; cbn.
    + apply puts_bound. apply HB. auto.
    + apply puts_free. intros u Hu. apply HB in Hu. congruence.
  - constructor.
  - apply HV in Hl. destruct (mutate_vec (subst B) l); cbn in *; constructor; auto.
  - apply HV in Hl. destruct (mutate_vec (subst B) l); cbn in *; constructor; auto.
  - apply HV in Hl.
    assert (E : match mutate_func (subst B) l o with Some (l', o') => Some (TSig k sh l' o') | None => None end = None
                /\ mutate_vec (subst B) l = None /\ mutate_option (subst B) o = None \/
                match mutate_func (subst B) l o with Some (l', o') => Some (TSig k sh l' o') | None => None end =
                Some (TSig k sh (or_else (mutate_vec (subst B) l) l) (or_else (mutate_option (subst B) o) o))).
    { unfold mutate_func. destruct (mutate_vec (subst B) l), (mutate_option (subst B) o); auto. }
    destruct E as [(E & E1 & E2)|E]; rewrite E; cbn [or_else].
    + rewrite E1 in Hl. cbn in Hl. destruct o as [b|]; [|constructor; auto].
      cbn in Ho, E2. destruct (subst B b) eqn:Eb; [discriminate|]. cbn in Ho. constructor; auto.
    + rewrite mutate_option_or. destruct o as [b|]; constructor; auto.
  - apply HV in Hl. fold (f g) in Hg.
    assert (E : let r := match subst B g with
                    | None => match mutate_func (subst B) l o with
                              | None => None | Some (l', o') => Some (TWith (or_else (subst B g) g) sh l' o') end
                    | Some _ => match mutate_func (subst B) l o with
                              | None => Some (TWith (or_else (subst B g) g) sh l o)
                              | Some (l', o') => Some (TWith (or_else (subst B g) g) sh l' o') end
                    end in
                (or_else r (TWith g sh l o) = TWith (f g) sh (or_else (mutate_vec (subst B) l) l) (or_else (mutate_option (subst B) o) o))).
    { unfold f, mutate_func. destruct (subst B g); destruct (mutate_vec (subst B) l), (mutate_option (subst B) o); auto. }
    match goal with |- puts _ _ ?x => replace x with (TWith (f g) sh (or_else (mutate_vec (subst B) l) l) (or_else (mutate_option (subst B) o) o)) end.
    + rewrite mutate_option_or. destruct o as [b|]; constructor; auto.
    + cbv zeta in E. rewrite <- E. destruct (subst B g); auto; destruct (mutate_func (subst B) l o) as [(? & ?)|]; auto.
Qed.

(** * Joining *)

Lemma those_fun P : forall l r r', those P l r -> those P l r' -> r = r'.
Proof.
  induction l as [|t l IH]; intros r r' H H'; inversion H; inversion H'; subst; auto; try contradiction.
  f_equal. auto.
Qed.

Lemma silent_ok e t : silent e t = true <-> exists n, t = TLeaf n /\ leaf_of e n = LSilent.
Proof.
  destruct t; cbn; try (split; [discriminate|intros (? & ? & _); discriminate]).
  split.
  - intros H. exists n. split; auto. destruct (leaf_of e n); auto; discriminate.
  - intros (m & E & H). injection E as ->. rewrite H. auto.
Qed.

Lemma those_snoc P : forall l r t, those P l r -> (P t -> those P (l ++ [t]) (r ++ [t])) /\ (~ P t -> those P (l ++ [t]) r).
Proof.
  induction 1 as [|x l r Hx H IH|x l r Hx H IH]; cbn.
  - split; intros Ht; constructor; auto; constructor.
  - destruct IH as (A & C). split; intros Ht; constructor; auto.
  - destruct IH as (A & C). split; intros Ht; constructor; auto.
Qed.

Lemma block_inv e ts : join_env e -> exists vs ds,
  those is_var ts vs /\ those (decided e) ts ds /\
  possibles (fold_left (fun j t => join e t j) ts (joiner0 e)) = vs /\
  definite (fold_left (fun j t => join e t j) ts (joiner0 e)) =
    match ds with [] => TLeaf (none_leaf e) | [t] => t | _ => TLeaf (undef_leaf e) end.
Proof.
  intros (Hn & Hu). induction ts as [|t ts IH] using rev_ind.
  - exists [], []. repeat split; constructor.
  - destruct IH as (vs & ds & Hv & Hd & Ep & Ed). rewrite fold_left_app. cbn [fold_left].
    set (j := fold_left (fun j t => join e t j) ts (joiner0 e)) in *.
    destruct (those_snoc _ _ _ t Hv) as (Vy & Vn). destruct (those_snoc _ _ _ t Hd) as (Dy & Dn).
    assert (Hds : forall x, In x ds -> decided e x).
    { clear -Hd. induction Hd; intros y Hy; [contradiction| |auto]. destruct Hy as [<-|Hy]; auto. }
    assert (HdA : definite j <> TAny).
    { rewrite Ed. destruct ds as [|x [|y ds]]; try discriminate. intros ->. destruct (Hds TAny) as (A & _); [left; auto|]. apply A. left. auto. }
    unfold join. destruct (silent e t) eqn:Es.
    + apply silent_ok in Es. exists vs, ds. assert (N : nothing e t) by (right; auto).
      destruct Es as (n & -> & _). repeat split; auto.
      * apply Vn. intros (? & ?). discriminate.
      * apply Dn. intros (? & _). auto.
    + assert (Hs : ~ exists n, t = TLeaf n /\ leaf_of e n = LSilent) by (rewrite <- silent_ok; congruence).
      assert (Hcase : t = TAny \/ (exists v, t = TVar v) \/ decided e t).
      { destruct t; try (left; reflexivity); right; try (left; eexists; reflexivity); right; (split; [intros [?|?]; [discriminate|auto]|intros (? & ?); discriminate]). }
      destruct Hcase as [->|[(v & ->)|Hdec]].
      * exists vs, ds. repeat split; auto.
        -- apply Vn. intros (? & ?). discriminate.
        -- apply Dn. intros (A & _). apply A. left. auto.
      * exists (vs ++ [TVar v]), ds. split; [apply Vy; eexists; reflexivity|]. split.
        -- apply Dn. intros (_ & A). apply A. eexists. reflexivity.
        -- destruct (definite j) eqn:E; try congruence; cbn; rewrite Ep; auto.
      * exists vs, (ds ++ [t]). split; [apply Vn; apply Hdec|]. split; [auto|].
        assert (HtA : t <> TAny) by (intros ->; destruct Hdec as (A & _); apply A; left; auto).
        assert (HtV : forall v, t <> TVar v) by (intros v ->; destruct Hdec as (_ & A); apply A; eexists; eauto).
        assert (Ej : (match t, definite j with
                      | TAny, _ | _, TAny => j
                      | TVar _, _ => {| definite := definite j; possibles := possibles j ++ [t] |}
                      | _, d => {| definite := if ty_eqb d (TLeaf (none_leaf e)) then t else TLeaf (undef_leaf e); possibles := possibles j |}
                      end) = {| definite := if ty_eqb (definite j) (TLeaf (none_leaf e)) then t else TLeaf (undef_leaf e); possibles := possibles j |}).
        { destruct t; try congruence; destruct (definite j); congruence. }
        rewrite Ej. clear Ej. cbn [possibles definite]. split; [auto|]. rewrite Ed. clear Ed HdA.
        destruct (ty_eqb _ _) eqn:Eq.
        -- apply ty_eqb_ok in Eq. destruct ds as [|x [|y ds]]; cbn [app]; [reflexivity| |].
           ++ subst x. exfalso. destruct (Hds (TLeaf (none_leaf e))) as (A & _); [left; auto|]. apply A. right. eauto.
           ++ injection Eq as Eq. congruence.
        -- destruct ds as [|x [|y ds]]; cbn [app]; [|reflexivity|reflexivity].
           assert (X : ty_eqb (TLeaf (none_leaf e)) (TLeaf (none_leaf e)) = true) by (apply ty_eqb_ok; auto). congruence.
Qed.

Lemma block_ok e ts t : join_env e -> (block e ts = t <-> joins e ts t).
Proof.
  intros He. destruct (block_inv e ts He) as (vs & ds & Hv & Hd & Ep & Ed).
  unfold block, finalize. rewrite Ep, Ed. split.
  - intros <-. destruct vs as [|v [|w vs]].
    + destruct ds as [|x [|y ds]]; [eapply joins_none|eapply joins_one|eapply joins_more]; eauto.
    + eapply joins_var; eauto.
    + eapply joins_vars; eauto.
  - intros H. destruct H as [A C|x A C|x y l A C|x A|x y l A]; rewrite (those_fun _ _ _ _ Hv A);
      try rewrite (those_fun _ _ _ _ Hd C); reflexivity.
Qed.
