(** Proofs about constraints and weakening. *)
From Coq Require Import List Arith Bool Sorted Lia.
From Verif Require Import SimpModel SimpProof ConModel ConSpec ConProof.
Import ListNotations.

(** * States *)

Lemma get_put {A} : forall (l : list (nat * A)) k v a,
  get k (put v a l) = if k =? v then match get v l with Some _ => Some a | None => None end else get k l.
Proof.
  induction l as [|(x, b) l IH]; intros k v a; cbn; [destruct (k =? v); auto|].
  destruct (v =? x) eqn:E; cbn.
  - apply Nat.eqb_eq in E. subst x. destruct (k =? v) eqn:E2; auto.
  - rewrite IH. destruct (k =? x) eqn:E2; auto. destruct (k =? v) eqn:E3; auto.
    apply Nat.eqb_eq in E2, E3. subst. rewrite Nat.eqb_refl in E. discriminate.
Qed.
Lemma dom_put {A} : forall (l : list (nat * A)) v a, map fst (put v a l) = map fst l.
Proof. induction l as [|(x, b) l IH]; intros v a; cbn; auto. destruct (v =? x); cbn; f_equal; auto. Qed.
Lemma get_dom {A} : forall (l : list (nat * A)) v, In v (map fst l) <-> exists a, get v l = Some a.
Proof.
  induction l as [|(x, b) l IH]; intros v; cbn; [split; [tauto|intros (? & ?); discriminate]|].
  destruct (v =? x) eqn:E.
  - apply Nat.eqb_eq in E. subst. split; eauto.
  - apply Nat.eqb_neq in E. rewrite <- IH. split; [intros [?|?]; auto; congruence|auto].
Qed.
Lemma add_in t l x : In x (add t l) <-> x = t \/ In x l.
Proof.
  unfold add. destruct (existsb (ty_eqb t) l) eqn:E; cbn; [|intuition auto].
  split; [auto|]. intros [->|H]; auto. apply existsb_exists in E. destruct E as (y & Hy & E). apply ty_eqb_ok in E. subst. auto.
Qed.

(** Nothing but bounds changes, and none goes. *)
Definition grows (s s' : st) : Prop :=
  dom s' = dom s /\
  forall v b, get v (vars_ s) = Some b -> exists b', get v (vars_ s') = Some b' /\ weak b' = weak b /\ incl (lows b) (lows b') /\ incl (ups b) (ups b').
Lemma grows_refl s : grows s s.
Proof. split; auto. intros v b H. exists b. repeat split; auto; apply incl_refl. Qed.
Lemma grows_trans s1 s2 s3 : grows s1 s2 -> grows s2 s3 -> grows s1 s3.
Proof.
  intros (D1 & G1) (D2 & G2). split; [congruence|]. intros v b H.
  destruct (G1 v b H) as (b' & H' & W & L & U). destruct (G2 v b' H') as (b2 & H2 & W2 & L2 & U2).
  exists b2. repeat split; auto; try congruence; eapply incl_tran; eauto.
Qed.
Lemma grows_seen s c : grows s {| vars_ := vars_ s; seen := c :: seen s |}.
Proof. apply (grows_refl s). Qed.

Lemma upper_ok v t s s' : upper v t s = Some s' -> grows s s' /\ seen s' = seen s /\ above s' v t /\
  (forall w u, above s' w u -> above s w u \/ w = v /\ u = t) /\ (forall w u, below s' w u -> below s w u).
Proof.
  unfold upper. destruct (get v (vars_ s)) as [b|] eqn:E; [|discriminate]. intros H. injection H as <-.
  unfold grows, above, below, dom. cbn. rewrite dom_put.
  assert (P : forall w, get w (put v {| weak := weak b; lows := lows b; ups := add t (ups b) |} (vars_ s)) =
    if w =? v then Some {| weak := weak b; lows := lows b; ups := add t (ups b) |} else get w (vars_ s)).
  { intros w. rewrite get_put, E. auto. }
  split; [|split; [|split; [|split]]]; auto.
  - split; auto. intros w c Hc. rewrite P. destruct (w =? v) eqn:Ew.
    + apply Nat.eqb_eq in Ew. subst w. rewrite E in Hc. injection Hc as <-. eexists. split; [reflexivity|]. cbn. repeat split.
      * apply incl_refl.
      * intros x Hx. apply add_in. auto.
    + exists c. repeat split; auto; apply incl_refl.
  - rewrite P, Nat.eqb_refl. eexists. split; [reflexivity|]. cbn. apply add_in. auto.
  - intros w u (c & Hc & Hu). rewrite P in Hc. destruct (w =? v) eqn:Ew; [|eauto].
    apply Nat.eqb_eq in Ew. subst w. injection Hc as <-. cbn in Hu. apply add_in in Hu. destruct Hu; auto. left. eauto.
  - intros w u (c & Hc & Hu). rewrite P in Hc. destruct (w =? v) eqn:Ew; [|eauto].
    apply Nat.eqb_eq in Ew. subst w. injection Hc as <-. cbn in Hu. eauto.
Qed.

Lemma lower_ok e v t s s' : lower e v t s = Some s' -> exists b, get v (vars_ s) = Some b /\
  grows s s' /\ seen s' = seen s /\ below s' v (weaken_constraint e t (weak b)) /\
  (forall w u, below s' w u -> below s w u \/ w = v /\ u = weaken_constraint e t (weak b)) /\ (forall w u, above s' w u -> above s w u).
Proof.
  unfold lower. destruct (get v (vars_ s)) as [b|] eqn:E; [|discriminate]. intros H. injection H as <-. exists b. split; auto.
  set (t' := weaken_constraint e t (weak b)).
  unfold grows, above, below, dom. cbn. rewrite dom_put.
  assert (P : forall w, get w (put v {| weak := weak b; lows := add t' (lows b); ups := ups b |} (vars_ s)) =
    if w =? v then Some {| weak := weak b; lows := add t' (lows b); ups := ups b |} else get w (vars_ s)).
  { intros w. rewrite get_put, E. auto. }
  split; [|split; [|split; [|split]]]; auto.
  - split; auto. intros w c Hc. rewrite P. destruct (w =? v) eqn:Ew.
    + apply Nat.eqb_eq in Ew. subst w. rewrite E in Hc. injection Hc as <-. eexists. split; [reflexivity|]. cbn. repeat split.
      * intros x Hx. apply add_in. auto.
      * apply incl_refl.
    + exists c. repeat split; auto; apply incl_refl.
  - rewrite P, Nat.eqb_refl. eexists. split; [reflexivity|]. cbn. apply add_in. auto.
  - intros w u (c & Hc & Hu). rewrite P in Hc. destruct (w =? v) eqn:Ew; [|eauto].
    apply Nat.eqb_eq in Ew. subst w. injection Hc as <-. cbn in Hu. apply add_in in Hu. destruct Hu; auto. left. eauto.
  - intros w u (c & Hc & Hu). rewrite P in Hc. destruct (w =? v) eqn:Ew; [|eauto].
    apply Nat.eqb_eq in Ew. subst w. injection Hc as <-. cbn in Hu. eauto.
Qed.

(** * One step *)

Inductive step := Done | DoUp (v : nat) | DoLow (v : nat) | DoEach (l : list (ty * ty)) | DoCall (c : call).

Definition plan (e : env) (a b : ty) : step :=
  if ty_eqb a b then Done
  else
    match var_of a, var_of b with
    | Some _, Some _ => Done
    | Some v, None => DoUp v
    | None, Some v => DoLow v
    | None, None =>
    match union_of a, union_of b with
    | Some l, _ => DoEach (map (fun t => (t, b)) l)
    | None, Some l => DoEach (map (fun t => (a, t)) l)
    | None, None =>
    match flow_of e b, flow_of e a with
    | Some d, _ => if is_dict a then DoEach [(a, d)] else Done
    | None, Some d => if is_dict b then DoEach [(d, b)] else Done
    | None, None =>
    match dict_of a, dict_of b with
    | Some (n1, l1), Some (n2, l2) => DoEach (common n1 (nth_error l1) n2 (nth_error l2))
    | _, _ =>
    match unary_of a, unary_of b with
    | Some (o1, x), Some (o2, y) => if o1 =? o2 then DoEach [(x, y)] else Done
    | Some (o, x), None => if (o =? type_of) && is_ty e b then DoEach [(x, b)] else Done
    | None, Some (o, y) => if (o =? type_of) && is_ty e a then DoEach [(a, y)] else Done
    | None, None =>
    match func_of a, func_of b with
    | Some g1, Some g2 => DoCall {| c_sig := g1; c_args := g2; c_withs := None |}
    | _, _ => Done
    end end end end end end.

Lemma each_one {A S} (f : A -> S -> option S) a s : each f [a] s = f a s.
Proof. cbn. destruct (f a s); auto. Qed.
Lemma each_map {A B S} (f : B -> S -> option S) (g : A -> B) : forall l s, each f (map g l) s = each (fun a => f (g a)) l s.
Proof. induction l as [|a l IH]; intros s; cbn; auto. destruct (f (g a) s); auto. Qed.

Lemma constrain_S n e a b s : constrain (S n) e a b s =
  match plan e a b with
  | Done => Some s
  | DoUp v => upper v b s
  | DoLow v => lower e v a s
  | DoEach l => each (fun p => constrain n e (fst p) (snd p)) l s
  | DoCall c => sig_inputs (constrain n e) e c s
  end.
Proof.
  cbn [constrain]. unfold plan. destruct (ty_eqb a b); [reflexivity|].
  destruct (var_of a), (var_of b); try reflexivity.
  destruct (union_of a), (union_of b); try (rewrite each_map; reflexivity).
  destruct (flow_of e b), (flow_of e a);
    try (destruct (is_dict a); [rewrite each_one|]; reflexivity); try (destruct (is_dict b); [rewrite each_one|]; reflexivity).
  assert (X : match unary_of a, unary_of b with
        | Some (o1, x), Some (o2, y) => if o1 =? o2 then constrain n e x y s else Some s
        | Some (o, x), None => if (o =? type_of) && is_ty e b then constrain n e x b s else Some s
        | None, Some (o, y) => if (o =? type_of) && is_ty e a then constrain n e a y s else Some s
        | None, None =>
        match func_of a, func_of b with
        | Some g1, Some g2 => sig_inputs (constrain n e) e {| c_sig := g1; c_args := g2; c_withs := None |} s
        | _, _ => Some s
        end end =
     match match unary_of a, unary_of b with
           | Some (o1, x), Some (o2, y) => if o1 =? o2 then DoEach [(x, y)] else Done
           | Some (o, x), None => if (o =? type_of) && is_ty e b then DoEach [(x, b)] else Done
           | None, Some (o, y) => if (o =? type_of) && is_ty e a then DoEach [(a, y)] else Done
           | None, None =>
           match func_of a, func_of b with
           | Some g1, Some g2 => DoCall {| c_sig := g1; c_args := g2; c_withs := None |}
           | _, _ => Done
           end end with
     | Done => Some s
     | DoUp v => upper v b s
     | DoLow v => lower e v a s
     | DoEach l => each (fun p => constrain n e (fst p) (snd p)) l s
     | DoCall c => sig_inputs (constrain n e) e c s
     end).
  { destruct (unary_of a) as [(o1, x)|], (unary_of b) as [(o2, y)|].
    - destruct (o1 =? o2); [rewrite each_one|]; reflexivity.
    - destruct ((o1 =? type_of) && is_ty e b); [rewrite each_one|]; reflexivity.
    - destruct ((o2 =? type_of) && is_ty e a); [rewrite each_one|]; reflexivity.
    - destruct (func_of a), (func_of b); reflexivity. }
  destruct (dict_of a) as [(n1, l1)|]; [destruct (dict_of b) as [(n2, l2)|]; [reflexivity|apply X]|apply X].
Qed.

Definition kids (e : env) (a b : ty) : list (ty * ty) :=
  match plan e a b with
  | DoEach l => l
  | DoCall c => map (fun p => (snd p, fst p)) (matches e (c_sig c) (c_args c) (c_withs c))
  | _ => []
  end.

Inductive view (e : env) : ty -> ty -> step -> Prop :=
| v_up v b : ~ is_var b -> view e (TVar v) b (DoUp v)
| v_low a v : ~ is_var a -> view e a (TVar v) (DoLow v)
| v_union_l l b : TUnion l <> b -> ~ is_var b -> view e (TUnion l) b (DoEach (map (fun t => (t, b)) l))
| v_union_r a l : ~ is_union a -> ~ is_var a -> view e a (TUnion l) (DoEach (map (fun t => (a, t)) l))
| v_flow_r n1 l1 n names types : leaf_of e n = LFlow names types ->
    view e (TComp (CDict n1) l1) (TLeaf n) (DoEach [(TComp (CDict n1) l1, TComp (CDict names) types)])
| v_flow_l n names types n2 l2 : leaf_of e n = LFlow names types ->
    view e (TLeaf n) (TComp (CDict n2) l2) (DoEach [(TComp (CDict names) types, TComp (CDict n2) l2)])
| v_dict n1 l1 n2 l2 : TComp (CDict n1) l1 <> TComp (CDict n2) l2 ->
    view e (TComp (CDict n1) l1) (TComp (CDict n2) l2) (DoEach (common n1 (nth_error l1) n2 (nth_error l2)))
| v_unary o x y : x <> y -> view e (TComp (CUnary o) [x]) (TComp (CUnary o) [y]) (DoEach [(x, y)])
| v_type_l x b : a_type e b -> view e (TComp (CUnary type_of) [x]) b (DoEach [(x, b)])
| v_type_r a y : a_type e a -> view e a (TComp (CUnary type_of) [y]) (DoEach [(a, y)])
| v_func sh1 l1 o1 sh2 l2 o2 : TSig SFunc sh1 l1 o1 <> TSig SFunc sh2 l2 o2 ->
    view e (TSig SFunc sh1 l1 o1) (TSig SFunc sh2 l2 o2)
      (DoCall {| c_sig := {| sh_ := sh1; ins_ := l1; body_ := o1 |}; c_args := {| sh_ := sh2; ins_ := l2; body_ := o2 |}; c_withs := None |}).

Lemma var_of_some t v : var_of t = Some v -> t = TVar v.
Proof. destruct t; cbn; congruence. Qed.
Lemma var_of_none t : var_of t = None <-> ~ is_var t.
Proof. unfold is_var. destruct t; cbn; split; try discriminate; auto; try (intros _ (? & ?); discriminate). intros H. exfalso. eauto. Qed.
Lemma union_of_some t l : union_of t = Some l -> t = TUnion l.
Proof. destruct t; cbn; congruence. Qed.
Lemma union_of_none t : union_of t = None <-> ~ is_union t.
Proof. unfold is_union. destruct t; cbn; split; try discriminate; auto; try (intros _ (? & ?); discriminate). intros H. exfalso. eauto. Qed.
Lemma flow_of_some e t d : flow_of e t = Some d -> exists n names types, t = TLeaf n /\ leaf_of e n = LFlow names types /\ d = TComp (CDict names) types.
Proof. destruct t; cbn; try discriminate. destruct (leaf_of e n) eqn:E; try discriminate. intros H. injection H as <-. eauto 6. Qed.
Lemma dict_of_some t n l : dict_of t = Some (n, l) -> t = TComp (CDict n) l.
Proof. destruct t as [| | | | |k ts| |]; cbn; try discriminate. destruct k; congruence. Qed.
Lemma unary_of_some t o x : unary_of t = Some (o, x) -> t = TComp (CUnary o) [x].
Proof. destruct t as [| | | | |k ts| |]; cbn; try discriminate. destruct k; try discriminate. destruct ts as [|y [|z ts]]; congruence. Qed.
Lemma func_of_some t g : func_of t = Some g -> t = TSig SFunc (sh_ g) (ins_ g) (body_ g).
Proof. destruct t as [| | | | | |k sh l o|]; cbn; try discriminate. destruct k; try discriminate. intros E. injection E as <-. auto. Qed.
Lemma is_dict_some t : is_dict t = true -> exists n l, t = TComp (CDict n) l.
Proof. destruct t as [| | | | |k ts| |]; cbn; try discriminate. destruct k; try discriminate. eauto. Qed.
Lemma is_ty_ok e t : is_ty e t = true <-> a_type e t.
Proof.
  unfold a_type. destruct t; cbn; try (split; [discriminate|intros (? & ? & _); discriminate]).
  destruct (leaf_of e n) eqn:E; (split; [try discriminate|intros (m & X & H); injection X as <-; rewrite E in H; try (destruct H as [H|(? & H)]; discriminate); auto]).
  - eauto.
  - intros ->. exists n. split; auto. right. eauto.
  - destruct H as [H|(u & H)]; [discriminate|]. congruence.
Qed.

Lemma ty_eqb_neq a b : ty_eqb a b = false <-> a <> b.
Proof. rewrite <- not_true_iff_false, ty_eqb_ok. tauto. Qed.

Lemma plan_view e a b : plan e a b = Done \/ view e a b (plan e a b).
Proof.
  unfold plan. destruct (ty_eqb a b) eqn:Eab; auto. apply ty_eqb_neq in Eab.
  destruct (var_of a) eqn:Va, (var_of b) eqn:Vb; auto.
  - right. apply var_of_some in Va. subst a. apply var_of_none in Vb. constructor. auto.
  - right. apply var_of_some in Vb. subst b. apply var_of_none in Va. constructor. auto.
  - apply var_of_none in Va, Vb. destruct (union_of a) eqn:Ua.
    + right. apply union_of_some in Ua. subst a. constructor; auto.
    + apply union_of_none in Ua. destruct (union_of b) eqn:Ub.
      { right. apply union_of_some in Ub. subst b. constructor; auto. }
      destruct (flow_of e b) eqn:Fb.
      { destruct (is_dict a) eqn:Da; auto. right. apply is_dict_some in Da. destruct Da as (n1 & l1 & ->).
        apply flow_of_some in Fb. destruct Fb as (n & names & types & -> & L & ->). constructor. auto. }
      destruct (flow_of e a) eqn:Fa.
      { destruct (is_dict b) eqn:Da; auto. right. apply is_dict_some in Da. destruct Da as (n1 & l1 & ->).
        apply flow_of_some in Fa. destruct Fa as (n & names & types & -> & L & ->). constructor. auto. }
      assert (X : let p := match unary_of a, unary_of b with
           | Some (o1, x), Some (o2, y) => if o1 =? o2 then DoEach [(x, y)] else Done
           | Some (o, x), None => if (o =? type_of) && is_ty e b then DoEach [(x, b)] else Done
           | None, Some (o, y) => if (o =? type_of) && is_ty e a then DoEach [(a, y)] else Done
           | None, None =>
           match func_of a, func_of b with
           | Some g1, Some g2 => DoCall {| c_sig := g1; c_args := g2; c_withs := None |}
           | _, _ => Done
           end end in p = Done \/ view e a b p).
      { cbv zeta. destruct (unary_of a) as [(o1, x)|] eqn:Una; [apply unary_of_some in Una|].
        - destruct (unary_of b) as [(o2, y)|] eqn:Unb; [apply unary_of_some in Unb|].
          + subst. destruct (o1 =? o2) eqn:Eo; auto. right. apply Nat.eqb_eq in Eo. subst. constructor. congruence.
          + destruct ((o1 =? type_of) && is_ty e b) eqn:Et; auto. right. apply andb_true_iff in Et. destruct Et as (Eo & Et).
            apply Nat.eqb_eq in Eo. subst. constructor. apply is_ty_ok. auto.
        - destruct (unary_of b) as [(o2, y)|] eqn:Unb; [apply unary_of_some in Unb|].
          + destruct ((o2 =? type_of) && is_ty e a) eqn:Et; auto. right. apply andb_true_iff in Et. destruct Et as (Eo & Et).
            apply Nat.eqb_eq in Eo. subst. constructor. apply is_ty_ok. auto.
          + destruct (func_of a) as [g1|] eqn:Fua; auto. destruct (func_of b) as [g2|] eqn:Fub; auto.
            right. apply func_of_some in Fua, Fub. destruct g1, g2. cbn in Fua, Fub. subst. constructor. auto. }
      cbv zeta in X. destruct (dict_of a) as [(n1, l1)|] eqn:Dia; [destruct (dict_of b) as [(n2, l2)|] eqn:Dib|]; auto.
      right. apply dict_of_some in Dia, Dib. subst. constructor. auto.
Qed.

Lemma view_plan e a b p : view e a b p -> plan e a b = p.
Proof.
  intros H. unfold plan.
  assert (N : a <> b).
  { destruct H; try congruence.
    - intros <-. apply H. eexists; eauto.
    - intros ->. apply H. eexists; eauto.
    - intros ->. apply H. eexists; eauto.
    - intros <-. destruct H as (n & E & _). discriminate.
    - intros ->. destruct H as (n & E & _). discriminate. }
  rewrite (proj2 (ty_eqb_neq _ _) N). clear N. destruct H.
  - apply var_of_none in H. rewrite H. auto.
  - apply var_of_none in H. rewrite H. auto.
  - apply var_of_none in H0. rewrite H0. auto.
  - apply var_of_none in H0. apply union_of_none in H. rewrite H0, H. auto.
  - cbn. rewrite H. auto.
  - cbn. rewrite H. auto.
  - cbn. auto.
  - cbn. rewrite Nat.eqb_refl. auto.
  - pose proof (proj2 (is_ty_ok _ _) H) as Hb. destruct H as (n & -> & H). cbn in Hb |- *.
    destruct (leaf_of e n) eqn:E; try discriminate; cbn; rewrite ?Hb; auto.
  - pose proof (proj2 (is_ty_ok _ _) H) as Hb. destruct H as (n & -> & H). cbn in Hb |- *.
    destruct (leaf_of e n) eqn:E; try discriminate; cbn; rewrite ?Hb; auto.
  - cbn. auto.
Qed.

Lemma common_in n1 l1 n2 l2 x y : ordered n1 -> ordered n2 ->
  (In (x, y) (common n1 (nth_error l1) n2 (nth_error l2)) <->
   exists i j k, nth_error n1 i = Some k /\ nth_error n2 j = Some k /\ nth_error l1 i = Some x /\ nth_error l2 j = Some y).
Proof.
  intros H1 H2. unfold common. rewrite in_flat_map. split.
  - intros ((i & j) & Hi & H). cbn [fst snd] in H. apply intersect_ok in Hi; auto. destruct Hi as (i' & j' & k & -> & -> & Hi & Hj).
    cbn [Nat.add] in *. destruct (nth_error l1 i') eqn:E1; [|contradiction]. destruct (nth_error l2 j') eqn:E2; [|contradiction].
    destruct H as [H|[]]. injection H as <- <-. exists i', j', k. auto.
  - intros (i & j & k & Hi & Hj & Hx & Hy). exists (i, j). split.
    + apply intersect_ok; auto. exists i, j, k. auto.
    + cbn [fst snd]. rewrite Hx, Hy. left. auto.
Qed.

(** * Parts *)

Lemma sub_trans a b c : sub a b -> sub b c -> sub a c.
Proof. intros H1 H2. induction H2; auto.
  - eapply sub_low; eauto.
  - eapply sub_up; eauto.
  - eapply sub_union; eauto.
  - eapply sub_comp; eauto.
  - eapply sub_ins; eauto.
  - eapply sub_body; eauto.
  - eapply sub_with_sig; eauto.
  - eapply sub_with_ins; eauto.
  - eapply sub_with_body; eauto.
Qed.
Lemma tidy_sub a t : sub a t -> tidy t -> tidy a.
Proof. intros H T n l Hd. eapply T. eapply sub_trans; eauto. Qed.
Lemma inside_sub D a t : sub a t -> inside D t -> inside D a.
Proof. intros H T v Hv. apply T. eapply sub_trans; eauto. Qed.
Lemma flowless_sub e a t : sub a t -> flowless e t -> flowless e a.
Proof. intros H T n ns ts Hn. apply T. eapply sub_trans; eauto. Qed.
Lemma shallow_sub e a t : sub a t -> shallow e t -> shallow e a.
Proof. intros H T n l Hd. apply T. eapply sub_trans; eauto. Qed.

Lemma in_firstn {A} : forall n (l : list A) x, In x (firstn n l) -> In x l.
Proof. induction n as [|n IH]; intros [|y l] x H; cbn in *; auto; try contradiction. destruct H; auto. Qed.

Lemma pos_in e g t : In t (s_pos e g) -> In t (ins_ g).
Proof. apply in_firstn. Qed.
Lemma slot_in e g l i t : slot l (s_rest e g) i t -> In t l \/ In t (ins_ g).
Proof.
  intros [H|(_ & _ & l' & ->)].
  - left. eapply nth_error_In; eauto.
  - right. apply in_or_app. right. left. auto.
Qed.
Lemma given_in e args ws t : In t (given e args ws) -> exists g, (g = args \/ In g ws) /\ In t (ins_ g).
Proof.
  unfold given. rewrite in_app_iff. intros [H|H].
  - apply in_concat in H. destruct H as (l & Hl & Ht). apply in_map_iff in Hl. destruct Hl as (g & <- & Hg).
    apply in_rev in Hg. exists g. split; auto. eapply pos_in; eauto.
  - exists args. split; auto. eapply pos_in; eauto.
Qed.
Lemma passed_in e c r t : passed e c r t -> In r (ins_ (c_sig c)) /\
  exists g, (g = c_args c \/ exists l, c_withs c = Some l /\ In g l) /\ In t (ins_ g).
Proof.
  intros (p & H). set (ws := match c_withs c with Some l => l | None => [] end) in *.
  assert (W : forall g, In g ws -> exists l, c_withs c = Some l /\ In g l).
  { intros g Hg. subst ws. destruct (c_withs c); [eauto|contradiction]. }
  inversion H as [i r' t' Hi H1 H2|j w i k r' t' Hw Hk Hr Ht]; subst.
  - apply slot_in in H1, H2. split.
    + destruct H1 as [H1|H1]; auto. eapply pos_in; eauto.
    + destruct H2 as [H2|H2]; [|eauto]. apply given_in in H2. destruct H2 as (g & Hg & Ht). exists g. split; auto. destruct Hg; auto.
  - split; [eapply nth_error_In; eauto|]. apply nth_error_In in Hw. apply in_app_iff in Hw. destruct Ht as (i' & _ & Ht). apply nth_error_In in Ht.
    exists w. split; auto. destruct Hw as [Hw|[<-|[]]]; auto. apply in_rev in Hw. auto.
Qed.

Fixpoint size (t : ty) : nat :=
  match t with
  | TAny | TLeaf _ | TVar _ => 1
  | TLet l u => S (fold_right (fun x n => size x + n) 0 l + fold_right (fun x n => size x + n) 0 u)
  | TUnion l | TComp _ l => S (fold_right (fun x n => size x + n) 0 l)
  | TSig _ _ l o => S (fold_right (fun x n => size x + n) 0 l + match o with Some b => size b | None => 0 end)
  | TWith f _ l o => S (size f + fold_right (fun x n => size x + n) 0 l + match o with Some b => size b | None => 0 end)
  end.
Lemma size_in l x : In x l -> size x <= fold_right (fun x n => size x + n) 0 l.
Proof. induction l as [|y l IH]; cbn; [tauto|]. intros [->|H]; [lia|]. specialize (IH H). lia. Qed.

(** A proper part. *)
Definition psub (a t : ty) : Prop := sub a t /\ size a < size t.
Lemma psub_union x l : In x l -> psub x (TUnion l).
Proof. intros H. split; [econstructor; eauto; constructor|]. cbn. pose proof (size_in _ _ H). lia. Qed.
Lemma psub_comp k x l : In x l -> psub x (TComp k l).
Proof. intros H. split; [econstructor; eauto; constructor|]. cbn. pose proof (size_in _ _ H). lia. Qed.
Lemma psub_ins k sh x l o : In x l -> psub x (TSig k sh l o).
Proof. intros H. split; [eapply sub_ins; eauto; constructor|]. cbn. pose proof (size_in _ _ H). lia. Qed.

Inductive kid_of (e : env) (a b x y : ty) : Prop :=
| kid_both : psub x a -> psub y b -> kid_of e a b x y
| kid_left : psub x a -> y = b -> kid_of e a b x y
| kid_right : x = a -> psub y b -> kid_of e a b x y
| kid_swap : psub x b -> psub y a -> kid_of e a b x y
| kid_flow_r n1 l1 n names types : a = TComp (CDict n1) l1 -> b = TLeaf n -> leaf_of e n = LFlow names types ->
    x = a -> y = TComp (CDict names) types -> kid_of e a b x y
| kid_flow_l n2 l2 n names types : b = TComp (CDict n2) l2 -> a = TLeaf n -> leaf_of e n = LFlow names types ->
    y = b -> x = TComp (CDict names) types -> kid_of e a b x y.

Lemma kids_kid e a b x y : good_env e -> tidy a -> tidy b -> In (x, y) (kids e a b) -> kid_of e a b x y.
Proof.
  intros He Ta Tb. unfold kids. destruct (plan_view e a b) as [E|V]; [rewrite E; intros []|].
  destruct V; cbn [In]; try tauto.
  - rewrite in_map_iff. intros (t & E & Ht). injection E as -> <-. apply kid_left; auto. apply psub_union; auto.
  - rewrite in_map_iff. intros (t & E & Ht). injection E as <- ->. apply kid_right; auto. apply psub_union; auto.
  - intros [E|[]]. injection E as <- <-. eapply kid_flow_r; eauto.
  - intros [E|[]]. injection E as <- <-. eapply kid_flow_l; eauto.
  - intros Hc. apply common_in in Hc; [|eapply Ta; constructor|eapply Tb; constructor].
    destruct Hc as (i & j & k & _ & _ & Hx & Hy). apply kid_both; apply psub_comp; eapply nth_error_In; eauto.
  - intros [E|[]]. injection E as <- <-. apply kid_both; apply psub_comp; left; auto.
  - intros [E|[]]. injection E as <- <-. apply kid_left; auto. apply psub_comp; left; auto.
  - intros [E|[]]. injection E as <- <-. apply kid_right; auto. apply psub_comp; left; auto.
  - rewrite in_map_iff. intros ((r & t) & E & Ht). cbn in E. injection E as <- <-. apply (matches_in e _ r t He) in Ht.
    apply passed_in in Ht. cbn in Ht. destruct Ht as (Hr & g & Hg & Ht). apply kid_swap; apply psub_ins; auto.
    destruct Hg as [->|(l & Hl & _)]; [auto|discriminate].
Qed.

Lemma flow_dict e n names types : good_env e -> leaf_of e n = LFlow names types ->
  tidy (TComp (CDict names) types) /\ inside [] (TComp (CDict names) types).
Proof.
  intros (_ & H) E. destruct (H _ _ _ E) as (Ho & Ht). split.
  - intros ns l Hs. inversion Hs; subst; auto. eapply (proj1 (Ht _ ltac:(eassumption))); eauto.
  - intros v Hs. inversion Hs; subst. eapply (proj1 (proj2 (Ht _ ltac:(eassumption)))); eauto.
Qed.

Lemma kid_tidy e a b x y : good_env e -> tidy a -> tidy b -> kid_of e a b x y -> tidy x /\ tidy y.
Proof.
  intros He Ta Tb H. destruct H as [Hx Hy|Hx ->| -> Hy|Hx Hy|n1 l1 n names types -> -> L -> ->|n1 l1 n names types -> -> L -> ->].
  - destruct Hx, Hy. split; eapply tidy_sub; eauto.
  - destruct Hx. split; auto; eapply tidy_sub; eauto.
  - destruct Hy. split; auto; eapply tidy_sub; eauto.
  - destruct Hx, Hy. split; eapply tidy_sub; eauto.
  - split; auto. eapply flow_dict; eauto.
  - split; auto. eapply flow_dict; eauto.
Qed.
Lemma kid_inside e D a b x y : good_env e -> inside D a -> inside D b -> kid_of e a b x y -> inside D x /\ inside D y.
Proof.
  intros He Ta Tb H. destruct H as [Hx Hy|Hx ->| -> Hy|Hx Hy|n1 l1 n names types -> -> L -> ->|n1 l1 n names types -> -> L -> ->].
  - destruct Hx, Hy. split; eapply inside_sub; eauto.
  - destruct Hx. split; auto; eapply inside_sub; eauto.
  - destruct Hy. split; auto; eapply inside_sub; eauto.
  - destruct Hx, Hy. split; eapply inside_sub; eauto.
  - split; auto. intros v Hv. exfalso. destruct (flow_dict _ _ _ _ He L) as (_ & X). apply (X v Hv).
  - split; auto. intros v Hv. exfalso. destruct (flow_dict _ _ _ _ He L) as (_ & X). apply (X v Hv).
Qed.

(** * What is wanted, by steps *)

Lemma wants_steps e (Q : ty -> ty -> want -> Prop) : good_env e ->
  (forall a b v, plan e a b = DoUp v -> Q a b (Up v b)) ->
  (forall a b v, plan e a b = DoLow v -> Q a b (Low v a)) ->
  (forall a b x y w, In (x, y) (kids e a b) -> wants e x y w -> Q x y w -> Q a b w) ->
  forall a b w, tidy a -> tidy b -> wants e a b w -> Q a b w.
Proof.
  intros He Hup Hlow Hkid a b w Ta Tb H. revert Ta Tb.
  assert (K : forall p x y a b, view e a b p -> In (x, y) (match p with DoEach l => l | DoCall c => map (fun p => (snd p, fst p)) (matches e (c_sig c) (c_args c) (c_withs c)) | _ => [] end) ->
    In (x, y) (kids e a b)).
  { intros p x y a' b' V Hi. unfold kids. rewrite (view_plan _ _ _ _ V). auto. }
  assert (L : forall a b x y w, tidy a -> tidy b -> In (x, y) (kids e a b) -> wants e x y w -> (tidy x -> tidy y -> Q x y w) -> Q a b w).
  { intros a' b' x y w' Ta Tb Hk Hw Hq. eapply Hkid; eauto. apply (kids_kid _ _ _ _ _ He) in Hk; auto. apply (kid_tidy _ _ _ _ _ He) in Hk; auto. apply Hq; apply Hk. }
  induction H; intros Ta Tb.
  - apply Hup. apply view_plan. constructor. auto.
  - apply Hlow. apply view_plan. constructor. auto.
  - eapply L; eauto. eapply K; [constructor; eauto|]. apply in_map_iff. eauto.
  - eapply L; eauto. eapply K; [constructor; eauto|]. apply in_map_iff. eauto.
  - eapply L; eauto. eapply K; [econstructor; eauto|]. left. auto.
  - eapply L; eauto. eapply K; [econstructor; eauto|]. left. auto.
  - eapply L; eauto. eapply K; [constructor; eauto|]. apply common_in; [eapply Ta; constructor|eapply Tb; constructor|]. eauto 8.
  - eapply L; eauto. eapply K; [constructor; eauto|]. left. auto.
  - eapply L; eauto. eapply K; [constructor; eauto|]. left. auto.
  - eapply L; eauto. eapply K; [constructor; eauto|]. left. auto.
  - eapply L; eauto. eapply K; [constructor; eauto|]. apply in_map_iff. exists (r, t). split; auto. apply (matches_in e _ r t He). auto.
Qed.

Lemma kids_wants e a b x y w : good_env e -> tidy a -> tidy b -> In (x, y) (kids e a b) -> wants e x y w -> wants e a b w.
Proof.
  intros He Ta Tb. unfold kids. destruct (plan_view e a b) as [E|V]; [rewrite E; intros []|].
  destruct V; cbn [In]; try tauto.
  - rewrite in_map_iff. intros (t & E & Ht) Hw. injection E as -> <-. econstructor; eauto.
  - rewrite in_map_iff. intros (t & E & Ht) Hw. injection E as <- ->. econstructor; eauto.
  - intros [E|[]] Hw. injection E as <- <-. econstructor; eauto.
  - intros [E|[]] Hw. injection E as <- <-. econstructor; eauto.
  - intros Hc Hw. apply common_in in Hc; [|eapply Ta; constructor|eapply Tb; constructor].
    destruct Hc as (i & j & k & ? & ? & Hx & Hy). econstructor; eauto.
  - intros [E|[]] Hw. injection E as <- <-. econstructor; eauto.
  - intros [E|[]] Hw. injection E as <- <-. econstructor; eauto.
  - intros [E|[]] Hw. injection E as <- <-. econstructor; eauto.
  - rewrite in_map_iff. intros ((r & t) & E & Ht) Hw. cbn in E. injection E as <- <-. apply (matches_in e _ r t He) in Ht.
    eapply wants_func; eauto.
Qed.
Lemma up_wants e a b v : plan e a b = DoUp v -> wants e a b (Up v b) /\ a = TVar v.
Proof. intros E. destruct (plan_view e a b) as [E'|V]; [congruence|]. rewrite E in V. inversion V; subst. split; auto. constructor. auto. Qed.
Lemma low_wants e a b v : plan e a b = DoLow v -> wants e a b (Low v a) /\ b = TVar v.
Proof. intros E. destruct (plan_view e a b) as [E'|V]; [congruence|]. rewrite E in V. inversion V; subst. split; auto. constructor. auto. Qed.
