(** Theorems about constraints between types, substitution, weakening and
    joining. *)
From Coq Require Import List Arith Bool Lia Sorted.
From Verif Require Import SimpModel SimpProof ConModel ConSpec ConProof ConRunProof ConEndProof.
Import ListNotations.

(** ** An environment for the examples

    Leaves: 0 none, 1 undefined, 2 a plain one, 3 the text font (a dictionary
    of name and weight whose name is a font again), 4 a type, 5 a value of the
    type 4, 6 a space.  Shapes: 1 a position, 2 a position and the name 7, 3
    a position, the name 7 and a spread, 4 just a spread. *)
Definition env0 : env := {|
  shape_of := fun n => match n with
                       | 1 => ([], 1, false) | 2 => ([7], 1, false) | 3 => ([7], 1, true) | 4 => ([], 0, true)
                       | _ => ([], 0, false) end;
  leaf_of := fun n => match n with
                      | 0 => LSilent | 3 => LFlow [10; 11] [TUnion [TLeaf 2; TLeaf 3]; TLeaf 2]
                      | 4 => LType | 5 => LValue false (TLeaf 4) | 6 => LSilent | _ => LPlain end;
  none_leaf := 0; undef_leaf := 1 |}.

Lemma sub_leaf a n : sub a (TLeaf n) -> a = TLeaf n.
Proof. inversion 1; auto. Qed.
Lemma sub_var a n : sub a (TVar n) -> a = TVar n.
Proof. inversion 1; auto. Qed.
Lemma env0_good : good_env env0.
Proof.
  split.
  - intros [|[|[|[|[|sh]]]]]; cbn; repeat constructor.
  - intros n names types H. assert (E : n = 3 /\ names = [10; 11] /\ types = [TUnion [TLeaf 2; TLeaf 3]; TLeaf 2]).
    { destruct n as [|[|[|[|[|[|[|n]]]]]]]; cbn in H; try discriminate. injection H as <- <-. auto. }
    destruct E as (-> & -> & ->). split; [repeat constructor|].
    assert (S : forall t a, In t [TUnion [TLeaf 2; TLeaf 3]; TLeaf 2] -> sub a t -> a = TUnion [TLeaf 2; TLeaf 3] \/ exists m, a = TLeaf m).
    { intros t a [<-|[<-|[]]] Hs.
      - inversion Hs; subst; auto. right. match goal with K : In _ [_; _] |- _ => destruct K as [<-|[<-|[]]] end; match goal with K : sub a (TLeaf _) |- _ => apply sub_leaf in K end; eauto.
      - apply sub_leaf in Hs. eauto. }
    intros t Ht. split; [|split].
    + intros ns l Hs. destruct (S _ _ Ht Hs) as [?|(m & ?)]; discriminate.
    + intros v Hs. destruct (S _ _ Ht Hs) as [?|(m & ?)]; discriminate.
    + intros ns l Hs. destruct (S _ _ Ht Hs) as [?|(m & ?)]; discriminate.
Qed.

(** ** C123: the result of a call *)

Lemma puts_fun (bound : nat -> ty -> Prop) : (forall v u u', bound v u -> bound v u' -> u = u') ->
  forall t u u', puts bound t u -> puts bound t u' -> u = u'.
Proof.
  intros HB.
  assert (HF : forall l, Forall (fun t => forall u u', puts bound t u -> puts bound t u' -> u = u') l ->
                 forall l1 l2, Forall2 (puts bound) l l1 -> Forall2 (puts bound) l l2 -> l1 = l2).
  { induction 1; intros l1 l2 H1 H2; inversion H1; inversion H2; subst; auto. f_equal; eauto. }
  induction t as [|m|v|l u0 Hl Hu|l Hl|k l Hl|k sh l o Hl Ho|g sh l o Hg Hl Ho] using ty_ind2; intros u u' H H'.
  - inversion H; inversion H'; auto.
  - inversion H; inversion H'; auto.
  - inversion H; inversion H'; subst; auto; [eapply HB; eauto|exfalso; eapply H4; eauto|exfalso; eapply H1; eauto].
  - inversion H; inversion H'; auto.
  - inversion H; inversion H'; subst. f_equal. eapply HF; eauto.
  - inversion H; inversion H'; subst. f_equal. eapply HF; eauto.
  - inversion H; inversion H'; subst; try discriminate.
    + f_equal. eapply HF; eauto.
    + match goal with E : Some _ = Some _ |- _ => injection E as -> end. f_equal; [eapply HF; eauto|]. f_equal. eapply Ho; eauto.
  - inversion H; inversion H'; subst; try discriminate.
    + f_equal; [eapply Hg; eauto|eapply HF; eauto].
    + match goal with E : Some _ = Some _ |- _ => injection E as -> end. f_equal; [eapply Hg; eauto|eapply HF; eauto|]. f_equal. eapply Ho; eauto.
Qed.

Theorem C123_call : forall e B g args withs, good_env e -> forall t,
  fst (sig_call e B g args withs) = Some t <->
  exists b, body_ g = Some b /\ puts (bound_by e B g args (match withs with Some l => l | None => [] end)) b t.
Proof.
  intros e B g args withs He t. unfold sig_call. cbn [fst].
  pose proof (fun v u => bound_by_ok e B g args withs v u He) as HB.
  split.
  - destruct (body_ g) as [b|]; [|discriminate]. intros E. injection E as <-. exists b. split; auto. apply subst_puts. auto.
  - intros (b & -> & H). f_equal. eapply puts_fun; [|apply subst_puts; exact HB|exact H].
    intros v u u' H1 H2. apply HB in H1. apply HB in H2. congruence.
Qed.
Print Assumptions C123_call.

Theorem C123_restored : forall e B g args withs,
  snd (sig_call e B g args withs) = B /\ (body_ g = None <-> fst (sig_call e B g args withs) = None).
Proof. intros e B g args withs. split; auto. unfold sig_call. cbn. destruct (body_ g); split; congruence. Qed.
Print Assumptions C123_restored.

(** Each variable among the parameters is bound if anything is passed to it. *)
Theorem C123_bound : forall e B g args withs v, good_env e ->
  (exists p u, passed_at e g args withs p (TVar v) u) -> exists u, bound_by e B g args withs v u.
Proof.
  intros e B g args withs v He (p & u & Hp). pose proof (bound_by_ok e B g args (Some withs) v) as HB. cbn in HB.
  destruct (get v (bind_all (matches e g args (Some withs)) B)) as [u0|] eqn:E.
  - exists u0. apply (HB u0 He). auto.
  - exfalso. destruct (bind_all_get (tag_all e g args (Some withs)) B v (tag_all_sorted e g args (Some withs))) as [(q & u1 & _ & _ & E')|(Hno & _)].
    + rewrite tag_all_eq in E'. congruence.
    + apply (Hno p u). apply (tag_all_in e g args (Some withs)); auto.
Qed.
Print Assumptions C123_bound.

(** A function of a position, a name and a spread with a body of all three,
    called with two positions, a name and what was given before. *)
Definition g0 : sg := {| sh_ := 3; ins_ := [TVar 1; TVar 2; TVar 3];
                         body_ := Some (TComp CTuple [TVar 1; TVar 2; TUnion [TVar 3; TVar 9]; TLet [TVar 1] []]) |}.
Definition args0 : sg := {| sh_ := 2; ins_ := [TLeaf 5; TLeaf 4]; body_ := None |}.
Definition with0 : sg := {| sh_ := 2; ins_ := [TLeaf 2; TLeaf 3]; body_ := None |}.
Example C123_nonvacuous :
  good_env env0 /\
  sig_call env0 [(9, TLeaf 8)] g0 args0 (Some [with0]) =
    (Some (TComp CTuple [TLeaf 2; TLeaf 4; TUnion [TLeaf 5; TLeaf 8]; TLet [TVar 1] []]), [(9, TLeaf 8)]).
Proof. split; [apply env0_good|reflexivity]. Qed.

(** ** C124: what constraints and calls add to the bounds of variables *)

(** There is always a result: no panic, and no recursion without end. *)
Theorem C124_total : forall e os V, good_env e ->
  (forall t, about os t -> tidy t) -> (forall t, about os t -> inside (map fst V) t) ->
  exists n s', forall m, n <= m -> run m e os {| vars_ := V; seen := [] |} = Some s'.
Proof.
  intros e os V He Ht Hi.
  destruct (run_total e He os (map fst V)) as (n & H); auto.
  { intros o Ho t Hx. apply Ht. exists o. auto. }
  destruct (H {| vars_ := V; seen := [] |} eq_refl) as (s' & E). exists n, s'. intros m Hm.
  revert E. apply each_fuel. intros o s1 s2 _. apply op_fuel. auto.
Qed.
Print Assumptions C124_total.

Lemma ops_tidy os : (forall t, about os t -> tidy t) -> forall o, In o os -> op_tidy o.
Proof. intros H o Ho t Hx. apply H. exists o. auto. Qed.

Theorem C124_exact : forall e os V n s', good_env e -> (forall t, about os t -> tidy t) -> (forall t, ~ In (OWeak t) os) ->
  let s := {| vars_ := V; seen := [] |} in
  run n e os s = Some s' ->
  dom s' = dom s /\
  (forall v, is_weak s' v <-> is_weak s v) /\
  (forall v t, above s' v t <-> above s v t \/ asked e os (Up v t)) /\
  (forall v t, below s' v t <-> below s v t \/
     exists u, asked e os (Low v u) /\ (~ is_weak s v /\ t = u \/ is_weak s v /\ lifts e u t)).
Proof.
  intros e os V n s' He Ht Hw s H.
  assert (Hs : forall o, In o os -> strong_op o) by (intros o Ho; destruct o; cbn; auto; eapply Hw; eauto).
  destruct (run_only e n He os s s' (ops_tidy _ Ht) Hs H) as (G & O1 & O2).
  destruct (grows_keeps _ _ G) as ((D & KA & KB) & W).
  assert (I0 : inv (is_weak s) s) by (intros v b (b' & Hb' & Hw') Hb; congruence).
  pose proof (fun w => run_has e He (is_weak s) n os V s' w H (ops_tidy _ Ht) I0) as HA.
  split; auto. split; auto. split.
  - intros v t. split; [apply O1|]. intros [Hv|Hv]; auto. destruct (HA _ Hv) as (_ & Hh). exact Hh.
  - intros v t. split.
    + intros Hv. apply O2 in Hv. destruct Hv as [Hv|(u & b & Hu & Hb & ->)]; auto. right. exists u. split; auto.
      assert (Hwk : is_weak s v <-> weak b = true).
      { rewrite <- W. split; [intros (b' & Hb' & X); congruence|intros X; exists b; auto]. }
      rewrite Hwk. destruct (weak b); [right|left]; split; auto; try discriminate. apply lifts_ok. auto.
    + intros [Hv|(u & Hu & Hc)]; auto. destruct (HA _ Hu) as (I' & b & Hb & H1 & H2 & H3). exists b. split; auto.
      assert (Hwk : is_weak s v <-> weak b = true).
      { rewrite <- W. split; [intros (b' & Hb' & X); congruence|intros X; exists b; auto]. }
      destruct Hc as [(Hn & ->)|(Hy & Hl)].
      * apply H1. destruct (weak b); auto. exfalso. apply Hn. apply Hwk. auto.
      * apply lifts_ok in Hl. subst t. apply H3; auto.
Qed.
Print Assumptions C124_exact.

(** The order and repetition of constraints and calls make no difference, nor
    does the memory of calls. *)
Theorem C124_order : forall e os1 os2 V n1 n2 s1 s2, good_env e -> (forall t, about os1 t -> tidy t) -> (forall t, ~ In (OWeak t) os1) ->
  (forall o, In o os1 <-> In o os2) ->
  run n1 e os1 {| vars_ := V; seen := [] |} = Some s1 -> run n2 e os2 {| vars_ := V; seen := [] |} = Some s2 ->
  forall v t, (above s1 v t <-> above s2 v t) /\ (below s1 v t <-> below s2 v t).
Proof.
  intros e os1 os2 V n1 n2 s1 s2 He Ht Hw Ho H1 H2 v t.
  assert (Ht2 : forall t, about os2 t -> tidy t) by (intros x (o & Hi & Hx); apply Ht; exists o; split; auto; apply Ho; auto).
  assert (Hw2 : forall t, ~ In (OWeak t) os2) by (intros x Hx; apply Ho in Hx; eapply Hw; eauto).
  assert (Ha : forall w, asked e os1 w <-> asked e os2 w) by (intros w; split; intros (o & Hi & Hx); exists o; split; auto; apply Ho; auto).
  destruct (C124_exact e os1 V n1 s1 He Ht Hw H1) as (_ & _ & A1 & B1).
  destruct (C124_exact e os2 V n2 s2 He Ht2 Hw2 H2) as (_ & _ & A2 & B2).
  rewrite A1, A2, B1, B2. rewrite Ha. split; [tauto|]. split; (intros [X|(u & X & Y)]; [auto|right; exists u; split; [apply Ha|]; auto]).
Qed.
Print Assumptions C124_order.

(** The elements of what contains a variable, and what it could be. *)
Theorem C124_containing : forall e eo no v c w,
  (asks e (containing eo no c (TVar v) true) w <->
     exists t, w = Up v t /\ ((exists l, c = TComp CTuple l /\ t = TUnion l) \/
                              (forall l, c <> TComp CTuple l) /\ t = TComp (CUnary eo) [c])) /\
  (asks e (containing eo no c (TVar v) false) w <-> w = Up v (TComp (CUnary no) [c])).
Proof.
  assert (U : forall e v t w, ~ is_var t -> wants e (TVar v) t w <-> w = Up v t).
  { intros e v t w Hv. split.
    - intros H. inversion H; subst; auto.
      + exfalso. apply Hv. exists v0. auto.
      + exfalso. match goal with K : ~ is_var (TVar v) |- _ => apply K; exists v; auto end.
      + exfalso. match goal with K : a_type _ (TVar v) |- _ => destruct K as (? & ? & _); discriminate end.
    - intros ->. constructor. auto. }
  intros e eo no v c w. cbn. split.
  - destruct c as [| | | | |k l| |]; try (rewrite U by (intros (x & X); discriminate);
      split; [intros ->; eexists; split; [reflexivity|right; split; [intros; discriminate|reflexivity]]
             |intros (t & -> & [(l' & E & _)|(_ & ->)]); [discriminate|reflexivity]]).
    destruct k; rewrite U by (intros (x & X); discriminate);
      (split; [intros ->; eexists; split; [reflexivity|]|intros (t & -> & [(l' & E & ->)|(Hn & ->)])]);
      try discriminate; try (right; split; [intros; discriminate|reflexivity]); try (left; eexists; split; reflexivity); try reflexivity.
    + injection E as ->. reflexivity.
    + exfalso. eapply Hn. reflexivity.
  - apply U. intros (x & X). discriminate.
Qed.
Print Assumptions C124_containing.

Theorem C124_ever_be : forall e v b w,
  asked e (ever_be (TVar v) b) w <-> exists n, b = TLeaf n /\ w = Low v b.
Proof.
  intros e v b w. unfold asked. split.
  - intros (o & Ho & Ha). destruct b; cbn in Ho; try contradiction. destruct Ho as [<-|[]]. cbn in Ha. exists n. split; auto.
    inversion Ha; subst; auto.
  - intros (n & -> & ->). eexists. split; [left; reflexivity|]. cbn. constructor. intros (x & X). discriminate.
Qed.
Print Assumptions C124_ever_be.

(** Variable 1 is strong and 2 weak; a dictionary against the text font, whose
    name is a font or its dictionary; a call twice, and a function against
    another. *)
Definition V0 : list (nat * bounds) :=
  [(1, {| weak := false; lows := []; ups := [] |}); (2, {| weak := true; lows := []; ups := [] |}); (3, {| weak := false; lows := []; ups := [] |})].
Definition s0 : st := {| vars_ := V0; seen := [] |}.
Definition c0 : call := {| c_sig := {| sh_ := 3; ins_ := [TVar 1; TVar 2; TVar 3]; body_ := None |};
                           c_args := {| sh_ := 2; ins_ := [TLeaf 5; TLeaf 5]; body_ := None |}; c_withs := Some [with0] |}.
Definition os0 : list op :=
  [ OCon (TComp (CDict [10; 12]) [TComp (CDict [11]) [TVar 1]; TLeaf 2]) (TLeaf 3); OCall c0;
    OCon (TSig SFunc 1 [TVar 1] None) (TSig SFunc 1 [TComp (CUnary type_of) [TLeaf 4]] None); OCall c0;
    OCon (TUnion [TLeaf 2; TVar 3]) (TVar 1); OCon (TVar 2) (TUnion [TLeaf 4; TLeaf 2]) ].
Definition show (o : option st) : list (nat * (bool * list ty * list ty)) :=
  match o with Some s => map (fun p => (fst p, (weak (snd p), lows (snd p), ups (snd p)))) (vars_ s) | None => [] end.

Lemma subs_small (P : ty -> Prop) t :
  (P t) -> match t with
  | TAny | TLeaf _ | TVar _ => True
  | TLet l u => forall x, In x (l ++ u) -> forall a, sub a x -> P a
  | TUnion l | TComp _ l => forall x, In x l -> forall a, sub a x -> P a
  | TSig _ _ l o => (forall x, In x l -> forall a, sub a x -> P a) /\ match o with Some x => forall a, sub a x -> P a | None => True end
  | TWith f _ l o => (forall a, sub a f -> P a) /\ (forall x, In x l -> forall a, sub a x -> P a) /\ match o with Some x => forall a, sub a x -> P a | None => True end
  end -> forall a, sub a t -> P a.
Proof.
  intros Ht H a Ha. inversion Ha; subst; auto; cbn in H; try (eapply H; eauto; fail); try (destruct H; eauto; fail).
  - eapply H; eauto. apply in_or_app. auto.
  - eapply H; eauto. apply in_or_app. auto.
Qed.
Definition fine_part (a : ty) : Prop := match a with TComp (CDict names) _ => ordered names | TVar v => In v [1; 2; 3] | _ => True end.
Ltac parts := repeat first [ exact I | apply subs_small; [cbn; solve [auto 8 | repeat constructor]|]
  | match goal with
    | |- True => exact I
    | |- _ /\ _ => split
    | |- forall x, In x _ -> _ => let X := fresh in intros ? X; cbn in X; repeat (destruct X as [<-|X]; [|try contradiction]); try contradiction
    end ].
Lemma os0_fine : forall t, about os0 t -> forall a, sub a t -> fine_part a.
Proof.
  intros t (o & Ho & Ht). cbn in Ho.
  repeat (destruct Ho as [<-|Ho]; [|try contradiction]); cbn in Ht;
    try (destruct Ht as [->| ->]; parts; fail);
    (destruct Ht as (g & [->|[->|(l & E & Hl)]] & Hi); [| |injection E as <-; destruct Hl as [<-|[]]]; cbn in Hi;
     repeat (destruct Hi as [<-|Hi]; [parts|try contradiction])).
Qed.
Lemma os0_ok : (forall t, about os0 t -> tidy t) /\ (forall t, about os0 t -> inside (map fst V0) t).
Proof.
  split; intros t Ht.
  - intros names l Hs. exact (os0_fine t Ht _ Hs).
  - intros v Hs. exact (os0_fine t Ht _ Hs).
Qed.
Example C124_nonvacuous :
  good_env env0 /\ (forall t, about os0 t -> tidy t) /\ (forall t, about os0 t -> inside (map fst V0) t) /\ (forall t, ~ In (OWeak t) os0) /\
  show (run 9 env0 os0 s0) =
    [(1, (false, [TUnion [TLeaf 2; TVar 3]; TComp (CUnary 0) [TLeaf 4]; TLeaf 2], [TLeaf 2]));
     (2, (true, [TLeaf 4; TLeaf 3], [TUnion [TLeaf 4; TLeaf 2]]));
     (3, (false, [TLeaf 5], []))].
Proof.
  split; [apply env0_good|]. destruct os0_ok. split; auto. split; auto. split; [|vm_compute; reflexivity].
  intros t X. cbn in X. repeat (destruct X as [X|X]; [discriminate|]). contradiction.
Qed.

(** ** C125: weakening *)

Theorem C125_weaken : forall t s,
  ((exists s', weaken t s = Some s') <-> forall v, reached v t -> In v (dom s)) /\
  forall s', weaken t s = Some s' ->
    dom s' = dom s /\ (forall v x, above s' v x <-> above s v x) /\ (forall v x, below s' v x <-> below s v x) /\
    forall v, is_weak s' v <-> is_weak s v \/ reached v t.
Proof.
  intros t s. destruct (weaken_weakens t) as (F & G). split; [split; auto|].
  - intros (s' & H). apply (F _ _ H).
  - intros s' H. destruct (F _ _ H) as (Sm & Hd). apply same_keeps in Sm. destruct Sm as ((D & KA & KB) & A & B & W).
    split; auto. split; [split; auto|]. split; [split; auto|]. intros v. rewrite W. split; intros [X|X]; try tauto. right. auto.
Qed.
Print Assumptions C125_weaken.

(** With weakenings in between. *)
Theorem C125_run : forall e os V n s', good_env e -> (forall t, about os t -> tidy t) ->
  let s := {| vars_ := V; seen := [] |} in
  run n e os s = Some s' ->
  (forall v, is_weak s' v <-> is_weak s v \/ weakened os v) /\
  (forall v t, above s' v t <-> above s v t \/ asked e os (Up v t)) /\
  (forall v t, below s v t -> below s' v t) /\
  (forall v t, below s' v t -> below s v t \/ exists u, asked e os (Low v u) /\ (t = u \/ is_weak s' v /\ lifts e u t)) /\
  (forall v u, asked e os (Low v u) ->
     (~ is_weak s' v -> below s' v u) /\
     (is_weak s v -> forall t, lifts e u t -> below s' v t) /\
     (below s' v u \/ exists t, lifts e u t /\ below s' v t)).
Proof.
  intros e os V n s' He Ht s H.
  destruct (run_loose e n He os s s' (ops_tidy _ Ht) H) as ((L1 & L2) & (D & KA & KB) & W).
  assert (I0 : inv (is_weak s) s) by (intros v b (b' & Hb' & Hw') Hb; congruence).
  pose proof (fun w => run_has e He (is_weak s) n os V s' w H (ops_tidy _ Ht) I0) as HA.
  split; auto. split; [|split; [auto|split]].
  - intros v t. split; [apply L1|]. intros [Hv|Hv]; auto. destruct (HA _ Hv) as (_ & Hh). exact Hh.
  - intros v t Hv. apply L2 in Hv. destruct Hv as [Hv|(u & Hu & Hc)]; auto. right. exists u. split; auto.
    destruct Hc as [?|(Hw & ?)]; auto. right. split; auto. apply lifts_ok. auto.
  - intros v u Hu. destruct (HA _ Hu) as (I' & b & Hb & H1 & H2 & H3). split; [|split].
    + intros Hn. exists b. split; auto. apply H1. destruct (weak b) eqn:E; auto. exfalso. apply Hn. exists b. auto.
    + intros Hy t Hl. apply lifts_ok in Hl. subst t. exists b. split; auto.
    + destruct H2 as [H2|H2]; [left; exists b; auto|]. right. eexists. split; [apply lifts_ok; reflexivity|]. exists b. auto.
Qed.
Print Assumptions C125_run.

(** Why no more is said of what is asked before a weakening: a call that is
    repeated after it is not looked at again, a constraint is. *)
Definition c1 : call := {| c_sig := {| sh_ := 1; ins_ := [TVar 1]; body_ := None |};
                           c_args := {| sh_ := 1; ins_ := [TLeaf 5]; body_ := None |}; c_withs := None |}.
Example C125_cached :
  show (run 9 env0 [OCall c1; OWeak (TVar 1); OCall c1] s0) =
    [(1, (true, [TLeaf 5], [])); (2, (true, [], [])); (3, (false, [], []))] /\
  show (run 9 env0 [OCon (TLeaf 5) (TVar 1); OWeak (TVar 1); OCon (TLeaf 5) (TVar 1)] s0) =
    [(1, (true, [TLeaf 4; TLeaf 5], [])); (2, (true, [], [])); (3, (false, [], []))].
Proof. split; reflexivity. Qed.

Definition os1 : list op := [OCon (TLeaf 5) (TVar 1); OWeak (TSig SFunc 1 [TUnion [TVar 1; TLeaf 2]] (Some (TVar 3))); OCon (TLeaf 5) (TVar 1); OCon (TVar 3) (TLeaf 2)].
Example C125_nonvacuous :
  (forall t, about os1 t -> tidy t) /\
  show (run 9 env0 os1 s0) = [(1, (true, [TLeaf 4; TLeaf 5], [])); (2, (true, [], [])); (3, (false, [], [TLeaf 2]))].
Proof.
  split; [|reflexivity]. intros t (o & Ho & Ht). cbn in Ho.
  assert (X : forall a, sub a t -> fine_part a).
  { repeat (destruct Ho as [<-|Ho]; [|try contradiction]); cbn in Ht; try (destruct Ht as [->| ->]; parts; fail). subst t. parts. }
  intros names l Hs. exact (X _ Hs).
Qed.

(** ** C126: the type of a block *)

Theorem C126_block : forall e ts t, join_env e -> (block e ts = t <-> joins e ts t).
Proof. intros e ts t He. apply block_ok. auto. Qed.
Print Assumptions C126_block.

Theorem C126_total : forall e ts, join_env e -> exists t, joins e ts t /\ forall t', joins e ts t' -> t' = t.
Proof.
  intros e ts He. exists (block e ts). split; [apply block_ok; auto|]. intros t' H. apply block_ok in H; auto.
Qed.
Print Assumptions C126_total.

(** What says nothing may be left out, anywhere. *)
Theorem C126_silent : forall e l t r u, join_env e -> nothing e t -> (joins e (l ++ t :: r) u <-> joins e (l ++ r) u).
Proof.
  intros e l t r u He Hn. rewrite <- !block_ok by auto. unfold block. rewrite !fold_left_app. cbn [fold_left].
  replace (join e t (fold_left (fun j t0 => join e t0 j) l (joiner0 e))) with (fold_left (fun j t0 => join e t0 j) l (joiner0 e)); [tauto|].
  unfold join at 2. destruct Hn as [->|(n & -> & E)]; cbn; [auto|rewrite E; auto].
Qed.
Print Assumptions C126_silent.

(** A variable hides what the other expressions come to. *)
Theorem C126_hidden : forall e l v r, join_env e -> (forall t, In t (l ++ r) -> ~ is_var t) -> joins e (l ++ TVar v :: r) (TVar v).
Proof.
  intros e l v r He H. apply joins_var.
  assert (N : forall l, (forall t, In t l -> ~ is_var t) -> those is_var l []).
  { induction l0 as [|x l0 IH]; intros Hl; [constructor|]. apply those_no; [apply Hl; left; auto|]. apply IH. intros y Hy. apply Hl. right. auto. }
  induction l as [|x l IH]; cbn.
  - apply those_yes; [exists v; auto|]. apply N. auto.
  - apply those_no; [apply H; left; auto|]. apply IH. intros t Ht. apply H. right. auto.
Qed.
Print Assumptions C126_hidden.

Example C126_nonvacuous :
  join_env env0 /\
  block env0 [TLeaf 6; TLeaf 2; TAny; TLeaf 0] = TLeaf 2 /\ block env0 [TLeaf 2; TLeaf 6; TLeaf 2] = TLeaf 1 /\
  block env0 [TLeaf 2; TVar 1; TLeaf 3] = TVar 1 /\ block env0 [TVar 1; TVar 1] = TAny /\ block env0 [TLeaf 6; TAny] = TLeaf 0.
Proof. repeat split; reflexivity. Qed.
