(** Proofs about completion by types (C193). *)
From Coq Require Import String.
From Coq Require Import List Arith Bool Lia.
From Verif Require Import InfModel InfSpec.
Import ListNotations.
Open Scope list_scope.

Lemma list_sum_in : forall (f : ty -> nat) l t, In t l -> f t <= list_sum (map f l).
Proof. intros f. induction l as [|x l IH]; intros t I; [destruct I|]. cbn. destruct I as [->|I]; [lia|]. specialize (IH t I). unfold list_sum in IH. lia. Qed.
(** What an action gives, for a type. *)
Definition acts (st mark : bool) (t : ty) (a : action) (i : item) : Prop :=
  match a with Emit j => j = i | Go u => gives st mark u i | Name n => InfModel.filter st t = true /\ mark = false /\ i = IField n end.
Lemma size_pos : forall t, 1 <= size t.
Proof. intros [n|l|u l|n|n|n|b|v|n p q t]; cbn [size]; try lia. destruct b; lia. Qed.
Lemma plan_size : forall in_string t u, In (Go u) (plan in_string t) -> size u < size t.
Proof.
  intros in_string.
  assert (NS : forall l u, ~ In (Go u) (snips in_string l)) by (intros l u; unfold snips; destruct (InfModel.filter in_string (TNo 0)); [intros I; apply in_map_iff in I; destruct I as (x & E & _); discriminate|intros []]).
  intros [n|l|ub lb|n|n|n|b|v|n p q t] u I; cbn [plan] in I.
  - destruct I.
  - apply in_map_iff in I. destruct I as (x & E & I). injection E as ->. cbn [size]. pose proof (list_sum_in size l u I). lia.
  - cbn [size]. apply in_app_or in I. destruct I as [I|I]; apply in_map_iff in I; destruct I as (x & E & I); injection E as ->; [pose proof (list_sum_in size ub u I)|pose proof (list_sum_in size lb u I)]; lia.
  - destruct (InfModel.filter in_string _); [now apply NS in I|destruct I].
  - destruct (InfModel.filter in_string _); [now apply NS in I|destruct I].
  - destruct (InfModel.filter in_string _); [now apply NS in I|destruct I].
  - destruct (InfModel.filter in_string _); [|destruct I]. destruct b as [ | |k| | | | | | | | | | | | | | | |k|k|k]; cbn [builtin] in I; try (now apply NS in I); try (destruct I as [E|[]]; discriminate); try destruct I;
      try (apply in_app_or in I; destruct I as [I|I]; [now apply NS in I|]; cbn in I; repeat (destruct I as [E|I]; [injection E as <-; cbn; lia|]); destruct I).
    destruct k; try (now apply NS in I); try (destruct I as [E|[]]; first [discriminate | injection E as <-; cbn; lia]); destruct I.
  - destruct (InfModel.filter in_string _); [|destruct I]. destruct v; destruct I as [E|[]]; first [discriminate | injection E as <-; cbn; lia].
  - apply in_app_or in I. destruct I as [I|I]; [destruct p|destruct q]; try destruct I as [E|[]]; try destruct I; [injection E as <-; cbn [size]; lia|discriminate].
Qed.
Lemma ex_cons : forall (P : action -> Prop) x l, (exists a, In a (x :: l) /\ P a) <-> P x \/ exists a, In a l /\ P a.
Proof. intros P x l. split; [intros (a & [<-|I] & A); [now left|right; now exists a]|intros [A|(a & I & A)]; [exists x; split; [now left|exact A]|exists a; split; [now right|exact A]]]. Qed.
Lemma ex_nil : forall (P : action -> Prop), (exists a, In a [] /\ P a) <-> False.
Proof. intros P. split; [intros (a & [] & _)|intros []]. Qed.
Lemma gives_bt : forall m b i, gives false m (TBuiltin b) i <-> In i (of_bt b).
Proof. intros m b i. split; [intros G; inversion G; subst; try assumption; discriminate|intros I; now constructor]. Qed.
Lemma plan_gives : forall st m t i, gives st m t i <-> exists a, In a (plan st t) /\ acts st m t a i.
Proof.
  intros st m [n|l|ub lb|n|n|n|b|v|n p q t] i; cbn [plan].
  - split; [intros G; inversion G|intros (a & [] & _)].
  - split; [intros G; inversion G; subst; exists (Go t); split; [now apply in_map|assumption]|]. intros (a & I & A). apply in_map_iff in I. destruct I as (t & <- & I). exact (G_union _ _ l t i I A).
  - split; [intros G; inversion G; subst; exists (Go t); (split; [apply in_or_app|assumption]); [left|right]; now apply in_map|].
    intros (a & I & A). apply in_app_or in I. destruct I as [I|I]; apply in_map_iff in I; destruct I as (t & <- & I); [exact (G_upper _ _ _ _ t i I A)|exact (G_lower _ _ _ _ t i I A)].
  - destruct st; cbn [InfModel.filter]; [split; [intros G; inversion G; discriminate|intros (a & [] & _)]|]. unfold snips. cbn [InfModel.filter map fst snd]. rewrite ex_cons, ex_nil. cbn [acts].
    split; [intros G; inversion G as [| | |? ? _ I| | | | | | | | | | | | |]; subst; cbn in I; tauto|intros [E|[]]; constructor; [reflexivity|now left]].
  - destruct st; cbn [InfModel.filter]; [split; [intros G; inversion G; discriminate|intros (a & [] & _)]|]. unfold snips. cbn [InfModel.filter map fst snd]. rewrite ex_cons, ex_nil. cbn [acts].
    split; [intros G; inversion G as [| | | |? ? _ I| | | | | | | | | | | |]; subst; cbn in I; tauto|intros [E|[]]; constructor; [reflexivity|now left]].
  - destruct st; cbn [InfModel.filter]; [split; [intros G; inversion G; discriminate|intros (a & [] & _)]|]. unfold snips. cbn [InfModel.filter map fst snd]. rewrite !ex_cons, ex_nil. cbn [acts].
    split; [intros G; inversion G as [| | | | |? ? _ I| | | | | | | | | | |]; subst; cbn in I; tauto|intros [E|[E|[]]]; (constructor; [reflexivity|]); [now left|right; now left]].
  - destruct st.
    + destruct b; cbn [InfModel.filter builtin]; try (split; [intros G; inversion G; discriminate|intros (a & [] & _)]);
        (split; [intros G; inversion G; subst; try discriminate; eexists; (split; [now left|reflexivity])|intros (a & [<-|[]] & A); cbn in A; subst i; now constructor]).
    + rewrite gives_bt. cbn [InfModel.filter]. destruct b as [ | |k| | | | | | | | | | | | | | | |k|k|k]; try destruct k as [ | | | | | |k|k|k]; cbn [builtin]; unfold snips; cbn [InfModel.filter map fst snd app];
        rewrite ?ex_cons, ?ex_nil; cbn [acts]; rewrite ?gives_bt; cbn [of_bt of_tt]; unfold parens, lengths, colors, autos, nones, bools, sn; cbn [map app In fst snd]; tauto.
  - destruct st.
    + destruct v; cbn [InfModel.filter]; try (split; [intros G; inversion G; discriminate|intros (a & [] & _)]).
      split; [intros G; inversion G; subst; try discriminate; eexists; (split; [now left|reflexivity])|intros (a & [<-|[]] & A); cbn in A; subst i; now constructor].
    + destruct v; cbn [InfModel.filter]; rewrite ex_cons, ex_nil; cbn [acts]; rewrite ?gives_bt; cbn [of_bt].
      * split; [intros G; inversion G; subst; now left|intros [I|[]]; now constructor].
      * split; [intros G; inversion G; subst; now left|intros [I|[]]; now constructor].
      * split; [intros G; inversion G; subst; now left|intros [I|[]]; now constructor].
      * split; [intros G; inversion G; subst; now left|intros [<-|[]]; now constructor].
      * split; [intros G; inversion G; subst; now left|intros [<-|[]]; now constructor].
  - split.
    + intros G. inversion G; subst; [exists (Go t); split; [now left|assumption]|]. exists (Name n). split; [apply in_or_app; right; now left|]. cbn. auto.
    + intros (a & I & A). apply in_app_or in I. destruct I as [I|I].
      * destruct p; [|destruct I]. destruct I as [<-|[]]. now apply G_positional.
      * destruct q; [|destruct I]. destruct I as [<-|[]]. destruct A as (F & M & ->). destruct st; [discriminate|]. now apply G_named.
Qed.
(** What a step keeps, for types up to a size. *)
Definition complete (st m : bool) (t : ty) (s : state) : Prop := forall i, gives st m t i -> In i (out s).
Definition closed (st m : bool) (z : nat) (s : state) : Prop :=
  (forall u, In u (seen s) -> size u <= z -> complete st m u s) /\ (st = false -> m = false -> forall n, In n (fields s) -> In (IField n) (out s)).
Record step (st m : bool) (z : nat) (give : item -> Prop) (s s' : state) : Prop := {
  s_out : forall i, In i (out s) -> In i (out s');
  s_new : forall i, In i (out s') -> In i (out s) \/ give i;
  s_all : closed st m z s -> forall i, give i -> In i (out s');
  s_seen : forall u, In u (seen s') -> In u (seen s) \/ size u <= z;
  s_had : forall u, In u (seen s) -> In u (seen s');
  s_closed : closed st m z s -> closed st m z s' }.
Lemma step_weaken : forall st m z z' g s s', z' <= z -> step st m z' g s s' -> step st m z g s s'.
Proof.
  intros st m z z' g s s' L [A B C D E F].
  assert (W : closed st m z s -> closed st m z' s) by (intros (X & Y); split; [intros u I S; apply X; [exact I|lia]|exact Y]).
  constructor; auto.
  - intros u I. destruct (D u I) as [H|H]; [now left|right; lia].
  - intros Z. split; [|exact (proj2 (F (W Z)))]. intros u I S. destruct (D u I) as [H|H]; [intros i G; apply A; exact (proj1 Z u H S i G)|exact (proj1 (F (W Z)) u I H)].
Qed.
Lemma step_trans : forall st m z g h s s' s'', step st m z g s s' -> step st m z h s' s'' -> step st m z (fun i => g i \/ h i) s s''.
Proof.
  intros st m z g h s s' s'' [A B C D E F] [A' B' C' D' E' F']. constructor; auto.
  - intros i I. destruct (B' i I) as [H|H]; [|now right; right]. destruct (B i H) as [K|K]; [now left|now right; left].
  - intros Z i [G|H]; [apply A'; now apply C|now apply C'; [apply F|]].
  - intros u I. destruct (D' u I) as [H|H]; [now apply D|now right].
Qed.
Lemma step_iff : forall st m z g h s s', (forall i, g i <-> h i) -> step st m z g s s' -> step st m z h s s'.
Proof. intros st m z g h s s' Q [A B C D E F]. constructor; auto; [intros i I; destruct (B i I) as [H|H]; [now left|right; now apply Q]|intros Z i H; apply C; [exact Z|now apply Q]]. Qed.
Lemma go_step : forall st m k t s, size t <= k -> step st m (size t) (gives st m t) s (go k st m t s).
Proof.
  intros st m. induction k as [|k IH]; intros t s L; [pose proof (size_pos t); lia|]. cbn [go]. destruct (in_dec ty_eq t (seen s)) as [IN|NI].
  - constructor; auto. intros (X & _) i G. exact (X t IN (le_n _) i G).
  - set (act := fun (s : state) (a : action) => match a with Emit i => {| seen := seen s; fields := fields s; out := out s ++ [i] |} | Go u => go k st m u s
      | Name n => if in_dec Nat.eq_dec n (fields s) then s else {| seen := seen s; fields := n :: fields s; out := if InfModel.filter st t && negb m then out s ++ [IField n] else out s |} end).
    assert (FL : forall l c, (forall a, In a l -> In a (plan st t)) -> step st m (size t - 1) (fun i => exists a, In a l /\ acts st m t a i) c (fold_left act l c)).
    { induction l as [|a l IHl]; intros c SU; cbn [fold_left].
      - constructor; auto. intros _ i (a & [] & _).
      - eapply step_iff; [intros i; symmetry; apply ex_cons|]. eapply step_trans; [|apply IHl; intros x X; apply SU; now right].
        assert (IA : In a (plan st t)) by (apply SU; now left). destruct a as [i|u|n]; cbn [act acts].
        + constructor; cbn [out seen fields]; auto.
          * intros j J. apply in_or_app. now left.
          * intros j J. apply in_app_or in J. destruct J as [J|[J|[]]]; [now left|now right].
          * intros _ j <-. apply in_or_app. right. now left.
          * intros (X & Y). split; cbn [out seen fields]; [intros u U S j J; apply in_or_app; left; exact (X u U S j J)|intros E M n N; apply in_or_app; left; now apply Y].
        + pose proof (plan_size st t u IA). apply (step_weaken st m (size t - 1) (size u)); [lia|]. apply IH. lia.
        + assert (FT : InfModel.filter st t = negb st). { destruct st; [|reflexivity]. destruct t as [| | | | | |b|v|]; try reflexivity; exfalso; cbn [plan] in IA.
            - destruct b; cbn in IA; try destruct IA as [E|[]]; try destruct IA; discriminate.
            - destruct v; cbn in IA; try destruct IA as [E|[]]; try destruct IA; discriminate. }
          rewrite FT. destruct (in_dec Nat.eq_dec n (fields c)) as [IF|NF].
          * constructor; auto. intros (_ & Y) i (F & M & ->). apply Y; [now destruct st|exact M|exact IF].
          * constructor; cbn [out seen fields]; auto.
            -- intros i I. destruct (negb st && negb m); [apply in_or_app; now left|exact I].
            -- intros i I. destruct st, m; cbn [negb andb] in I; try (now left). apply in_app_or in I. destruct I as [I|[<-|[]]]; [now left|right; now repeat split].
            -- intros _ i (F & M & ->). rewrite F, M. cbn. apply in_or_app. right. now left.
            -- intros (X & Y). split; cbn [out seen fields].
               ++ intros u U S j J. specialize (X u U S j J). destruct (negb st && negb m); [apply in_or_app; now left|exact X].
               ++ intros -> -> j [<-|J]; cbn; apply in_or_app; [right; now left|left; now apply Y]. }
    destruct (FL (plan st t) {| seen := t :: seen s; fields := fields s; out := out s |} (fun a H => H)) as [A B C D E F]. cbn [out seen fields] in *.
    fold act. set (s' := fold_left act (plan st t) {| seen := t :: seen s; fields := fields s; out := out s |}) in *.
    assert (CL : closed st m (size t) s -> closed st m (size t - 1) {| seen := t :: seen s; fields := fields s; out := out s |}).
    { intros (X & Y). split; cbn [out seen fields]; [|exact Y]. intros u [<-|U] S; [pose proof (size_pos t); lia|]. apply X; [exact U|lia]. }
    constructor.
    + exact A.
    + intros i I. destruct (B i I) as [H|H]; [now left|right; now apply plan_gives].
    + intros Z i G. apply C; [now apply CL|now apply plan_gives].
    + intros u U. destruct (D u U) as [[<-|H]|H]; [right; lia|now left|right; lia].
    + intros u U. apply E. now right.
    + intros Z. destruct (F (CL Z)) as (X & Y). split; [|exact Y]. intros u U S. destruct (D u U) as [[<-|H]|H].
      * intros i G. apply C; [now apply CL|now apply plan_gives].
      * intros i G. apply A. exact (proj1 Z u H S i G).
      * exact (X u U H).
Qed.
(** The parameters that are offered by name. *)
Definition names (l : list item) : list nat := flat_map (fun i => match i with IField k => [k] | _ => [] end) l.
Lemma names_app : forall a b, names (a ++ b) = names a ++ names b.
Proof. intros a b. apply flat_map_app. Qed.
Lemma plan_emit : forall st t n, ~ In (Emit (IField n)) (plan st t).
Proof.
  assert (NS : forall st l n, ~ In (Emit (IField n)) (snips st l)) by (intros st l n; unfold snips; destruct (InfModel.filter st (TNo 0)); [intros I; apply in_map_iff in I; destruct I as (x & E & _); discriminate|intros []]).
  assert (NG : forall l n, ~ In (Emit (IField n)) (map Go l)) by (intros l n I; apply in_map_iff in I; destruct I as (x & E & _); discriminate).
  intros st [n|l|ub lb|n|n|n|b|v|n p q t] k I; cbn [plan] in I.
  - destruct I.
  - now apply NG in I.
  - apply in_app_or in I. destruct I as [I|I]; now apply NG in I.
  - destruct (InfModel.filter st _); [now apply NS in I|destruct I].
  - destruct (InfModel.filter st _); [now apply NS in I|destruct I].
  - destruct (InfModel.filter st _); [now apply NS in I|destruct I].
  - destruct (InfModel.filter st _); [|destruct I]. destruct b as [ | |j| | | | | | | | | | | | | | | |j|j|j]; try destruct j as [ | | | | | |j|j|j]; cbn [builtin] in I; try (now apply NS in I); try (destruct I as [E|[]]; discriminate); try destruct I;
      (apply in_app_or in I; destruct I as [I|I]; [now apply NS in I|]; cbn in I; repeat (destruct I as [E|I]; [discriminate|]); destruct I).
  - destruct (InfModel.filter st _); [|destruct I]. destruct v; destruct I as [E|[]]; discriminate.
  - apply in_app_or in I. destruct I as [I|I]; [destruct p|destruct q]; try destruct I as [E|[]]; try destruct I; discriminate.
Qed.
Lemma go_once : forall st m k t s, NoDup (names (out s)) /\ (forall n, In n (names (out s)) -> In n (fields s)) ->
  NoDup (names (out (go k st m t s))) /\ (forall n, In n (names (out (go k st m t s))) -> In n (fields (go k st m t s))).
Proof.
  intros st m. induction k as [|k IH]; intros t s H; [exact H|]. cbn [go]. destruct (in_dec ty_eq t (seen s)) as [IN|NI]; [exact H|].
  assert (G : forall l c, (forall a, In a l -> In a (plan st t)) -> NoDup (names (out c)) /\ (forall n, In n (names (out c)) -> In n (fields c)) ->
    let c' := fold_left (fun (s : state) (a : action) => match a with Emit i => {| seen := seen s; fields := fields s; out := out s ++ [i] |} | Go u => go k st m u s
      | Name n => if in_dec Nat.eq_dec n (fields s) then s else {| seen := seen s; fields := n :: fields s; out := if InfModel.filter st t && negb m then out s ++ [IField n] else out s |} end) l c in
    NoDup (names (out c')) /\ (forall n, In n (names (out c')) -> In n (fields c'))).
  { induction l as [|a l IHl]; intros c SU Hc; [exact Hc|]. cbv zeta in *. cbn [fold_left]. apply IHl; [intros x X; apply SU; now right|].
    destruct a as [i|u|n]; [|now apply IH|].
    - cbn [out fields]. rewrite names_app. assert (E : names [i] = []) by (destruct i; try reflexivity; exfalso; apply (plan_emit st t n); apply SU; now left). now rewrite E, app_nil_r.
    - destruct (in_dec Nat.eq_dec n (fields c)) as [IF|NF]; [exact Hc|]. cbn [out fields]. destruct Hc as (A & B). destruct (InfModel.filter st t && negb m); [|split; [exact A|intros x X; right; now apply B]].
      rewrite names_app. cbn [names flat_map app]. split; [|intros x X; apply in_app_or in X; destruct X as [X|[<-|[]]]; [right; now apply B|now left]].
      assert (NN : ~ In n (names (out c))) by (intros X; apply NF; now apply B). clear - A NN. induction (names (out c)) as [|y r IHr]; [repeat constructor; intros []|]. inversion A; subst. cbn [app]. constructor; [|apply IHr; [assumption|intros X; apply NN; now right]].
      intros X. apply in_app_or in X. destruct X as [X|[<-|[]]]; [contradiction|apply NN; now left]. }
  apply G; [auto|exact H].
Qed.
