From Coq Require Import String Ascii List Arith Bool Lia Sorted.
From Verif Require Import ValModel ValSpec.
Import ListNotations.

Lemma text_eqb_spec a : forall b, text_eqb a b = true <-> a = b.
Proof.
  induction a as [|x a IH]; intros [|y b]; cbn; try (split; congruence). rewrite andb_true_iff, Nat.eqb_eq, IH. split; [intros [-> ->]; reflexivity|intros H; now injection H].
Qed.
Lemma existsb_text a l : existsb (text_eqb a) l = true <-> In a l.
Proof. rewrite existsb_exists. split; [intros (x & I & E); apply text_eqb_spec in E; now subst|intros I; exists a; split; [assumption|now apply text_eqb_spec]]. Qed.
Lemma starts_spec p : forall l, starts p l = true <-> exists r, l = p ++ r.
Proof.
  induction p as [|x p IH]; intros l; cbn; [split; [now exists l|reflexivity]|]. destruct l as [|y l]; [split; [discriminate|intros (r & E); discriminate]|].
  rewrite andb_true_iff, Nat.eqb_eq, IH. split; [intros (-> & r & ->); now exists r|intros (r & E); injection E as -> ->; split; [reflexivity|now exists r]].
Qed.
Lemma contains_spec p l : contains p l = true <-> has p l.
Proof.
  unfold has. induction l as [|y l IH]; cbn [contains]; rewrite orb_true_iff, starts_spec.
  - split; [intros [(r & E)|H]; [exists [], r; exact E|discriminate]|]. intros (a & b & E). left. destruct a; [now exists b|discriminate].
  - rewrite IH. split.
    + intros [(r & E)|(a & b & E)]; [exists [], r; exact E|exists (y :: a), b; cbn; now rewrite E].
    + intros ([|z a] & b & E); [left; now exists b|right]. cbn in E. injection E as -> E. now exists a, b.
Qed.
Lemma ends_spec c l : ends c l = true <-> exists b, l = b ++ [c].
Proof.
  unfold ends. destruct l as [|x l _] using rev_ind; [split; [discriminate|intros (b & E); now destruct b]|]. rewrite rev_unit, Nat.eqb_eq. split; [intros ->; now exists l|intros (b & E); now apply app_inj_tail in E].
Qed.
Lemma bytes_size w l : bytes w l = size w l.
Proof. unfold bytes. induction l as [|x l IH]; [reflexivity|]. cbn. now f_equal. Qed.
Lemma window_recent w n l : recent w n l (window w n l).
Proof.
  induction l as [|x r IH]; [split; [now exists []|split; [cbn; lia|intros a t E; destruct a; [cbn in E; subst; reflexivity|discriminate]]]|].
  cbn [window]. rewrite bytes_size. destruct (Nat.leb_spec (size w (x :: r)) n) as [L|L].
  - split; [now exists []|]. split; [exact L|]. intros a t E _. rewrite E, app_length. lia.
  - destruct IH as ((a & E) & S & M). split; [exists (x :: a); cbn; now rewrite <- E|]. split; [exact S|]. intros [|y b] t F G; cbn in F; [subst t; lia|]. injection F as _ F. now apply (M b).
Qed.
Lemma recent_one w n l s t : recent w n l s -> recent w n l t -> s = t.
Proof.
  intros ((a & E) & S & M) ((b & F) & T & N). assert (L : length s = length t) by (apply Nat.le_antisymm; [now apply (N a)|now apply (M b)]).
  rewrite E in F. assert (LA : length a = length b) by (apply (f_equal (@length nat)) in F; rewrite !app_length in F; lia). clear - F LA. revert b F LA. induction a as [|x a IH]; intros [|y b] F LA; try discriminate; [exact F|]. cbn in F. injection F as _ F. apply (IH b F). now injection LA.
Qed.
(** Packages. *)
Lemma spec_eqb_spec a b : spec_eqb a b = true <-> a = b.
Proof. destruct a, b. unfold spec_eqb. cbn. rewrite !andb_true_iff, !Nat.eqb_eq. split; [intros [[-> ->] ->]; reflexivity|intros H; injection H; auto]. Qed.
Definition le (a b : spec) : Prop := a = b \/ ahead a b.
Lemma leb_le a b : spec_leb a b = true <-> le a b.
Proof.
  unfold spec_leb, le, ahead, other. rewrite orb_true_iff, andb_true_iff, orb_true_iff, andb_true_iff, !Nat.ltb_lt, !Nat.eqb_eq, Nat.leb_le. destruct a as [a1 a2 a3], b as [b1 b2 b3]; cbn. split.
  - intros [H|(-> & [H|(-> & H)])]; [right; left; now left|right; left; right; now split|]. destruct (Nat.eq_dec a3 b3) as [->|]; [now left|right; right; split; [reflexivity|split; [reflexivity|lia]]].
  - intros [H|[[H|(-> & H)]|(-> & -> & H)]]; [injection H as -> -> ->; right; split; [reflexivity|right; split; [reflexivity|lia]]|now left|right; split; [reflexivity|now left]|right; split; [reflexivity|right; split; [reflexivity|lia]]].
Qed.
Lemma le_refl a : le a a. Proof. now left. Qed.
Lemma ahead_trans a b c : ahead a b -> ahead b c -> ahead a c.
Proof. unfold ahead, other. lia. Qed.
Lemma le_trans a b c : le a b -> le b c -> le a c.
Proof. intros [->|H] [->|G]; unfold le; auto. right. now apply (ahead_trans a b c). Qed.
Lemma le_total a b : le a b \/ le b a.
Proof.
  destruct a as [a1 a2 a3], b as [b1 b2 b3]. unfold le, ahead, other. cbn.
  destruct (lt_eq_lt_dec a1 b1) as [[|E1]|]; [lia| |lia]. destruct (lt_eq_lt_dec a2 b2) as [[|E2]|]; [lia| |lia]. destruct (lt_eq_lt_dec a3 b3) as [[|E3]|]; [lia| |lia]. subst. now left; left.
Qed.
Lemma ahead_irrefl a : ~ ahead a a. Proof. unfold ahead, other. lia. Qed.
Definition kle (a b : spec * nat) : Prop := le (fst a) (fst b).
Lemma insert_in v l x : In x (insert v l) <-> x = v \/ In x l.
Proof. induction l as [|y r IH]; cbn; [intuition|]. destruct (spec_leb (fst v) (fst y)); cbn; [intuition|]. rewrite IH. intuition. Qed.
Lemma sort_in l x : In x (sort l) <-> In x l.
Proof. induction l as [|y r IH]; [reflexivity|]. change (sort (y :: r)) with (insert y (sort r)). rewrite insert_in, IH. cbn. intuition. Qed.
Lemma insert_sorted v l : StronglySorted kle l -> StronglySorted kle (insert v l).
Proof.
  induction 1 as [|x r S IH F]; cbn; [repeat constructor|]. destruct (spec_leb (fst v) (fst x)) eqn:E.
  - apply leb_le in E. constructor; [now constructor|]. constructor; [exact E|]. eapply Forall_impl; [|exact F]. intros y. now apply le_trans.
  - assert (B : kle x v). { destruct (le_total (fst x) (fst v)) as [B|B]; [exact B|]. apply leb_le in B. congruence. }
    constructor; [assumption|]. apply Forall_forall. intros y I. apply insert_in in I. destruct I as [->|I]; [assumption|]. rewrite Forall_forall in F. now apply F.
Qed.
Lemma sort_sorted l : StronglySorted kle (sort l).
Proof. induction l as [|y r IH]; [constructor|]. change (sort (y :: r)) with (insert y (sort r)). now apply insert_sorted. Qed.
Lemma insert_stable k v l : filter (fun x => spec_eqb k (fst x)) (insert v l) = filter (fun x => spec_eqb k (fst x)) (v :: l).
Proof.
  induction l as [|y r IH]; [reflexivity|]. cbn [insert]. destruct (spec_leb (fst v) (fst y)) eqn:E; [reflexivity|]. cbn [filter] in *. rewrite IH. destruct (spec_eqb k (fst v)) eqn:V; [|reflexivity]. destruct (spec_eqb k (fst y)) eqn:Y; [|reflexivity].
  exfalso. apply spec_eqb_spec in V, Y. rewrite <- V, <- Y in E. assert (spec_leb k k = true) by (apply leb_le, le_refl). congruence.
Qed.
Lemma sort_stable k l : filter (fun x => spec_eqb k (fst x)) (sort l) = filter (fun x => spec_eqb k (fst x)) l.
Proof. induction l as [|y r IH]; [reflexivity|]. change (sort (y :: r)) with (insert y (sort r)). rewrite insert_stable. cbn [filter]. now rewrite IH. Qed.
Lemma first_filter l x : first l x <-> exists r, filter (fun y => spec_eqb (fst x) (fst y)) l = x :: r.
Proof.
  split.
  - intros (p & q & -> & N). rewrite filter_app. assert (E : filter (fun y => spec_eqb (fst x) (fst y)) p = []).
    { induction p as [|y p IH]; [reflexivity|]. cbn. destruct (spec_eqb (fst x) (fst y)) eqn:Q; [apply spec_eqb_spec in Q; exfalso; apply (N y); [now left|now symmetry]|]. apply IH. intros z I. apply N. now right. }
    rewrite E. cbn. rewrite (proj2 (spec_eqb_spec (fst x) (fst x)) eq_refl). eexists. reflexivity.
  - intros (r & E). induction l as [|y l IH]; [discriminate|]. cbn in E. destruct (spec_eqb (fst x) (fst y)) eqn:Q.
    + injection E as -> _. exists [], l. split; [reflexivity|intros z []].
    + destruct (IH E) as (p & q & -> & N). exists (y :: p), q. split; [reflexivity|]. intros z [<-|I]; [|now apply N]. intros F. rewrite F in Q. rewrite (proj2 (spec_eqb_spec (fst x) (fst x)) eq_refl) in Q. discriminate.
Qed.
Lemma first_sort l x : first (sort l) x <-> first l x.
Proof. rewrite !first_filter, sort_stable. reflexivity. Qed.
(** The same name. *)
Definition same (a b : spec) : Prop := p_ns a = p_ns b /\ p_name a = p_name b.
Lemma same_b x k : (p_ns x =? p_ns k) && (p_name x =? p_name k) = true <-> same x k.
Proof. unfold same. now rewrite andb_true_iff, !Nat.eqb_eq. Qed.
Definition head_of (l : list (spec * nat)) (x : spec * nat) : Prop := exists p q, l = p ++ x :: q /\ forall y, In y p -> other (fst y) (fst x).
Lemma dedup_spec l : forall k, StronglySorted kle l -> (forall x, In x l -> le k (fst x)) ->
  (forall x, In x (dedup k l) -> head_of l x \/ exists p q, l = p ++ x :: q /\ (forall y, In y p -> other (fst y) (fst x) \/ same (fst y) k)) /\
  (forall x, In x (dedup k l) -> other k (fst x)) /\
  StronglySorted (fun a b => other (fst a) (fst b)) (dedup k l) /\
  (forall x, In x l -> same (fst x) k \/ exists y, In y (dedup k l) /\ same (fst y) (fst x) /\ p_version (fst x) <= p_version (fst y)).
Proof.
  induction l as [|x r IH]; intros k S K; [repeat split; try (intros x []); constructor|]. inversion S as [|? ? S' F]; subst. cbn [dedup]. destruct (_ && _) eqn:E in |- *.
  - apply same_b in E. destruct (IH k S') as (A & B & C & D); [intros y I; apply K; now right|]. split; [|split; [exact B|split; [exact C|]]].
    + intros y I. right. destruct (A y I) as [(p & q & -> & N)|(p & q & -> & N)]; exists (x :: p), q; (split; [reflexivity|]); intros z [<-|J]; [now right|left; now apply N|now right|now apply N].
    + intros y [<-|I]; [now left|]. destruct (D y I) as [G|(z & J & G)]; [now left|right; now exists z].
  - assert (O : other k (fst x)). { destruct (K x (or_introl eq_refl)) as [->|[G|(G1 & G2 & _)]]; [|exact G|]; exfalso.
      - assert (T : (p_ns (fst x) =? p_ns (fst x)) && (p_name (fst x) =? p_name (fst x)) = true) by (apply same_b; now split). congruence.
      - assert (T : (p_ns (fst x) =? p_ns k) && (p_name (fst x) =? p_name k) = true) by (apply same_b; now split). congruence. }
    rewrite Forall_forall in F. destruct (IH (fst x) S' F) as (A & B & C & D). split; [|split; [|split]].
    + intros y [<-|I]; [left; exists [], r; split; [reflexivity|intros z []]|]. left. pose proof (B y I) as OY. destruct (A y I) as [(p & q & -> & N)|(p & q & -> & N)]; exists (x :: p), q; (split; [reflexivity|]); intros z [<-|J]; try exact OY; [now apply N|].
      destruct (N z J) as [G|(G1 & G2)]; [exact G|]. unfold other in *. lia.
    + intros y [<-|I]; [exact O|]. pose proof (B y I). unfold other in *. lia.
    + constructor; [exact C|]. apply Forall_forall. exact B.
    + intros y [<-|I]; [right; exists x; split; [now left|split; [now split|lia]]|]. destruct (D y I) as [G|(z & J & G)]; [|right; exists z; split; [now right|exact G]].
      right. exists x. split; [now left|]. split; [unfold same in *; lia|]. destruct (F y I) as [Q|[Q|Q]]; [rewrite Q; lia|unfold other, same in *; lia|lia].
Qed.
Lemma once_spec l : forall seen,
  (forall x, In x (once seen l) -> ~ In (fst x) seen /\ first l x) /\ (forall x, In x l -> In (fst x) seen \/ exists d, In (fst x, d) (once seen l)) /\ NoDup (map fst (once seen l)).
Proof.
  induction l as [|x r IH]; intros seen; [split; [intros x []|split; [intros x []|constructor]]|]. cbn [once]. destruct (existsb (spec_eqb (fst x)) seen) eqn:E.
  - assert (I0 : In (fst x) seen) by (apply existsb_exists in E; destruct E as (s & I & Q); apply spec_eqb_spec in Q; now subst).
    destruct (IH seen) as (A & B & C). split; [|split; [|exact C]].
    + intros y I. destruct (A y I) as (N & p & q & -> & H). split; [exact N|]. exists (x :: p), q. split; [reflexivity|]. intros z [<-|J]; [intros Q; now rewrite Q in I0|now apply H].
    + intros y [<-|I]; [now left|now apply B].
  - assert (N0 : ~ In (fst x) seen). { intros I. assert (T : existsb (spec_eqb (fst x)) seen = true) by (apply existsb_exists; exists (fst x); split; [exact I|now apply spec_eqb_spec]). congruence. }
    destruct (IH (fst x :: seen)) as (A & B & C). split; [|split].
    + intros y [<-|I]; [split; [exact N0|exists [], r; split; [reflexivity|intros z []]]|]. destruct (A y I) as (N & p & q & -> & H). split; [intros J; apply N; now right|]. exists (x :: p), q. split; [reflexivity|]. intros z [<-|J]; [intros Q; apply N; now left|now apply H].
    + intros y [<-|I]; [right; exists (snd x); left; now destruct x|]. destruct (B y I) as [[<-|J]|(d & J)]; [right; exists (snd x); left; now destruct x|now left|right; exists d; now right].
    + cbn. constructor; [|exact C]. intros J. apply in_map_iff in J. destruct J as (y & Q & J). destruct (A y J) as (N & _). apply N. left. now symmetry.
Qed.
Lemma once_none l : NoDup (map fst l) -> forall seen, (forall x, In x l -> ~ In (fst x) seen) -> once seen l = l.
Proof.
  induction l as [|x r IH]; intros N seen S; [reflexivity|]. cbn in N. inversion N as [|? ? NI N']; subst. cbn [once]. destruct (existsb (spec_eqb (fst x)) seen) eqn:E.
  - exfalso. apply existsb_exists in E. destruct E as (s & I & Q). apply spec_eqb_spec in Q. subst s. now apply (S x (or_introl eq_refl)).
  - f_equal. apply IH; [exact N'|]. intros y I [Q|J]; [apply NI; rewrite Q; now apply in_map|]. now apply (S y (or_intror I)).
Qed.
Lemma once_sorted l : forall seen, StronglySorted kle l -> StronglySorted (fun a b => ahead (fst a) (fst b)) (once seen l).
Proof.
  induction l as [|x r IH]; intros seen S; [constructor|]. inversion S as [|? ? S' F]; subst. cbn [once]. destruct (existsb _ _); [now apply IH|]. constructor; [now apply IH|].
  apply Forall_forall. intros y I. destruct (once_spec r (fst x :: seen)) as (A & _ & _). destruct (A y I) as (N & p & q & -> & _). rewrite Forall_forall in F. destruct (F y) as [Q|Q]; [apply in_or_app; right; now left|exfalso; apply N; now left|exact Q].
Qed.
(** Labels. *)
Lemma items_spec (o c : bool) (labels : list (text * option text)) : forall seen,
  let around := fun l : text => (if o then [60] else []) ++ l ++ (if c then [62] else []) in
  let out := label_items o c seen labels in
  (forall l a, In (Name l, a) out <-> In l (map fst labels) /\ ~ In l seen /\ a = around l)
  /\ (forall t a, In (Title t, a) out <-> exists p l q, labels = p ++ (l, Some t) :: q /\ ~ In l (map fst p) /\ ~ In l seen /\ a = around l)
  /\ NoDup (flat_map (fun x => match fst x with Name l => [l] | Title _ => [] end) out).
Proof.
  induction labels as [|[l0 t0] r IH]; intros seen; cbv zeta in *.
  - cbn. split; [intros l a; split; [intros []|intros ([] & _)]|]. split; [|constructor]. intros t a. split; [intros []|intros (p & l & q & E & _); now destruct p].
  - cbn [label_items]. destruct (existsb (text_eqb l0) seen) eqn:E.
    + apply existsb_text in E. destruct (IH seen) as (A & B & C). split; [|split; [|exact C]].
      * intros l a. rewrite A. cbn. split; [intros (I & N & Q); auto|intros ([<-|I] & N & Q); [contradiction|auto]].
      * intros t a. rewrite B. split.
        -- intros (p & l & q & -> & N & N' & Q). exists ((l0, t0) :: p), l, q. split; [reflexivity|]. split; [|auto]. cbn. intros [->|I]; [now apply N'|now apply N].
        -- intros ([|x p] & l & q & F & N & N' & Q); cbn in F; inversion F; subst; clear F.
           ++ exfalso. now apply N'.
           ++ exists p, l, q. split; [reflexivity|]. split; [|auto]. intros I. apply N. now right.
    + assert (N0 : ~ In l0 seen) by (intros I; apply existsb_text in I; congruence). destruct (IH (l0 :: seen)) as (A & B & C). split; [|split].
      * intros l a. rewrite in_app_iff. cbn [In map fst]. rewrite A. split.
        -- intros [H|[H|H]].
           ++ destruct t0; [destruct H as [H|[]]; discriminate|destruct H].
           ++ injection H as <- <-. auto.
           ++ destruct H as (I & N & Q). split; [now right|]. split; [intros J; apply N; now right|exact Q].
        -- intros (I & N & ->). right. destruct (list_eq_dec Nat.eq_dec l0 l) as [->|NE]; [now left|right]. split; [destruct I as [I|I]; [contradiction|exact I]|]. split; [intros [J|J]; contradiction|reflexivity].
      * intros t a. rewrite in_app_iff. cbn [In]. rewrite B. split.
        -- intros [H|[H|H]].
           ++ destruct t0; [|destruct H]. destruct H as [H|[]]. injection H as <- <-. exists [], l0, r. split; [reflexivity|]. split; [intros []|]. now split.
           ++ discriminate.
           ++ destruct H as (p & l & q & -> & N & N' & Q). exists ((l0, t0) :: p), l, q. split; [reflexivity|]. split; [|split; [intros J; apply N'; now right|exact Q]]. cbn. intros [->|I]; [apply N'; now left|now apply N].
        -- intros ([|x p] & l & q & F & N & N' & Q); cbn in F; inversion F; subst; clear F.
           ++ left. now left.
           ++ right. right. exists p, l, q. split; [reflexivity|]. split; [intros I; apply N; now right|]. split; [|reflexivity]. intros [J|J]; [apply N; left; exact J|contradiction].
      * match goal with |- NoDup (flat_map ?f _) => assert (G : NoDup (l0 :: flat_map f (label_items o c (l0 :: seen) r))); [|destruct t0; exact G] end. constructor; [|exact C].
        intros I. apply in_flat_map in I. destruct I as ([s a] & I & J). cbn in J. destruct s as [|l]; [destruct J|]. destruct J as [->|[]]. apply A in I. destruct I as (_ & N & _). apply N. now left.
Qed.
