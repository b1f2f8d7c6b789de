(** Proofs about what is in scope (C191). *)
From Coq Require Import List Arith Bool Lia.
From Verif Require Import DefModel DefSpec.
Import ListNotations.

(** The effect of a list on what is there. *)
Definition effect (l d e : list (nat * ty)) : Prop :=
  (proper 0 d -> proper 0 e) /\ (proper 0 d -> forall n t, In (n, t) e <-> In (n, t) d \/ (~ In n (map fst d) /\ n <> 0 /\ first n t l)).
Lemma proper_low : forall d low x, proper low d -> In x d -> low < fst x.
Proof. induction d as [|y r IH]; intros low x P I; [destruct I|]. destruct P as (A & B). destruct I as [->|I]; [exact A|]. specialize (IH _ _ B I). lia. Qed.
Lemma put_spec : forall n t d low, proper low d -> low < n -> proper low (put n t d) /\ (forall m u, In (m, u) (put n t d) <-> In (m, u) d \/ (~ In n (map fst d) /\ m = n /\ u = t)).
Proof.
  intros n t d. induction d as [|(k, w) r IH]; intros low P L; cbn [put].
  - split; [split; [exact L|exact I]|]. intros m u. cbn. split; [intros [E|[]]; injection E as <- <-; right; split; [intros []|now split]|intros [[]|(_ & -> & ->)]; now left].
  - destruct P as (A & B). cbn [fst] in A, B. destruct (n <? k) eqn:Q.
    + apply Nat.ltb_lt in Q. split; [now repeat split|]. assert (N : ~ In n (map fst ((k, w) :: r))).
      { intros J. apply in_map_iff in J. destruct J as (x & E & J). assert (k <= fst x) by (destruct J as [<-|J]; [reflexivity|pose proof (proper_low _ _ _ B J); lia]). lia. }
      intros m u. split; [intros [E|E]; [injection E as <- <-; right; now split|now left]|intros [E|(_ & -> & ->)]; [now right|now left]].
    + apply Nat.ltb_ge in Q. destruct (n =? k) eqn:E.
      * apply Nat.eqb_eq in E. subst n. split; [now split|]. intros m u. split; [now left|intros [H|(N & _)]; [exact H|exfalso; apply N; now left]].
      * apply Nat.eqb_neq in E. destruct (IH k B ltac:(lia)) as (C & D). split; [now split|]. intros m u. cbn [In map fst]. rewrite D.
        split; [intros [H|[H|(N & H)]]; [now left; left|now left; right|right; split; [intros [X|X]; [lia|contradiction]|exact H]]|intros [[H|H]|(N & H)]; [now left|now right; left|right; right; split; [intros X; apply N; now right|exact H]]].
Qed.
Lemma insert_spec : forall n t d, proper 0 d -> proper 0 (insert n t d) /\ (forall m u, In (m, u) (insert n t d) <-> In (m, u) d \/ (~ In n (map fst d) /\ n <> 0 /\ m = n /\ u = t)).
Proof.
  intros n t d P. unfold insert. destruct (n =? 0) eqn:E.
  - apply Nat.eqb_eq in E. split; [exact P|]. intros m u. split; [now left|intros [H|(_ & H & _)]; [exact H|contradiction]].
  - apply Nat.eqb_neq in E. destruct (put_spec n t d 0 P ltac:(lia)) as (A & B). split; [exact A|]. intros m u. rewrite B. split; [intros [H|(N & H)]; [now left|right; now split]|intros [H|(N & _ & H)]; [now left|right; now split]].
Qed.
Lemma first_nil : forall n t, ~ first n t [].
Proof. intros n t (a & b & E & _). destruct a; discriminate. Qed.
Lemma first_cons : forall n t x l, first n t (x :: l) <-> x = (n, t) \/ (fst x <> n /\ first n t l).
Proof.
  intros n t x l. split.
  - intros ([|y a] & b & E & N); [injection E as -> _; now left|]. injection E as -> ->. right. split; [apply N; now left|]. exists a, b. split; [reflexivity|]. intros z Z. apply N. now right.
  - intros [->|(N & a & b & -> & M)]; [now exists [], l|]. exists (x :: a), b. split; [reflexivity|]. intros z [<-|Z]; [exact N|now apply M].
Qed.
Lemma first_app : forall n t l r, first n t (l ++ r) <-> first n t l \/ (~ In n (map fst l) /\ first n t r).
Proof.
  induction l as [|x l IH]; intros r; cbn [app].
  - split; [intros F; right; split; [intros []|exact F]|intros [F|(_ & F)]; [now apply first_nil in F|exact F]].
  - rewrite !first_cons, IH. cbn [map In]. split; [intros [E|(N & [F|(M & F)])]; [now left; left|left; right; now split|right; split; [intros [X|X]; contradiction|exact F]]|intros [[E|(N & F)]|(N & F)]; [now left|right; split; [exact N|now left]|right; split; [intros X; apply N; now left|right; split; [intros X; apply N; now right|exact F]]]].
Qed.
Lemma first_in : forall n t l, first n t l -> In n (map fst l).
Proof. intros n t l (a & b & -> & _). rewrite map_app. apply in_or_app. right. now left. Qed.
Lemma in_first : forall n l, In n (map fst l) -> exists t, first n t l.
Proof. induction l as [|(m, u) l IH]; intros I; [destruct I|]. destruct (Nat.eq_dec m n) as [->|N]; [exists u; apply first_cons; now left|]. destruct I as [E|I]; [contradiction|]. destruct (IH I) as (t & T). exists t. apply first_cons. right. now split. Qed.
Lemma effect_nil : forall d, effect [] d d.
Proof. intros d. split; [auto|]. intros P n t. split; [now left|intros [H|(_ & _ & F)]; [exact H|now apply first_nil in F]]. Qed.
Lemma effect_one : forall n t d, effect [(n, t)] d (insert n t d).
Proof.
  intros n t d. split; [apply insert_spec|]. intros P m u. destruct (insert_spec n t d P) as (_ & B). rewrite B, first_cons. cbn [fst].
  split; [intros [H|(N & Z & -> & ->)]; [now left|right; split; [exact N|split; [exact Z|now left]]]|].
  intros [H|(N & Z & [E|(_ & F)])]; [now left|injection E as <- <-; right; now repeat split|now apply first_nil in F].
Qed.
Lemma effect_app : forall l r d e f, effect l d e -> effect r e f -> effect (l ++ r) d f.
Proof.
  intros l r d e f (A & B) (C & D). split; [auto|]. intros P n t. specialize (B P). specialize (D (A P)). rewrite D, B, first_app.
  assert (K : n <> 0 -> ~ In n (map fst d) -> (In n (map fst e) <-> In n (map fst l))).
  { intros Z N. split.
    - intros I. apply in_map_iff in I. destruct I as ((m, u) & E & I). cbn in E. subst m. apply B in I. destruct I as [I|(_ & _ & F)]; [exfalso; apply N; apply (in_map fst) in I; exact I|eapply first_in; exact F].
    - intros I. apply in_first in I. destruct I as (u & U). assert (J : In (n, u) e) by (apply B; right; now split). apply (in_map fst) in J. exact J. }
  assert (M : In n (map fst d) -> In n (map fst e)).
  { intros I. apply in_map_iff in I. destruct I as ((m, u) & E & I). cbn in E. subst m. assert (J : In (n, u) e) by (apply B; now left). apply (in_map fst) in J. exact J. }
  split.
  - intros [[H|(N & Z & F)]|(N & Z & F)]; [now left|right; split; [exact N|split; [exact Z|now left]]|]. assert (N' : ~ In n (map fst d)) by auto. right. split; [exact N'|]. split; [exact Z|]. right. split; [intros X; apply N; now apply K|exact F].
  - intros [H|(N & Z & [F|(X & F)])]; [now left; left|left; right; now split|]. right. split; [intros Y; apply X; now apply K|now split].
Qed.
Lemma effect_fold : forall (X : Type) (g : X -> nat * ty) l d, effect (map g l) d (fold_left (fun d x => insert (fst (g x)) (snd (g x)) d) l d).
Proof.
  intros X g. induction l as [|x l IH]; intros d; cbn [map fold_left]; [apply effect_nil|].
  change (g x :: map g l) with ([g x] ++ map g l). eapply effect_app; [|apply IH]. destruct (g x) as (n, t). apply effect_one.
Qed.
Lemma put_has : forall n t d, proper 0 d -> has n d = true -> put n t d = d.
Proof.
  intros n t d. generalize 0. induction d as [|(k, w) r IH]; intros low P H; [discriminate|]. destruct P as (A & B). cbn [fst] in *. cbn [put]. cbn in H.
  destruct (k =? n) eqn:E; cbn in H.
  - apply Nat.eqb_eq in E. subst k. now rewrite Nat.ltb_irrefl, Nat.eqb_refl.
  - assert (L : k < n). { apply existsb_exists in H. destruct H as (x & I & Q). apply Nat.eqb_eq in Q. subst n. exact (proper_low _ _ _ B I). }
    replace (n <? k) with false by (symmetry; apply Nat.ltb_ge; lia). replace (n =? k) with false by (symmetry; apply Nat.eqb_neq; lia). f_equal. exact (IH k B H).
Qed.
Lemma effect_scope : forall s d, effect (vals s) d (insert_scope s d).
Proof.
  intros s d. unfold insert_scope, vals.
  assert (E : forall d, proper 0 d -> fold_left (fun d x => if has (fst x) d then d else insert (fst x) (TVal (snd x)) d) s d = fold_left (fun d x => insert (fst x) (TVal (snd x)) d) s d).
  { clear d. induction s as [|x r IH]; intros d P; [reflexivity|]. cbn [fold_left]. destruct (has (fst x) d) eqn:H; [|apply IH; now apply insert_spec].
    replace (insert (fst x) (TVal (snd x)) d) with d by (unfold insert; destruct (fst x =? 0); [reflexivity|symmetry; now apply put_has]). now apply IH. }
  split; intros P; rewrite (E d P); [exact (proj1 (effect_fold _ (fun x => (fst x, TVal (snd x))) s d) P)|exact (proj2 (effect_fold _ (fun x => (fst x, TVal (snd x))) s d) P)].
Qed.
Lemma effect_all : forall l d, effect l d (fold_left (fun d x => insert (fst x) (snd x) d) l d).
Proof. intros l d. pose proof (effect_fold _ (fun x => x) l d) as E. now rewrite map_id in E. Qed.
Section World.
Variables (fields_on : nat -> list nat) (type_scope : nat -> list (nat * nat)) (takes_self : nat -> bool).
Variables (elem_fields : nat -> list field) (elem_scope : nat -> list (nat * nat)) (func_scope : nat -> option (list (nat * nat))).
Variables (exports : nat -> option (list (nat * ty))) (module_scope : nat -> option (list (nat * nat))) (value_scope : nat -> list (nat * nat)).
Variables (func array : nat).
Let chk := check fields_on type_scope takes_self elem_fields elem_scope func_scope exports module_scope value_scope func array.
Lemma effect_any : forall ns d, effect (map (fun n => (n, TAny)) ns) d (fold_left (fun d n => insert n TAny d) ns d).
Proof. intros ns d. exact (effect_fold _ (fun n => (n, TAny)) ns d). Qed.
Lemma methods_effect : forall a t l d, methods fields_on type_scope takes_self a t l -> effect l d (type_methods fields_on type_scope takes_self (Some a) t d).
Proof.
  intros a t l d (ms & F & ->). unfold type_methods. eapply effect_app; [apply effect_any|].
  generalize (fold_left (fun d n => insert n TAny d) (fields_on t) d). induction F as [|x m s ms B F IH]; intros c; [apply effect_nil|]. cbn [fold_left].
  change (m :: ms) with ([m] ++ ms). eapply effect_app; [|apply IH]. destruct B as [n v T|n v T]; cbn [fst snd]; rewrite T; apply effect_one.
Qed.
Lemma type_effect : forall t d, effect (map (fun n => (n, TAny)) (fields_on t) ++ vals (type_scope t)) d (type_methods fields_on type_scope takes_self None t d).
Proof. intros t d. unfold type_methods. eapply effect_app; [apply effect_any|]. exact (effect_fold _ (fun x => (fst x, TVal (snd x))) (type_scope t) _). Qed.
Lemma elem_effect : forall fs l s, Forall2 typed fs l -> effect l (fst s) (fst (fold_left (fun s f => (insert (f_name f) (field_ty f) (fst s), match f_param f with Some (doc, _) => put_doc (f_name f) doc (snd s) | None => snd s end)) fs s)).
Proof.
  intros fs l s F. revert s. induction F as [|f x fs l T F IH]; intros s; [apply effect_nil|]. cbn [fold_left]. change (x :: l) with ([x] ++ l). eapply effect_app; [|apply IH]. cbn [fst]. destruct T; apply effect_one.
Qed.
Lemma access_effect : forall i l s, accesses fields_on type_scope takes_self elem_fields exports module_scope value_scope func array i l -> effect l (fst s) (fst (chk FieldAccess i s)).
Proof.
  intros i l (d, docs) A. unfold chk. destruct A; cbn [check fst].
  - apply effect_all.
  - exact (effect_fold _ (fun x => (fst x, TVal (snd x))) l d).
  - exact (elem_effect _ _ (d, docs) H).
  - now apply methods_effect.
  - apply type_effect.
  - now apply methods_effect.
  - now apply methods_effect.
  - now apply methods_effect.
  - rewrite H. apply effect_all.
  - rewrite H, H0. apply effect_scope.
  - rewrite H, H0. apply effect_nil.
  - apply effect_scope.
Qed.
Lemma import_effect : forall i l s, imports type_scope elem_scope func_scope exports module_scope value_scope i l -> effect l (fst s) (fst (chk Import i s)).
Proof.
  intros i l (d, docs) A. unfold chk. destruct A; cbn [check fst]; try apply effect_nil; try apply effect_scope.
  - rewrite H. apply effect_scope.
  - rewrite H. apply effect_nil.
  - rewrite H. apply effect_all.
  - rewrite H, H0. apply effect_scope.
  - rewrite H, H0. apply effect_nil.
Qed.
End World.
