(** Lemmas about [AssocModel]. *)
From Coq Require Import List Arith Bool Lia.
From Verif Require Import AssocModel.
Import ListNotations.

Lemma aget_adel_eq : forall A k (m : list (nat * A)), aget k (adel k m) = None.
Proof.
  unfold adel. induction m as [|[k' v] m IH]; [reflexivity|]. cbn. destruct (k =? k') eqn:E; cbn; [exact IH|].
  rewrite E. exact IH.
Qed.
Lemma aget_adel_neq : forall A k k' (m : list (nat * A)), k <> k' -> aget k (adel k' m) = aget k m.
Proof.
  intros A k k' m N. unfold adel. induction m as [|[k2 v] m IH]; [reflexivity|]. cbn.
  destruct (Nat.eqb_spec k' k2) as [->|N2]; cbn.
  - destruct (Nat.eqb_spec k k2); [contradiction|exact IH].
  - rewrite IH. reflexivity.
Qed.
Lemma aget_adel : forall A k k' (m : list (nat * A)), aget k (adel k' m) = if k =? k' then None else aget k m.
Proof.
  intros. destruct (Nat.eqb_spec k k') as [->|N]; [apply aget_adel_eq|now apply aget_adel_neq].
Qed.
Lemma aget_aset : forall A k k' (v : A) m, aget k (aset k' v m) = if k =? k' then Some v else aget k m.
Proof.
  intros. unfold aset. cbn. destruct (k =? k') eqn:E; [reflexivity|]. rewrite aget_adel, E. reflexivity.
Qed.
Lemma aget_aset_eq : forall A k (v : A) m, aget k (aset k v m) = Some v.
Proof. intros. rewrite aget_aset, Nat.eqb_refl. reflexivity. Qed.
Lemma aget_aset_neq : forall A k k' (v : A) m, k <> k' -> aget k (aset k' v m) = aget k m.
Proof. intros A k k' v m N. rewrite aget_aset. apply Nat.eqb_neq in N. now rewrite N. Qed.
Lemma aget_none : forall A k (m : list (nat * A)), aget k m = None <-> ~ In k (akeys m).
Proof.
  induction m as [|[k' v] m IH]; cbn; [tauto|].
  destruct (Nat.eqb_spec k k') as [->|N]; [split; [discriminate|tauto]|].
  rewrite IH. split; [intros H [E|H2]; [congruence|tauto]|tauto].
Qed.
Lemma aget_in : forall A k (v : A) m, aget k m = Some v -> In (k, v) m.
Proof.
  induction m as [|[k' v'] m IH]; cbn; [discriminate|].
  destruct (Nat.eqb_spec k k') as [->|N]; intros H; [inversion H; auto|auto].
Qed.
Lemma aget_in_keys : forall A k (v : A) m, aget k m = Some v -> In k (akeys m).
Proof. intros. apply aget_in in H. apply (in_map fst) in H. exact H. Qed.
Lemma akeys_adel : forall A k k' (m : list (nat * A)), In k (akeys (adel k' m)) <-> k <> k' /\ In k (akeys m).
Proof.
  induction m as [|[k2 v] m IH]; cbn; [tauto|].
  destruct (Nat.eqb_spec k' k2) as [->|N]; cbn; rewrite IH; intuition congruence.
Qed.
Lemma nodup_adel : forall A k (m : list (nat * A)), NoDup (akeys m) -> NoDup (akeys (adel k m)).
Proof.
  induction m as [|[k' v] m IH]; cbn; [auto|]. intros H. inversion H; subst.
  destruct (k =? k'); cbn; [auto|]. constructor; [|auto].
  intros Hi. apply akeys_adel in Hi. tauto.
Qed.
Lemma nodup_aset : forall A k (v : A) m, NoDup (akeys m) -> NoDup (akeys (aset k v m)).
Proof.
  intros A k v m H. cbn. constructor; [|now apply nodup_adel].
  intros Hi. apply akeys_adel in Hi. tauto.
Qed.
Lemma in_aget : forall A k (v : A) m, NoDup (akeys m) -> In (k, v) m -> aget k m = Some v.
Proof.
  induction m as [|[k' v'] m IH]; cbn; [tauto|]. intros Hn Hi. inversion Hn; subst.
  destruct (Nat.eqb_spec k k') as [->|N].
  - destruct Hi as [E|Hi]; [congruence|]. apply (in_map fst) in Hi. cbn in Hi. contradiction.
  - destruct Hi as [E|Hi]; [congruence|auto].
Qed.
#[global] Arguments upd : simpl never.
Lemma upd_eq : forall A (f : nat -> A) k v, upd f k v k = v.
Proof. intros. unfold upd. now rewrite Nat.eqb_refl. Qed.
Lemma upd_neq : forall A (f : nat -> A) k v x, x <> k -> upd f k v x = f x.
Proof. intros A f k v x N. unfold upd. apply Nat.eqb_neq in N. now rewrite N. Qed.
#[global] Arguments aset : simpl never.
#[global] Arguments adel : simpl never.
