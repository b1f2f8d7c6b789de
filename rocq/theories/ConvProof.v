(** Proofs about the conversion of diagnostics. *)
From Coq Require Import String.
From Coq Require Import List Arith NArith Bool Lia.
From Verif Require Import LocModel ConvModel ConvSpec.
Import ListNotations.
Local Open Scope nat_scope.

Lemma starts_ok p : forall s, starts p s = true <-> exists b, s = p ++ b.
Proof.
  induction p as [|a p IH]; intros s; cbn; [split; eauto|]. destruct s as [|c s]; [split; [discriminate|intros (b & H); discriminate]|].
  rewrite andb_true_iff, N.eqb_eq, IH. split; [intros (-> & b & ->); eauto|]. intros (b & H). injection H as -> ->. eauto.
Qed.
Lemma contains_ok p : forall s, contains s p = true <-> within p s.
Proof.
  unfold within. induction s as [|c s IH]; cbn [contains]; rewrite orb_true_iff, starts_ok.
  - split; [intros [(b & H)|H]; [exists [], b; auto|discriminate]|]. intros (a & b & H). left. destruct a; [exists b; auto|discriminate].
  - rewrite IH. split; [intros [(b & H)|(a & b & ->)]; [exists [], b; auto|exists (c :: a), b; auto]|]. intros ([|x a] & b & H); [left; exists b; auto|right; injection H as -> ->; eauto].
Qed.
Lemma outdated_ok d : deprecation_matches d = true <-> outdated d.
Proof.
  unfold deprecation_matches, deprecation_patterns, outdated. cbn [existsb]. rewrite !orb_true_iff, !contains_ok. intuition discriminate.
Qed.
Lemma outside_ok d : out_of_root_matches d = true <-> outside d.
Proof.
  unfold out_of_root_matches, outside. rewrite andb_true_iff, contains_ok, existsb_exists. split; intros (H & h & H1 & H2); (split; [auto|]); exists h; (split; [auto|]); apply contains_ok; auto.
Qed.
Lemma hint_not_outside d : out_of_root_matches (with_hint deprecation_hint d) = out_of_root_matches d.
Proof.
  unfold out_of_root_matches. cbn [d_msg d_hints with_hint]. rewrite existsb_app. replace (existsb _ [deprecation_hint]) with false by (vm_compute; reflexivity). rewrite orb_false_r. auto.
Qed.
Lemma refine_ok d : let d' := refine d in d_sev d' = d_sev d /\ d_span d' = d_span d /\ d_msg d' = d_msg d /\ d_trace d' = d_trace d /\
  forall hs, hints_shown d hs <-> hs = d_hints d'.
Proof.
  cbv zeta. unfold refine. cbn [fold_left fst snd]. unfold hints_shown. pose proof (outside_ok d) as P1. pose proof (outdated_ok d) as P2. unfold deprecation_refine, out_of_root_refine.
  destruct (deprecation_matches d) eqn:D; rewrite ?hint_not_outside; destruct (out_of_root_matches d) eqn:O; cbn [d_sev d_span d_msg d_trace d_hints with_hint clear_hints app]; (split; [auto|]); (split; [auto|]); (split; [auto|]); (split; [auto|]); intros hs; intuition (try congruence; try discriminate).
Qed.
Lemma first_ok l : match first_id l with
  | Some (i, s) => exists a b, l = a ++ s :: b /\ fst s = Some i /\ forall x, In x a -> fst x = None
  | None => forall x, In x l -> fst x = None end.
Proof.
  induction l as [|[f n] l IH]; cbn; [intros x []|]. destruct f as [i|]; [exists [], l; split; [auto|split; [auto|intros x []]]|]. destruct (first_id l) as [[i s]|].
  - destruct IH as (a & b & -> & H1 & H2). exists ((None, n) :: a), b. split; [auto|]. split; [auto|]. intros x [<-|Hx]; auto.
  - intros x [<-|Hx]; auto.
Qed.
Lemma located_ok w d : forall i s, located w d i s <-> diagnostic_span_id w d = (i, s).
Proof.
  intros i s. unfold located, diagnostic_span_id. set (l := d_span d :: map fst (d_trace d)). pose proof (first_ok l) as F. destruct (first_id l) as [[i0 s0]|].
  - destruct F as (a & b & E & F1 & F2). split.
    + intros [(a' & b' & E' & G1 & G2)|(G & _)].
      * assert (Ha : a = a' /\ s0 = s).
        { rewrite E in E'. clear -E' F1 F2 G1 G2. revert a' E' G2. induction a as [|x a IH]; intros [|y a'] E' G2; cbn in E'.
          - injection E' as -> _. auto.
          - injection E' as -> _. rewrite (G2 y) in F1 by (left; auto). discriminate.
          - injection E' as -> _. rewrite (F2 s) in G1 by (left; auto). discriminate.
          - injection E' as -> E'. destruct (IH (fun z Hz => F2 z (or_intror Hz)) a' E' (fun z Hz => G2 z (or_intror Hz))) as (-> & ->). auto. }
        destruct Ha as (_ & ->). rewrite F1 in G1. injection G1 as ->. auto.
      * rewrite (G s0) in F1 by (rewrite E; apply in_or_app; right; left; auto). discriminate.
    + intros H. injection H as <- <-. left. exists a, b. auto.
  - split.
    + intros [(a & b & E & G1 & _)|(_ & -> & ->)]; [|auto]. rewrite (F s) in G1 by (rewrite E; apply in_or_app; right; left; auto). discriminate.
    + intros H. injection H as <- <-. right. auto.
Qed.
Lemma message_ok d : diagnostic_message d = d_msg d ++ concat (map (fun h => 10%N :: lit "Hint: " ++ h) (d_hints d)).
Proof.
  unfold diagnostic_message. generalize (d_msg d). induction (d_hints d) as [|h l IH]; intros m; cbn [fold_left map concat]; [rewrite app_nil_r; auto|]. rewrite IH, <- app_assoc. f_equal.
Qed.
Lemma point_ok w t r : point w t r <-> to_related_info w t = Some r.
Proof.
  unfold point, to_related_info. split.
  - intros (i & u & b & H1 & H2 & H3 & H4 & ->). rewrite H1, H2, H3, H4. auto.
  - destruct (fst (fst t)) as [i|] eqn:E1; [|discriminate]. destruct (uri w i) as [u|] eqn:E2; [|discriminate]. destruct (readable w i) eqn:E3; [|discriminate]. destruct (find_span w i (fst t)) as [b|] eqn:E4; [|discriminate].
    intros H. injection H as <-. exists i, u, b. auto.
Qed.
Lemma picks_ok {A B} (R : A -> B -> Prop) (f : A -> option B) (H : forall a b, R a b <-> f a = Some b) l m :
  picks R l m <-> m = flat_map (fun a => match f a with Some b => [b] | None => [] end) l.
Proof.
  split.
  - induction 1 as [|a b l m Hr _ IH|a l m Hn _ IH]; cbn; [auto| |].
    + apply H in Hr. rewrite Hr. cbn. f_equal. auto.
    + destruct (f a) as [b|] eqn:E; [apply H in E; exfalso; apply (Hn b E)|auto].
  - intros ->. induction l as [|a l IH]; cbn; [constructor|]. destruct (f a) as [b|] eqn:E; cbn; [apply picks_yes; [apply H; auto|auto]|apply picks_no; [|auto]]. intros b Hb. apply H in Hb. congruence.
Qed.
Lemma convert_ok w d u x : convert_diagnostic w d = Some (u, x) <-> shows w d u x.
Proof.
  unfold convert_diagnostic, shows. destruct (refine_ok d) as (R1 & R2 & R3 & R4 & R5). set (d' := refine d) in *.
  assert (L : forall i s, located w d i s <-> diagnostic_span_id w d' = (i, s)) by (intros i s; rewrite located_ok; unfold diagnostic_span_id; rewrite R2, R4; tauto).
  destruct (diagnostic_span_id w d') as [i s] eqn:E. split.
  - destruct (uri w i) as [v|] eqn:U; [|discriminate]. destruct (readable w i) eqn:Rd; [|discriminate]. intros H. injection H as -> <-. exists i, s, (d_hints d'). cbn [s_sev s_msg s_range s_related].
    split; [apply L; auto|]. split; [auto|]. split; [auto|]. split; [apply R5; auto|]. split; [auto|]. split; [rewrite message_ok, R3; auto|]. unfold diagnostic_range. split; [intros b ->; auto|]. split; [intros ->; auto|].
    unfold related_information. rewrite R4. split; [intros ->; auto|]. intros Ht. destruct (d_trace d) as [|t ts]; [contradiction|]. eexists. split; [reflexivity|]. apply (picks_ok (point w) (to_related_info w) (point_ok w)). auto.
  - intros (i' & s' & hs & H1 & H2 & H3 & H4 & H5 & H6 & H7 & H8 & H9 & H10). apply L in H1. injection H1 as <- <-. rewrite H2, H3. apply R5 in H4. subst hs. f_equal. f_equal. destruct x as [xr xs xm xl]. cbn [s_sev s_msg s_range s_related] in *. f_equal.
    + unfold diagnostic_range. destruct (find_span w i s) as [b|]; [symmetry; apply H7; auto|symmetry; apply H8; auto].
    + congruence.
    + rewrite message_ok, R3. auto.
    + unfold related_information. rewrite R4. destruct (d_trace d) as [|t ts]; [symmetry; apply H9; auto|]. destruct H10 as (rs & -> & P); [discriminate|]. apply (picks_ok (point w) (to_related_info w) (point_ok w)) in P. rewrite P. auto.
Qed.

(** * The map *)

Definition keys_ok (m : dmap) : Prop := NoDup (map fst m) /\ forall u l, In (u, l) m -> l <> [].
Definition of_file (u : nat) (m : dmap) : list shown := flat_map (fun e : nat * list shown => if Nat.eqb (fst e) u then snd e else []) m.
Lemma push_keys u x m k : In k (map fst (push u x m)) <-> k = u \/ In k (map fst m).
Proof.
  induction m as [|[v l] m IH]; cbn; [intuition|]. destruct (Nat.eqb_spec v u); cbn; [subst; intuition|rewrite IH; intuition].
Qed.
Lemma push_ok u x m : keys_ok m -> keys_ok (push u x m).
Proof.
  intros (N & L). split.
  - clear L. induction m as [|[v l] m IH]; cbn; [constructor; [intros []|constructor]|]. inversion N as [|y z Hy Hz]; subst. destruct (Nat.eqb_spec v u); cbn; constructor; auto. rewrite push_keys. intros [->|H]; auto.
  - clear N. induction m as [|[v l] m IH]; cbn; [intros k y [H|[]]; injection H as <- <-; discriminate|]. assert (L' : forall u l, In (u, l) m -> l <> []) by (intros; eapply L; right; eauto).
    destruct (Nat.eqb_spec v u); cbn; intros k y [H|H]; eauto.
    + injection H as <- <-. destruct l; discriminate.
    + injection H as <- <-. apply (L v). left. auto.
Qed.
Lemma push_file u x m k : NoDup (map fst m) -> of_file k (push u x m) = of_file k m ++ if Nat.eqb u k then [x] else [].
Proof.
  unfold of_file. induction m as [|[v l] m IH]; intros N; cbn [push flat_map fst snd map] in *; [rewrite app_nil_r; auto|]. inversion N as [|y z Hy Hz]; subst. destruct (Nat.eqb_spec v u) as [->|Hv]; cbn [flat_map fst snd].
  - destruct (Nat.eqb_spec u k) as [->|]; [|rewrite app_nil_r; auto]. rewrite <- !app_assoc. f_equal.
    assert (Z : flat_map (fun e : nat * list shown => if Nat.eqb (fst e) k then snd e else []) m = []).
    { clear -Hy. induction m as [|[v l] m IH]; cbn in *; [auto|]. destruct (Nat.eqb_spec v k) as [->|]; [exfalso; apply Hy; auto|]. apply IH. intros H. apply Hy. auto. }
    rewrite Z. rewrite app_nil_r. auto.
  - rewrite IH by auto. rewrite app_assoc. auto.
Qed.
Lemma at_file_ok u m l : keys_ok m -> (at_file u m l <-> l = of_file u m).
Proof.
  intros (N & L). unfold at_file, of_file. induction m as [|[v k] m IH]; cbn [flat_map fst snd map In]; [intuition|]. inversion N as [|y z Hy Hz]; subst. assert (L' : forall u l, In (u, l) m -> l <> []) by (intros; eapply L; right; eauto). specialize (IH Hz L'). cbn [fst map] in Hy.
  destruct (Nat.eqb_spec v u) as [->|Hv].
  - assert (Z : flat_map (fun e : nat * list shown => if Nat.eqb (fst e) u then snd e else []) m = []).
    { clear -Hy. induction m as [|[v l] m IH]; cbn in *; [auto|]. destruct (Nat.eqb_spec v u) as [->|]; [exfalso; apply Hy; auto|]. apply IH. intros H. apply Hy. auto. }
    rewrite Z, app_nil_r. split.
    + intros [(-> & H)|(H & [E|E])]; [exfalso; apply H; auto|injection E as ->; auto|]. exfalso. apply Hy. change u with (fst (u, l)). apply in_map. auto.
    + intros ->. right. split; [apply (L u); left; auto|auto].
  - rewrite <- IH. split.
    + intros [(-> & H)|(H & [E|E])]; [left; split; [auto|intros X; apply H; auto]|injection E as -> _; contradiction|auto].
    + intros [(-> & H)|(H & E)]; [left; split; [auto|]; intros [X|X]; auto|auto].
Qed.
Definition expected (w : world) (u : nat) (ds : list diagnostic) : list shown :=
  flat_map (fun d => match convert_diagnostic w d with Some (v, x) => if Nat.eqb v u then [x] else [] | None => [] end) ds.
Lemma handle_fold w ds : forall m, keys_ok m -> keys_ok (fold_left (handle w) ds m) /\ forall u, of_file u (fold_left (handle w) ds m) = of_file u m ++ expected w u ds.
Proof.
  induction ds as [|d ds IH]; intros m K; cbn [fold_left]; [split; [auto|intros u; cbn; rewrite app_nil_r; auto]|].
  unfold handle at 2 4. unfold expected. cbn [flat_map]. fold (expected w). destruct (convert_diagnostic w d) as [[v x]|].
  - destruct (IH (push v x m)) as (I1 & I2); [apply push_ok; auto|]. split; [auto|]. intros u. rewrite I2, push_file by apply K. rewrite <- app_assoc. auto.
  - destruct (IH m K) as (I1 & I2). split; [auto|]. intros u. rewrite I2. auto.
Qed.
Lemma check_fold w : check w [] = fold_left (handle w) (lints w) [].
Proof.
  unfold check, lints. generalize (@nil (nat * list shown)). induction (depended w) as [|i l IH]; intros m; cbn [fold_left flat_map]; [auto|]. rewrite fold_left_app. destruct (is_package w i); [apply IH|]. destruct (readable w i); apply IH.
Qed.
Lemma expected_ok w u ds l : picks (fun d x => shows w d u x) ds l <-> l = expected w u ds.
Proof.
  pose (f := fun d => match convert_diagnostic w d with Some (v, x) => if Nat.eqb v u then Some x else None | None => None end).
  assert (F : forall d x, shows w d u x <-> f d = Some x).
  { intros d x. rewrite <- convert_ok. unfold f. destruct (convert_diagnostic w d) as [[v y]|]; [|split; discriminate]. destruct (Nat.eqb_spec v u) as [->|Hv]; [split; intros H; injection H as ->; auto|split; [intros H; injection H as -> _; contradiction|discriminate]]. }
  rewrite (picks_ok _ f F). unfold expected. assert (E : flat_map (fun a => match f a with Some b => [b] | None => [] end) ds = flat_map (fun d => match convert_diagnostic w d with Some (v, x) => if Nat.eqb v u then [x] else [] | None => [] end) ds).
  { apply flat_map_ext. intros d. unfold f. destruct (convert_diagnostic w d) as [[v x]|]; [destruct (Nat.eqb v u); auto|auto]. }
  rewrite E. tauto.
Qed.
Lemma keys_nil : keys_ok [].
Proof. split; [constructor|intros u l []]. Qed.
