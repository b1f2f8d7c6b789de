(** Proofs about numbers as text. *)
From Coq Require Import List NArith Bool Lia.
From Verif Require Import DigModel.
Import ListNotations.
Open Scope N_scope.

Definition value (b a : N) (ds : list N) : N := fold_left (fun a d => a * b + d) ds a.
Lemma digits_value b : 2 <= b -> forall fuel n acc, n < b ^ N.of_nat fuel -> value b 0 (digits b fuel n acc) = value b n acc.
Proof.
  intros B. induction fuel as [|f IH]; intros n acc H; cbn [digits].
  - cbn in H. replace n with 0 by lia. reflexivity.
  - pose proof (N.div_mod n b ltac:(lia)) as DM. destruct (N.eqb_spec (n / b) 0) as [E|E].
    + unfold value. cbn. f_equal. rewrite DM at 2. rewrite E. lia.
    + rewrite IH.
      * unfold value. cbn. f_equal. rewrite DM at 3. lia.
      * apply N.div_lt_upper_bound; [lia|]. rewrite Nnat.Nat2N.inj_succ, N.pow_succ_r' in H. exact H.
Qed.
Lemma size_pow b n : 2 <= b -> n < b ^ N.of_nat (S (N.size_nat n)).
Proof.
  intros B. destruct n as [|p]; [apply N.neq_0_lt_0, N.pow_nonzero; lia|].
  assert (H : N.pos p < 2 ^ N.of_nat (N.size_nat (N.pos p))).
  { cbn. induction p as [p IH|p IH|]; cbn [Pos.size_nat].
    - rewrite Nnat.Nat2N.inj_succ, N.pow_succ_r'. lia.
    - rewrite Nnat.Nat2N.inj_succ, N.pow_succ_r'. lia.
    - cbn. lia. }
  eapply N.lt_le_trans; [exact H|]. rewrite Nnat.Nat2N.inj_succ, N.pow_succ_r'.
  assert (X : 2 ^ N.of_nat (N.size_nat (N.pos p)) <= b ^ N.of_nat (N.size_nat (N.pos p))) by (apply N.pow_le_mono_l; lia).
  nia.
Qed.
Lemma digits_small b : 2 <= b -> forall fuel n acc, Forall (fun d => d < b) acc -> Forall (fun d => d < b) (digits b fuel n acc).
Proof.
  intros B. induction fuel as [|f IH]; intros n acc H; cbn [digits]; auto.
  assert (X : Forall (fun d => d < b) (n mod b :: acc)) by (constructor; auto; apply N.mod_lt; lia).
  destruct (n / b =? 0); auto.
Qed.
Lemma digits_app b : forall fuel n acc, exists x xs, (fuel <> 0)%nat -> digits b fuel n acc = x :: xs.
Proof.
  induction fuel as [|f IH]; intros n acc; [exists 0, []; congruence|]. cbn [digits]. destruct (n / b =? 0); [eauto|].
  destruct f as [|f]; [exists (n mod b), acc; reflexivity|]. destruct (IH (n / b) (n mod b :: acc)) as (x & xs & E). exists x, xs. intros _. apply E. congruence.
Qed.
Lemma cdigit_dchar b d : b <= 36 -> d < b -> cdigit b (dchar d) = Some d.
Proof.
  intros B D. unfold cdigit, dchar. destruct (N.ltb_spec d 10).
  - replace ((48 <=? 48 + d) && (48 + d <=? 57)) with true by (symmetry; apply andb_true_iff; split; apply N.leb_le; lia).
    replace (48 + d - 48) with d by lia. destruct (N.ltb_spec d b); [reflexivity|lia].
  - replace ((48 <=? 87 + d) && (87 + d <=? 57)) with false by (symmetry; apply andb_false_iff; right; apply N.leb_gt; lia).
    replace ((97 <=? 87 + d) && (87 + d <=? 122)) with true by (symmetry; apply andb_true_iff; split; apply N.leb_le; lia).
    replace (87 + d - 87) with d by lia. destruct (N.ltb_spec d b); [reflexivity|lia].
Qed.
Lemma value_ge b ds : 2 <= b -> forall a, a <= value b a ds.
Proof.
  intros B. induction ds as [|d ds IH]; intros a; cbn; [lia|]. specialize (IH (a * b + d)). unfold value in *. nia.
Qed.
Lemma parse_digits_value b max : 2 <= b -> b <= 36 -> forall ds a, Forall (fun d => d < b) ds -> value b a ds <= max ->
  parse_digits b max a (map dchar ds) = Some (value b a ds).
Proof.
  intros B B2. induction ds as [|d ds IH]; intros a F H; [reflexivity|]. inversion F; subst. cbn [map parse_digits].
  rewrite cdigit_dchar by auto. cbn zeta. pose proof (value_ge b ds B (a * b + d)) as G. unfold value in *. cbn in H.
  destruct (N.leb_spec (a * b + d) max); [|lia]. apply IH; auto.
Qed.
Lemma dchar_not d c : d < 36 -> (c < 48 \/ 122 < c) -> dchar d <> c.
Proof. unfold dchar. intros H1 H2. destruct (N.ltb_spec d 10); lia. Qed.
Lemma print_chars b n : 2 <= b -> b <= 36 -> Forall (fun c => exists d, d < b /\ c = dchar d) (print_num b n).
Proof.
  intros B B2. unfold print_num. pose proof (digits_small b B (S (N.size_nat n)) n [] (Forall_nil _)) as H.
  induction H; cbn; constructor; eauto.
Qed.
Lemma print_nonempty b n : print_num b n <> [].
Proof.
  unfold print_num. destruct (digits_app b (S (N.size_nat n)) n []) as (x & xs & E). rewrite E by congruence. discriminate.
Qed.
Lemma parse_print b max n : 2 <= b -> b <= 36 -> n <= max -> parse_num b max (print_num b n) = Some n.
Proof.
  intros B B2 M. unfold parse_num. pose proof (print_chars b n B B2) as C. pose proof (print_nonempty b n) as NE.
  destruct (print_num b n) as [|c r] eqn:E; [congruence|]. inversion C; subst. destruct H1 as (d & D & ->).
  destruct (N.eqb_spec (dchar d) 43) as [X|X]; [exfalso; apply (dchar_not d 43); auto; lia|]. rewrite <- E.
  pose proof (digits_value b B (S (N.size_nat n)) n [] (size_pow b n B)) as V. change (value b n []) with n in V.
  unfold print_num. rewrite parse_digits_value; auto.
  - now rewrite V.
  - apply digits_small; auto.
  - rewrite V. exact M.
Qed.
Lemma print_inj b n m : 2 <= b -> b <= 36 -> print_num b n = print_num b m -> n = m.
Proof.
  intros B B2 H. pose proof (parse_print b (n + m) n B B2 ltac:(lia)) as P. rewrite H, parse_print in P by (auto; lia). congruence.
Qed.
Lemma parse_digits_bound b max : forall cs a n, a <= max -> parse_digits b max a cs = Some n -> n <= max.
Proof.
  induction cs as [|c r IH]; intros a n A; cbn; [intros [= <-]; auto|]. destruct (cdigit b c); [|discriminate].
  destruct (N.leb_spec (a * b + n0) max); [|discriminate]. apply IH. auto.
Qed.
Lemma parse_bound b max cs n : parse_num b max cs = Some n -> n <= max.
Proof.
  unfold parse_num. destruct cs as [|c r]; [discriminate|]. destruct (c =? 43).
  - destruct r; [discriminate|]. apply parse_digits_bound. lia.
  - apply parse_digits_bound. lia.
Qed.
