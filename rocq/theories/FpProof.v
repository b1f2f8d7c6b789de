(** Proofs about fingerprints. *)
From Coq Require Import List NArith ZArith Bool Lia.
From Verif Require Import DigModel FpModel FpSpec.
Import ListNotations.
Open Scope N_scope.

(** * Base64 *)
Definition byte (b : N) : Prop := b < 256.
Lemma b64_round i : i < 64 -> b64_val (b64_char i) = Some i.
Proof.
  intros H. unfold b64_val, b64_char.
  destruct (N.ltb_spec i 26).
  - replace ((65 <=? 65 + i) && (65 + i <=? 90)) with true by (symmetry; apply andb_true_iff; rewrite !N.leb_le; lia). f_equal. lia.
  - destruct (N.ltb_spec i 52).
    + replace ((65 <=? 71 + i) && (71 + i <=? 90)) with false by (symmetry; apply andb_false_iff; rewrite !N.leb_gt; lia).
      replace ((97 <=? 71 + i) && (71 + i <=? 122)) with true by (symmetry; apply andb_true_iff; rewrite !N.leb_le; lia). f_equal. lia.
    + destruct (N.ltb_spec i 62).
      * replace ((65 <=? i - 4) && (i - 4 <=? 90)) with false by (symmetry; apply andb_false_iff; rewrite !N.leb_gt; lia).
        replace ((97 <=? i - 4) && (i - 4 <=? 122)) with false by (symmetry; apply andb_false_iff; rewrite !N.leb_gt; lia).
        replace ((48 <=? i - 4) && (i - 4 <=? 57)) with true by (symmetry; apply andb_true_iff; rewrite !N.leb_le; lia). f_equal. lia.
      * destruct (N.eqb_spec i 62) as [->|]; [reflexivity|]. replace i with 63 by lia. reflexivity.
Qed.
Lemma b64_val_small c i : b64_val c = Some i -> i < 64.
Proof.
  unfold b64_val. destruct (N.leb_spec 65 c), (N.leb_spec c 90), (N.leb_spec 97 c), (N.leb_spec c 122), (N.leb_spec 48 c), (N.leb_spec c 57); cbn;
  try (intros [= <-]; lia); destruct (c =? 43); try (intros [= <-]; lia); destruct (c =? 47); try discriminate; intros [= <-]; lia.
Qed.
Lemma dm a k : k <> 0 -> a = k * (a / k) + a mod k /\ a mod k < k.
Proof. intros H. split; [now apply N.div_mod|now apply N.mod_lt]. Qed.
Lemma first_byte a y : byte a -> y < 16 -> a / 4 * 4 + (a mod 4 * 16 + y) / 16 = a.
Proof.
  intros A Y. replace ((a mod 4 * 16 + y) / 16) with (a mod 4); [destruct (dm a 4); [discriminate|lia]|].
  symmetry. rewrite N.add_comm, N.div_add by discriminate. rewrite N.div_small by exact Y. lia.
Qed.
Lemma second_byte a b y : byte b -> y < 4 -> (a * 16 + b / 16) mod 16 * 16 + (b mod 16 * 4 + y) / 4 = b.
Proof.
  intros B Y. assert (b / 16 < 16) by (apply N.div_lt_upper_bound; [discriminate|exact B]).
  rewrite (N.add_comm (a * 16)), N.mod_add, N.mod_small by (auto; discriminate).
  rewrite (N.add_comm (b mod 16 * 4)), N.div_add, (N.div_small y 4) by (auto; discriminate).
  destruct (dm b 16); [discriminate|lia].
Qed.
Lemma third_byte b c : byte c -> (b * 4 + c / 64) mod 4 * 64 + c mod 64 = c.
Proof.
  intros C. assert (c / 64 < 4) by (apply N.div_lt_upper_bound; [discriminate|exact C]).
  rewrite (N.add_comm (b * 4)), N.mod_add, N.mod_small by (auto; discriminate). destruct (dm c 64); [discriminate|lia].
Qed.
Lemma decode_encode : forall n bs, (length bs <= n)%nat -> Forall byte bs -> decode (encode bs) = Some bs.
Proof.
  induction n as [|n IH]; intros bs L F; [destruct bs; [reflexivity|cbn in L; lia]|].
  destruct bs as [|a [|b [|c r]]]; [reflexivity| | |].
  - inversion F as [|? ? A _]; subst. cbn [encode decode].
    assert (a / 4 < 64) by (apply N.div_lt_upper_bound; [discriminate|exact A]).
    assert (a mod 4 < 4) by (apply N.mod_lt; discriminate).
    rewrite !b64_round by lia. rewrite N.mod_mul by discriminate. cbn [N.eqb].
    rewrite <- (N.add_0_r (a mod 4 * 16)), first_byte by (auto; lia). reflexivity.
  - inversion F as [|? ? A F2]; subst. inversion F2 as [|? ? B _]; subst. cbn [encode decode].
    assert (a / 4 < 64) by (apply N.div_lt_upper_bound; [discriminate|exact A]).
    assert (a mod 4 < 4) by (apply N.mod_lt; discriminate).
    assert (b / 16 < 16) by (apply N.div_lt_upper_bound; [discriminate|exact B]).
    assert (b mod 16 < 16) by (apply N.mod_lt; discriminate).
    rewrite !b64_round by lia. rewrite N.mod_mul by discriminate. cbn [N.eqb].
    rewrite first_byte by (auto; lia). rewrite <- (N.add_0_r (b mod 16 * 4)), second_byte by (auto; lia). reflexivity.
  - inversion F as [|? ? A F2]; subst. inversion F2 as [|? ? B F3]; subst. inversion F3 as [|? ? C F4]; subst. cbn [encode decode].
    assert (a / 4 < 64) by (apply N.div_lt_upper_bound; [discriminate|exact A]).
    assert (a mod 4 < 4) by (apply N.mod_lt; discriminate).
    assert (b / 16 < 16) by (apply N.div_lt_upper_bound; [discriminate|exact B]).
    assert (b mod 16 < 16) by (apply N.mod_lt; discriminate).
    assert (c / 64 < 4) by (apply N.div_lt_upper_bound; [discriminate|exact C]).
    assert (c mod 64 < 64) by (apply N.mod_lt; discriminate).
    rewrite !b64_round by lia. rewrite IH by (auto; cbn in L; lia).
    rewrite first_byte, second_byte, third_byte by auto. reflexivity.
Qed.

(** * Bytes *)
Lemma le_bytes_ok k : forall n, Forall byte (le_bytes k n).
Proof. induction k as [|k IH]; intros n; cbn; constructor; auto. apply N.mod_lt. discriminate. Qed.
Lemma from_le_bytes k : forall n, n < 256 ^ N.of_nat k -> from_le (le_bytes k n) = n.
Proof.
  induction k as [|k IH]; intros n H; [cbn in *; lia|]. cbn [le_bytes from_le]. rewrite IH.
  - destruct (dm n 256); [discriminate|lia].
  - apply N.div_lt_upper_bound; [discriminate|]. rewrite Nnat.Nat2N.inj_succ, N.pow_succ_r' in H. exact H.
Qed.
Lemma from_le_zeros a k : from_le (a ++ repeat 0 k) = from_le a.
Proof.
  induction a as [|b a IH]; cbn [app from_le]; [|now rewrite IH].
  induction k as [|k IH]; cbn [repeat from_le]; [reflexivity|]. rewrite IH. reflexivity.
Qed.
Lemma drop_zeros_value bs : from_le (drop_zeros bs) = from_le bs.
Proof.
  induction bs as [|b r IH]; [reflexivity|]. cbn [drop_zeros from_le]. destruct (drop_zeros r) as [|x xs] eqn:E.
  - rewrite <- IH. cbn. destruct (N.eqb_spec b 0) as [->|]; reflexivity.
  - cbn [from_le]. cbn [from_le] in IH. now rewrite IH.
Qed.
Lemma drop_zeros_ok bs : Forall byte bs -> Forall byte (drop_zeros bs).
Proof.
  induction 1 as [|b r H F IH]; cbn; auto. destruct (drop_zeros r) as [|x xs]; [destruct (b =? 0); auto|constructor; auto].
Qed.
Lemma drop_zeros_length bs : (length (drop_zeros bs) <= length bs)%nat.
Proof.
  induction bs as [|b r IH]; cbn; auto. destruct (drop_zeros r) as [|x xs]; [destruct (b =? 0); cbn; lia|cbn in *; lia].
Qed.
Lemma firstn_repeat (n m : nat) : firstn n (repeat 0 m) = repeat 0 (Nat.min n m).
Proof. revert m. induction n as [|n IH]; intros [|m]; cbn; auto. now rewrite IH. Qed.
Lemma fit8 cs : (length cs <= 8)%nat -> from_le (firstn 8 (cs ++ repeat 0 8)) = from_le cs.
Proof.
  intros L. rewrite firstn_app, firstn_all2, firstn_repeat by exact L. apply from_le_zeros.
Qed.
Lemma le_bytes_length k : forall n, length (le_bytes k n) = k.
Proof. induction k as [|k IH]; intros n; cbn; auto. Qed.
Lemma from_le_bound bs : Forall byte bs -> from_le bs < 256 ^ N.of_nat (length bs).
Proof.
  induction 1 as [|b r H F IH]; [cbn; lia|]. cbn [from_le length]. rewrite Nnat.Nat2N.inj_succ, N.pow_succ_r'. unfold byte in H. lia.
Qed.

(** * The text form *)
Lemma svg_app p f : as_svg_id p f = p ++ as_svg_id [] f.
Proof. unfold as_svg_id. destruct (hi f =? 0); reflexivity. Qed.
Lemma encode8 n : length (encode (le_bytes 8 n)) = 11%nat.
Proof. reflexivity. Qed.
Lemma svg_round f : fp_ok f -> try_from_str (as_svg_id [] f) = Ok_ f.
Proof.
  intros [L H]. unfold try_from_str, as_svg_id.
  assert (D : decode (encode (le_bytes 8 (lo f))) = Some (le_bytes 8 (lo f))) by (eapply decode_encode; [reflexivity|apply le_bytes_ok]).
  destruct (N.eqb_spec (hi f) 0) as [Z|Z].
  - rewrite app_nil_l, encode8. cbn [Nat.ltb Nat.leb].
    rewrite firstn_all2 by (rewrite encode8; auto). rewrite D, le_bytes_length. cbn [Nat.eqb].
    rewrite skipn_all2 by (rewrite encode8; auto). cbn [decode app].
    rewrite from_le_bytes by exact L. destruct f as [l h']. cbn [hi lo] in *. subst h'. reflexivity.
  - rewrite app_nil_l, app_length, encode8.
    replace (Nat.ltb _ 11) with false by (symmetry; apply PeanoNat.Nat.ltb_ge; lia).
    rewrite firstn_app, encode8, PeanoNat.Nat.sub_diag, firstn_O, app_nil_r, firstn_all2 by (rewrite encode8; auto).
    rewrite D, le_bytes_length. cbn [Nat.eqb].
    rewrite skipn_app, encode8, PeanoNat.Nat.sub_diag, skipn_all2 by (rewrite encode8; auto). cbn [app skipn].
    rewrite (decode_encode _ _ (le_n _)) by (apply drop_zeros_ok, le_bytes_ok).
    rewrite fit8, drop_zeros_value, !from_le_bytes by (first [exact L|exact H|etransitivity; [apply drop_zeros_length|now rewrite le_bytes_length]]).
    destruct f. reflexivity.
Qed.
Lemma svg_inj p f g : fp_ok f -> fp_ok g -> as_svg_id p f = as_svg_id p g -> f = g.
Proof.
  intros F G E. rewrite (svg_app p f), (svg_app p g) in E. apply app_inv_head in E.
  apply svg_round in F. apply svg_round in G. congruence.
Qed.
Lemma decode_ok : forall n cs bs, (length cs <= n)%nat -> decode cs = Some bs -> Forall byte bs.
Proof.
  induction n as [|n IH]; intros cs bs L D; [destruct cs; [injection D as <-; constructor|cbn in L; lia]|].
  destruct cs as [|w [|x [|y [|z r]]]]; cbn [decode] in D; try discriminate; [injection D as <-; constructor| | |].
  - destruct (b64_val w) as [a|] eqn:A; [|discriminate]. destruct (b64_val x) as [b|] eqn:B; [|discriminate].
    apply b64_val_small in A. apply b64_val_small in B. destruct (b mod 16 =? 0); [|discriminate]. injection D as <-.
    assert (b / 16 < 4) by (apply N.div_lt_upper_bound; [discriminate|exact B]).
    repeat constructor; unfold byte; lia.
  - destruct (b64_val w) as [a|] eqn:A; [|discriminate]. destruct (b64_val x) as [b|] eqn:B; [|discriminate].
    destruct (b64_val y) as [c|] eqn:C; [|discriminate].
    apply b64_val_small in A. apply b64_val_small in B. apply b64_val_small in C. destruct (c mod 4 =? 0); [|discriminate]. injection D as <-.
    assert (b / 16 < 4) by (apply N.div_lt_upper_bound; [discriminate|exact B]).
    assert (b mod 16 < 16) by (apply N.mod_lt; discriminate).
    assert (c / 4 < 16) by (apply N.div_lt_upper_bound; [discriminate|exact C]).
    repeat constructor; unfold byte; lia.
  - destruct (b64_val w) as [a|] eqn:A; [|discriminate]. destruct (b64_val x) as [b|] eqn:B; [|discriminate].
    destruct (b64_val y) as [c|] eqn:C; [|discriminate]. destruct (b64_val z) as [d|] eqn:Z; [|discriminate].
    destruct (decode r) as [t|] eqn:R; [|discriminate]. injection D as <-.
    apply b64_val_small in A. apply b64_val_small in B. apply b64_val_small in C. apply b64_val_small in Z.
    assert (b / 16 < 4) by (apply N.div_lt_upper_bound; [discriminate|exact B]).
    assert (b mod 16 < 16) by (apply N.mod_lt; discriminate).
    assert (c / 4 < 16) by (apply N.div_lt_upper_bound; [discriminate|exact C]).
    assert (c mod 4 < 4) by (apply N.mod_lt; discriminate).
    repeat (constructor; [unfold byte; lia|]). apply (IH r); [cbn in L; lia|exact R].
Qed.
Lemma parse_fp_ok s f : try_from_str s = Ok_ f -> fp_ok f.
Proof.
  unfold try_from_str. destruct (Nat.ltb (length s) 11); [discriminate|].
  destruct (decode (firstn 11 s)) as [bs|] eqn:A; [|discriminate]. destruct (Nat.eqb_spec (length bs) 8) as [L|]; [|discriminate].
  destruct (decode (skipn 11 s)) as [cs|] eqn:B; [|discriminate]. intros [= <-].
  apply (decode_ok _ _ _ (le_n _)) in A. apply (decode_ok _ _ _ (le_n _)) in B.
  split; cbn [lo hi].
  - apply from_le_bound in A. rewrite L in A. exact A.
  - assert (F : Forall byte (firstn 8 (cs ++ repeat 0 8))).
    { apply Forall_forall. intros x X. assert (Y : In x (cs ++ repeat 0 8)).
      { rewrite <- (firstn_skipn 8 (cs ++ repeat 0 8)). apply in_or_app. now left. }
      apply in_app_or in Y as [Y|Y]; [rewrite Forall_forall in B; auto|]. apply repeat_spec in Y as ->. reflexivity. }
    apply from_le_bound in F. rewrite firstn_length_le in F by (rewrite app_length, repeat_length; lia). exact F.
Qed.

(** * 128-bit values *)
Lemma land_low a b n : b < 2 ^ n -> N.land (N.shiftl a n) b = 0.
Proof.
  intros H. apply N.bits_inj. intros m. rewrite N.land_spec, N.bits_0.
  destruct (N.lt_ge_cases m n) as [X|X]; [now rewrite N.shiftl_spec_low|].
  rewrite <- (N.mod_small b (2 ^ n)) by exact H. rewrite N.mod_pow2_bits_high by exact X. apply andb_false_r.
Qed.
Lemma to_u128_sum f : fp_ok f -> to_u128 f = hi f * 2 ^ 64 + lo f.
Proof.
  intros [L H]. unfold to_u128. rewrite <- N.lxor_lor by (apply land_low; exact L).
  rewrite <- N.add_nocarry_lxor by (apply land_low; exact L). now rewrite N.shiftl_mul_pow2.
Qed.
Lemma u128_round f : fp_ok f -> from_u128 (to_u128 f) = f.
Proof.
  intros F. rewrite (to_u128_sum f F). destruct F as [L H]. unfold from_u128. destruct f as [l h']. cbn [lo hi] in *.
  change two64 with (2 ^ 64). rewrite N.shiftr_div_pow2. f_equal.
  - rewrite N.add_comm, N.mod_add by discriminate. now apply N.mod_small.
  - rewrite N.add_comm, N.div_add, (N.div_small l) by (auto; discriminate). rewrite N.add_0_l. now apply N.mod_small.
Qed.
Lemma u128_back n : n < 2 ^ 128 -> fp_ok (from_u128 n) /\ to_u128 (from_u128 n) = n.
Proof.
  intros H. assert (F : fp_ok (from_u128 n)) by (split; apply N.mod_lt; discriminate).
  split; [exact F|]. rewrite to_u128_sum by exact F. unfold from_u128. cbn [lo hi]. change two64 with (2 ^ 64).
  rewrite N.shiftr_div_pow2. rewrite (N.mod_small (n / 2 ^ 64)) by (apply N.div_lt_upper_bound; [discriminate|exact H]).
  rewrite (N.mul_comm (n / 2 ^ 64)). symmetry. now apply N.div_mod.
Qed.

(** * The builder *)
Lemma fp_eqb_spec a b : fp_eqb a b = true <-> a = b.
Proof.
  unfold fp_eqb. rewrite andb_true_iff, !N.eqb_eq. destruct a, b. cbn. split; [intros [-> ->]; auto|intros [= -> ->]; auto].
Qed.
Section Builder.
Variable data : Type.
Variable data_eqb : data -> data -> bool.
Hypothesis eqb_ok : forall a b, data_eqb a b = true -> a = b.
Variable h : data -> fp.
Lemma fget_eq (V : Type) k (v : V) m : fget V k ((k, v) :: m) = Some v.
Proof. cbn. now rewrite (proj2 (fp_eqb_spec k k) eq_refl). Qed.
Lemma fget_neq (V : Type) k k' (v : V) m : k' <> k -> fget V k ((k', v) :: m) = fget V k m.
Proof. intros H. cbn. destruct (fp_eqb k' k) eqn:E; auto. apply fp_eqb_spec in E. congruence. Qed.
(** What was returned is in the map. *)
Lemma builder_seq ds : forall m s os, brun data data_eqb h (mkB data m []) (one_by_one ds) = (s, os) ->
  b_calls data s = [] /\
  (forall f d, fget data f m = Some d -> fget data f (b_map data s) = Some d) /\
  (forall i d f, In (BRet data i d f) os -> f = h d /\ fget data f (b_map data s) = Some d).
Proof.
  induction ds as [|[i d] ds IH]; intros m s os R.
  - cbn in R. injection R as <- <-. repeat split; auto; contradiction.
  - cbn [one_by_one flat_map app fst snd brun bstep b_calls bget b_map] in R. fold (one_by_one ds) in R.
    rewrite PeanoNat.Nat.eqb_refl in R. destruct (fget data (h d) m) as [d'|] eqn:G.
    + cbn [bdel filter fst] in R. rewrite PeanoNat.Nat.eqb_refl in R. cbn [negb] in R. cbn [b_calls bget] in R.
      destruct (brun data data_eqb h (mkB data m []) (one_by_one ds)) as [s2 o2] eqn:Q. injection R as <- <-.
      destruct (IH _ _ _ Q) as (A & B & C). split; [exact A|]. split; [exact B|]. intros j e f X.
      cbn [app] in X. destruct X as [X|X]; [|now apply (C j)]. destruct (data_eqb d' d) eqn:E; [|discriminate].
      injection X as <- <- <-. apply eqb_ok in E. subst d'. split; auto.
    + cbn [bdel filter fst] in R. rewrite PeanoNat.Nat.eqb_refl in R. cbn [negb b_calls bget b_map] in R.
      rewrite PeanoNat.Nat.eqb_refl in R. cbn [bdel filter fst] in R. rewrite PeanoNat.Nat.eqb_refl in R. cbn [negb] in R.
      destruct (brun data data_eqb h (mkB data ((h d, d) :: m) []) (one_by_one ds)) as [s2 o2] eqn:Q. injection R as <- <-.
      destruct (IH _ _ _ Q) as (A & B & C). split; [exact A|]. split.
      * intros f e X. apply B. destruct (fp_eqb (h d) f) eqn:E; [apply fp_eqb_spec in E; congruence|].
        cbn. now rewrite E.
      * intros j e f X. cbn [app] in X. destruct X as [X|X]; [|now apply (C j)]. injection X as <- <- <-. split; auto.
        apply B. apply fget_eq.
Qed.
Lemma seq_identifies ds : identifies (snd (brun data data_eqb h (mkB data [] []) (one_by_one ds))).
Proof.
  destruct (brun data data_eqb h (mkB data [] []) (one_by_one ds)) as [s os] eqn:R. cbn.
  destruct (builder_seq _ _ _ _ R) as (_ & _ & C). intros i j d e f A B.
  destruct (C _ _ _ A) as [_ X], (C _ _ _ B) as [_ Y]. congruence.
Qed.
(** Every call ends: it returns the hash or reports a conflict with what the hash stands for. *)
Lemma builder_total (eqb_refl : forall a, data_eqb a a = true) ds : forall m,
  (forall f d, fget data f m = Some d -> h d = f) ->
  forall i d, In (i, d) ds -> let os := snd (brun data data_eqb h (mkB data m []) (one_by_one ds)) in
  In (BRet data i d (h d)) os \/
  (In (BConflict data i d) os /\ exists d', d' <> d /\ h d' = h d /\ (fget data (h d) m = Some d' \/ exists j, In (j, d') ds)).
Proof.
  induction ds as [|[i d] ds IH]; intros m I j e X; [destruct X|].
  cbn [one_by_one flat_map app fst snd brun bstep b_calls bget b_map]. fold (one_by_one ds).
  rewrite PeanoNat.Nat.eqb_refl. destruct (fget data (h d) m) as [d'|] eqn:G.
  - cbn [bdel filter fst]. rewrite PeanoNat.Nat.eqb_refl. cbn [negb b_calls bget].
    specialize (IH m I). destruct (brun data data_eqb h (mkB data m []) (one_by_one ds)) as [s2 o2]. cbn [snd app] in *.
    destruct X as [[= <- <-]|X].
    + destruct (data_eqb d' d) eqn:Q; [left; left; auto|]. right. split; [left; auto|].
      exists d'. split; [intros ->; rewrite eqb_refl in Q; discriminate|]. split; [now apply I|auto].
    + specialize (IH j e X). cbn zeta in IH. destruct IH as [IH|[A (z & B & C & D)]]; [left; right; auto|].
      right. split; [right; auto|]. exists z. repeat split; auto. destruct D as [D|[k D]]; auto. right. exists k. right. exact D.
  - cbn [bdel filter fst]. rewrite PeanoNat.Nat.eqb_refl. cbn [negb b_calls bget b_map].
    rewrite PeanoNat.Nat.eqb_refl. cbn [bdel filter fst]. rewrite PeanoNat.Nat.eqb_refl. cbn [negb].
    assert (I2 : forall f a, fget data f ((h d, d) :: m) = Some a -> h a = f).
    { intros f a. cbn. destruct (fp_eqb (h d) f) eqn:W; [|apply I]. intros [= <-]. now apply fp_eqb_spec. }
    specialize (IH _ I2). destruct (brun data data_eqb h (mkB data ((h d, d) :: m) []) (one_by_one ds)) as [s2 o2]. cbn [snd app] in *.
    destruct X as [[= <- <-]|X]; [left; left; auto|].
    specialize (IH j e X). cbn zeta in IH. destruct IH as [IH|[A (z & B & C & D)]]; [left; right; auto|].
    right. split; [right; auto|]. exists z. repeat split; auto. destruct D as [D|[k D]]; [|right; exists k; right; exact D].
    cbn in D. destruct (fp_eqb (h d) (h e)); [injection D as <-; right; exists i; left; auto|left; exact D].
Qed.
End Builder.

(** * The map *)
Lemma next_pow2_spec n : n <= 2 ^ 31 -> exists k, next_pow2 n = Some (2 ^ k) /\ n <= 2 ^ k.
Proof.
  intros H. unfold next_pow2. exists (N.log2_up n).
  assert (X : N.log2_up n <= 31) by (change 31 with (N.log2_up (2 ^ 31)); now apply N.log2_up_le_mono).
  assert (Y : 2 ^ N.log2_up n <= 2 ^ 31) by (apply N.pow_le_mono_r; [discriminate|exact X]).
  replace (2 ^ N.log2_up n <? 4294967296) with true by (symmetry; apply N.ltb_lt; eapply N.le_lt_trans; [exact Y|reflexivity]).
  split; auto. destruct (N.eq_0_gt_0_cases n) as [->|P]; [cbn; lia|].
  destruct (N.eq_dec n 1) as [->|]; [cbn; lia|]. apply N.log2_up_spec. lia.
Qed.
Lemma min_pow2 k : exists j, N.min (2 ^ k) max_shards = 2 ^ j /\ j <= 9.
Proof.
  destruct (N.le_gt_cases k 9) as [X|X].
  - exists k. split; auto. apply N.min_l. change max_shards with (2 ^ 9). now apply N.pow_le_mono_r.
  - exists 9. split; [|lia]. change max_shards with (2 ^ 9). apply N.min_r. apply N.pow_le_mono_r; [discriminate|lia].
Qed.
Definition fm_wf {V} (m : fmap V) : Prop :=
  exists k, k <= 9 /\ fm_mask m = 2 ^ k - 1 /\ length (fm_shards m) = N.to_nat (2 ^ k).
Lemma fm_new_ok V n : n <= 2 ^ 31 -> exists m, fm_new V n = Some m /\ fm_wf m /\ (forall f, fm_get f m = None) /\
  (n <= 512 -> n <= N.of_nat (length (fm_shards m))).
Proof.
  intros H. destruct (next_pow2_spec n H) as (k & E & G). unfold fm_new. rewrite E. destruct (min_pow2 k) as (j & M & J). rewrite M.
  eexists. split; [reflexivity|]. split; [exists j; cbn; rewrite repeat_length; auto|]. split.
  - intros f. unfold fm_get, fm_shard. cbn. destruct (nth_error _ _) as [s|] eqn:N; auto. apply nth_error_In, repeat_spec in N. now subst.
  - intros L. cbn. rewrite repeat_length, Nnat.N2Nat.id, <- M. unfold max_shards. lia.
Qed.
Lemma fm_index_bound {V} (m : fmap V) f : fm_wf m -> (fm_index m f < length (fm_shards m))%nat.
Proof.
  intros (k & K & M & L). unfold fm_index. rewrite M, L.
  replace (2 ^ k - 1) with (N.ones k) by (rewrite N.ones_equiv; lia). rewrite N.land_ones.
  assert (lower32 f mod 2 ^ k < 2 ^ k) by (apply N.mod_lt; apply N.pow_nonzero; discriminate). lia.
Qed.
Lemma set_nth_length {A} k (x : A) l : length (set_nth k x l) = length l.
Proof. revert k. induction l as [|y l IH]; intros [|k]; cbn; auto. Qed.
Lemma set_nth_eq {A} k (x : A) l : (k < length l)%nat -> nth_error (set_nth k x l) k = Some x.
Proof. revert k. induction l as [|y l IH]; intros [|k] H; cbn in *; try lia; auto. apply IH. lia. Qed.
Lemma set_nth_neq {A} k j (x : A) l : k <> j -> nth_error (set_nth k x l) j = nth_error l j.
Proof. revert k j. induction l as [|y l IH]; intros [|k] [|j] H; cbn; auto; congruence. Qed.
Lemma fm_shard_some {V} (m : fmap V) f : fm_wf m -> exists s, fm_shard m f = Some s.
Proof.
  intros W. unfold fm_shard. destruct (nth_error (fm_shards m) (fm_index m f)) as [s|] eqn:E; eauto.
  apply nth_error_None in E. pose proof (fm_index_bound m f W). lia.
Qed.
Lemma fm_insert_wf {V} (m : fmap V) f v : fm_wf m -> fm_wf (fm_insert f v m) /\ fm_mask (fm_insert f v m) = fm_mask m.
Proof.
  intros W. unfold fm_insert. destruct (fm_shard m f); [|split; auto]. split; [|reflexivity].
  destruct W as (k & K & M & L). exists k. cbn. rewrite set_nth_length. auto.
Qed.
Lemma fm_get_insert {V} (m : fmap V) f g v : fm_wf m -> fm_get g (fm_insert f v m) = if fp_eqb f g then Some v else fm_get g m.
Proof.
  intros W. destruct (fm_shard_some m f W) as (s & E). unfold fm_get, fm_insert. rewrite E.
  unfold fm_shard in *. change (fm_index (mkFm (fm_mask m) (set_nth (fm_index m f) ((f, v) :: s) (fm_shards m))) g) with (fm_index m g). cbn [fm_shards].
  destruct (PeanoNat.Nat.eq_dec (fm_index m f) (fm_index m g)) as [Q|Q].
  - rewrite <- Q, set_nth_eq by now apply fm_index_bound. rewrite E. reflexivity.
  - rewrite set_nth_neq by auto. destruct (fp_eqb f g) eqn:X; auto. apply fp_eqb_spec in X. congruence.
Qed.
Lemma default_ok t : 1 <= t <= 2 ^ 30 -> exists k, default_shards t = Some (2 ^ k) /\ k <= 9.
Proof.
  intros [A B]. unfold default_shards.
  assert (X : N.log2_up t <= 30) by (change 30 with (N.log2_up (2 ^ 30)); now apply N.log2_up_le_mono).
  assert (Y : 2 ^ N.log2_up t <= 2 ^ 30) by (apply N.pow_le_mono_r; [discriminate|exact X]).
  rewrite N.mod_small by (eapply N.le_lt_trans; [apply N.mul_le_mono_r; exact Y|reflexivity]).
  rewrite (N.mul_comm _ 2), <- N.pow_succ_r'. destruct (min_pow2 (N.succ (N.log2_up t))) as (j & M & J). rewrite M.
  exists j. split; auto. destruct (N.eqb_spec (2 ^ j) 0) as [Z|]; auto. exfalso. revert Z. apply N.pow_nonzero. discriminate.
Qed.
