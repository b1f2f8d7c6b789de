From Coq Require Import List ZArith NArith Arith Bool Lia ZifyN ZifyBool.
From Verif Require Import NumModel.
Import ListNotations.
Ltac Zify.zify_post_hook ::= Z.div_mod_to_equations.

Lemma parse_digits_app a l1 l2 :
  parse_digits a (l1 ++ l2) =
  match parse_digits a l1 with Some b => parse_digits b l2 | None => None end.
Proof.
  revert a; induction l1 as [|b l1 IH]; intros a; cbn [parse_digits app]; [reflexivity|].
  destruct (is_digit b); [apply IH|reflexivity].
Qed.

Lemma is_digit_small n : (n < 10)%N -> is_digit (48 + n)%N = true.
Proof. unfold is_digit. lia. Qed.

Lemma show_dec_fuel_ok f : forall n, (n < 2 ^ N.of_nat f)%N ->
  parse_digits 0 (show_dec_fuel f n) = Some n.
Proof.
  induction f as [|f IH]; intros n Hn.
  - cbn [show_dec_fuel parse_digits]. change (2 ^ N.of_nat 0)%N with 1%N in Hn.
    rewrite is_digit_small by lia. f_equal. lia.
  - cbn [show_dec_fuel]. destruct (N.ltb_spec n 10).
    + cbn [parse_digits]. rewrite is_digit_small by lia. f_equal. lia.
    + rewrite parse_digits_app, IH.
      * cbn [parse_digits]. rewrite is_digit_small by lia. f_equal. lia.
      * rewrite Nat2N.inj_succ, N.pow_succ_r' in Hn. lia.
Qed.

Lemma size_nat_bound n : (n < 2 ^ N.of_nat (N.size_nat n))%N.
Proof.
  destruct n as [|p]; [cbn; lia|]. cbn [N.size_nat].
  induction p as [p IH|p IH|]; cbn [Pos.size_nat]; [| |vm_compute; reflexivity];
    rewrite Nat2N.inj_succ, N.pow_succ_r'; lia.
Qed.

Lemma parse_show_dec n : parse_digits 0 (show_dec n) = Some n.
Proof. apply show_dec_fuel_ok, size_nat_bound. Qed.

Lemma show_dec_fuel_digits f : forall n b, (n < 2 ^ N.of_nat f)%N ->
  In b (show_dec_fuel f n) -> is_digit b = true.
Proof.
  induction f as [|f IH]; intros n b Hn Hb; cbn [show_dec_fuel] in Hb.
  - change (2 ^ N.of_nat 0)%N with 1%N in Hn. destruct Hb as [<-|[]]. apply is_digit_small; lia.
  - destruct (N.ltb_spec n 10).
    + destruct Hb as [<-|[]]. apply is_digit_small; lia.
    + apply in_app_or in Hb as [Hb|[<-|[]]].
      * eapply IH; [|exact Hb]. rewrite Nat2N.inj_succ, N.pow_succ_r' in Hn. lia.
      * apply is_digit_small. lia.
Qed.
Lemma show_dec_digits n b : In b (show_dec n) -> is_digit b = true.
Proof. apply show_dec_fuel_digits, size_nat_bound. Qed.

Lemma show_dec_nonempty n : show_dec n <> [].
Proof.
  unfold show_dec. destruct (N.size_nat n); cbn; [discriminate|].
  destruct (_ <? _)%N; [discriminate|]. destruct (show_dec_fuel _ _); discriminate.
Qed.

Lemma show_dec_inj n m : show_dec n = show_dec m -> n = m.
Proof. intros H. pose proof (parse_show_dec n). rewrite H, parse_show_dec in H0. congruence. Qed.

Lemma parse_unsigned_show limit n : (n < limit)%N -> parse_unsigned limit (show_dec n) = Some n.
Proof.
  intros H. unfold parse_unsigned.
  assert (Hd : (match show_dec n with 43%N :: r => r | _ => show_dec n end) = show_dec n).
  { destruct (show_dec n) as [|b r] eqn:E; [reflexivity|].
    assert (is_digit b = true) as Hb by (apply (show_dec_digits n); rewrite E; left; auto).
    destruct b as [|p]; [reflexivity|].
    destruct (N.eqb_spec (N.pos p) 43) as [Heq|Hne]; [rewrite Heq in Hb; discriminate|].
    repeat (destruct p as [p|p|]; try reflexivity; try (exfalso; apply Hne; reflexivity)). }
  rewrite Hd. destruct (show_dec n) eqn:E; [exfalso; eapply show_dec_nonempty; eauto|].
  rewrite <- E, parse_show_dec. destruct (N.ltb_spec n limit); [reflexivity|lia].
Qed.
