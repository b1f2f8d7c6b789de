From Coq Require Import String List ZArith NArith Arith Bool Lia ZifyN ZifyBool.
From Verif Require Import NumModel NumProof MsgModel MsgSpec.
Import ListNotations.
Open Scope list_scope.
Notation length := List.length.
Notation concat := List.concat.

Lemma utf8_valid_app_n n : forall a b, length a <= n -> utf8_valid a = true ->
  utf8_valid (a ++ b) = utf8_valid b.
Proof.
  induction n as [|n IH]; intros a b Hn Ha.
  - destruct a; [reflexivity|cbn in Hn; lia].
  - destruct a as [|x a]; [reflexivity|]. cbn in Hn. cbn [utf8_valid app] in Ha |- *.
    destruct (x <? 128)%N; [apply IH; auto; lia|].
    destruct a as [|y a]; [discriminate|]. cbn [app] in Ha |- *. cbn in Hn.
    destruct (inr 194 223 x).
    { apply andb_true_iff in Ha as [-> Ha]. apply IH; auto; lia. }
    destruct a as [|z a]; [discriminate|]. cbn [app] in Ha |- *. cbn in Hn.
    destruct (x =? 224)%N.
    { apply andb_true_iff in Ha as [-> Ha]. apply IH; auto; lia. }
    destruct (x =? 237)%N.
    { apply andb_true_iff in Ha as [-> Ha]. apply IH; auto; lia. }
    destruct (inr 225 239 x).
    { apply andb_true_iff in Ha as [-> Ha]. apply IH; auto; lia. }
    destruct a as [|w a]; [discriminate|]. cbn [app] in Ha |- *. cbn in Hn.
    destruct (x =? 240)%N.
    { apply andb_true_iff in Ha as [-> Ha]. apply IH; auto; lia. }
    destruct (inr 241 243 x).
    { apply andb_true_iff in Ha as [-> Ha]. apply IH; auto; lia. }
    destruct (x =? 244)%N; [|discriminate].
    apply andb_true_iff in Ha as [-> Ha]. apply IH; auto; lia.
Qed.
Lemma utf8_valid_app a b : utf8_valid a = true -> utf8_valid (a ++ b) = utf8_valid b.
Proof. intros. eapply utf8_valid_app_n; eauto. Qed.

Lemma utf8_valid_ascii a : (forall x, In x a -> (x < 128)%N) -> utf8_valid a = true.
Proof.
  induction a as [|x a IH]; intros H; [reflexivity|]. cbn [utf8_valid].
  specialize (H x (or_introl eq_refl)) as Hx. destruct (N.ltb_spec x 128); [|lia].
  apply IH. intros; apply H; right; auto.
Qed.

Lemma utf8_valid_encode c : scalar c -> utf8_valid (encode c) = true.
Proof.
  intros H. unfold scalar in H. unfold encode.
  destruct (N.ltb_spec c 128).
  { cbn [utf8_valid]. destruct (N.ltb_spec c 128); [reflexivity|lia]. }
  assert (Hm1 : (c mod 64 < 64)%N) by (apply N.mod_lt; discriminate).
  assert (Hm2 : (c / 64 mod 64 < 64)%N) by (apply N.mod_lt; discriminate).
  assert (Hm3 : (c / 4096 mod 64 < 64)%N) by (apply N.mod_lt; discriminate).
  assert (Hd : (c = 64 * (c / 64) + c mod 64)%N) by (apply N.div_mod; discriminate).
  assert (Hd2 : (c / 64 = 64 * (c / 64 / 64) + c / 64 mod 64)%N) by (apply N.div_mod; discriminate).
  rewrite N.div_div in Hd2 by discriminate. change (64 * 64)%N with 4096%N in Hd2.
  assert (Hd3 : (c / 4096 = 64 * (c / 4096 / 64) + c / 4096 mod 64)%N) by (apply N.div_mod; discriminate).
  rewrite N.div_div in Hd3 by discriminate. change (4096 * 64)%N with 262144%N in Hd3.
  remember (c mod 64)%N as m1. remember (c / 64 mod 64)%N as m2. remember (c / 4096 mod 64)%N as m3.
  remember (c / 64)%N as q1. remember (c / 4096)%N as q2. remember (c / 262144)%N as q3.
  clear Heqm1 Heqm2 Heqm3 Heqq1 Heqq2 Heqq3.
  destruct (N.ltb_spec c 2048); [|destruct (N.ltb_spec c 65536)];
    cbn [utf8_valid]; unfold cont, inr;
    repeat (match goal with
    | |- context[(?x <? ?y)%N] => destruct (N.ltb_spec x y)
    | |- context[(?x <=? ?y)%N] => destruct (N.leb_spec x y)
    | |- context[(?x =? ?y)%N] => destruct (N.eqb_spec x y)
    end; cbn [andb]; cbv iota; try lia); try reflexivity; try lia.
Qed.

Lemma utf8_valid_text t : Forall scalar t -> utf8_valid (concat (map encode t)) = true.
Proof.
  induction 1; [reflexivity|]. cbn [map concat]. rewrite utf8_valid_app; auto using utf8_valid_encode.
Qed.

Lemma utf8_valid_header h : wf_header h -> utf8_valid (fst h ++ [58; 32]%N ++ snd h) = true.
Proof.
  intros (_ & _ & _ & (t1 & Ht1 & ->) & (t2 & Ht2 & ->)).
  rewrite utf8_valid_app by (apply utf8_valid_text; auto).
  rewrite utf8_valid_app by reflexivity. apply utf8_valid_text; auto.
Qed.

Lemma ascii_text (l : bytes) : (forall x, In x l -> (x < 128)%N) ->
  exists t, Forall scalar t /\ l = concat (map encode t).
Proof.
  intros H. exists l. split.
  - apply Forall_forall. intros x Hx. apply H in Hx. left. lia.
  - induction l as [|x l IH]; [reflexivity|]. cbn [map concat].
    rewrite <- IH by (intros; apply H; right; auto).
    unfold encode. specialize (H x (or_introl eq_refl)). destruct (N.ltb_spec x 128); [reflexivity|lia].
Qed.

Lemma wf_body_valid b : wf_body b -> utf8_valid b = true /\ (N.of_nat (length b) < U64)%N.
Proof. intros [(t & Ht & ->) H]. split; [apply utf8_valid_text; auto|exact H]. Qed.

Lemma take_line_lf h rest : ~ In 10%N h -> take_line (h ++ 10%N :: rest) = (h ++ [10%N], rest).
Proof.
  induction h as [|x h IH]; intros H; [reflexivity|]. cbn [take_line app].
  destruct (N.eqb_spec x 10); [exfalso; apply H; left; auto|].
  rewrite IH; [reflexivity|]. intros Hi; apply H; right; auto.
Qed.
Lemma take_line_nolf h : ~ In 10%N h -> take_line h = (h, []).
Proof.
  induction h as [|x h IH]; intros H; [reflexivity|]. cbn [take_line].
  destruct (N.eqb_spec x 10); [exfalso; apply H; left; auto|].
  rewrite IH; [reflexivity|]. intros Hi; apply H; right; auto.
Qed.
Lemma take_line_crlf h rest : ~ In 10%N h ->
  take_line (h ++ [13; 10]%N ++ rest) = (h ++ [13; 10]%N, rest).
Proof.
  intros H. change ([13; 10]%N ++ rest) with ([13%N] ++ 10%N :: rest). rewrite app_assoc.
  rewrite take_line_lf.
  - rewrite <- app_assoc. reflexivity.
  - intros Hi. apply in_app_or in Hi as [Hi|[Hi|[]]]; [auto|discriminate].
Qed.

Lemma strip_crlf_app h : strip_crlf (h ++ [13; 10]%N) = Some h.
Proof. unfold strip_crlf. rewrite rev_app_distr. cbn. rewrite rev_involutive. reflexivity. Qed.

Lemma strip_crlf_nolf h : ~ In 10%N h -> strip_crlf h = None.
Proof.
  intros H. unfold strip_crlf.
  assert (E : forall b r, rev h = b :: r -> b <> 10%N).
  { intros b r E ->. apply H. apply in_rev. rewrite E. left; auto. }
  destruct (rev h) as [|b [|a r]]; [reflexivity..|].
  destruct (N.eqb_spec b 10); [|reflexivity]. exfalso. eapply E; eauto.
Qed.

Lemma split_sep_app n v : sep_free n -> split_sep (n ++ [58; 32]%N ++ v) = Some (n, v).
Proof.
  induction n as [|a n IH]; intros H; [reflexivity|].
  assert (Hn : sep_free n).
  { intros x y E. apply (H (a :: x) y). cbn. rewrite E. reflexivity. }
  specialize (IH Hn). cbn [app] in *.
  destruct n as [|b n].
  - cbn [app] in *. cbn [split_sep]. change (58 =? 32)%N with false.
    rewrite andb_false_r. cbn in IH. reflexivity.
  - cbn [app] in *. cbn [split_sep] in *.
    destruct ((a =? 58) && (b =? 32))%N eqn:E.
    + exfalso. apply andb_true_iff in E as [E1 E2]. apply N.eqb_eq in E1, E2. subst.
      apply (H [] n). reflexivity.
    + cbn in IH |- *. rewrite IH. reflexivity.
Qed.

Lemma lower_same a b : same_letter a b -> (lower a =? lower b)%N = true.
Proof.
  unfold lower, inr. intros [->|[[H ->]|[H ->]]]; apply N.eqb_eq; [reflexivity| |];
    repeat match goal with |- context[(?x <=? ?y)%N] => destruct (N.leb_spec x y) end; cbn; lia.
Qed.
Lemma lower_same_inv a b : (lower a =? lower b)%N = true -> same_letter a b.
Proof.
  unfold lower, inr, same_letter. intros H. apply N.eqb_eq in H.
  repeat match type of H with context[(?x <=? ?y)%N] => destruct (N.leb_spec x y) end; cbn in H; lia.
Qed.
Lemma eq_nocase_iff x y : eq_nocase x y = true <-> Forall2 same_letter x y.
Proof.
  split.
  - revert y; induction x as [|a x IH]; destruct y as [|b y]; cbn; intros H; try discriminate; constructor.
    + apply andb_true_iff in H as [H _]. apply lower_same_inv; auto.
    + apply andb_true_iff in H as [_ H]. auto.
  - induction 1 as [|a b x y H1 H2 IH]; cbn; [reflexivity|]. rewrite (lower_same _ _ H1), IH. reflexivity.
Qed.

(** One header line. *)
Lemma read_headers_line f size h rest : wf_header h ->
  read_headers (S f) size (header_line h ++ rest) =
  if eq_nocase (fst h) content_length then
    match parse_unsigned U64 (snd h) with
    | Some n => read_headers f (Some n) rest
    | None => HErr
    end
  else read_headers f size rest.
Proof.
  intros Hw. pose proof (utf8_valid_header h Hw) as H4. destruct Hw as (H1 & H2 & H3 & _).
  destruct h as [n v]. cbn [fst snd] in *.
  unfold header_line. cbn [fst snd].
  replace ((n ++ [58; 32]%N ++ v ++ [13; 10]%N) ++ rest)
    with ((n ++ [58; 32]%N ++ v) ++ [13; 10]%N ++ rest)
    by (rewrite <- !app_assoc; reflexivity).
  cbn [read_headers]. rewrite take_line_crlf.
  2:{ intros Hi. apply in_app_or in Hi as [Hi|Hi]; [auto|]. cbn in Hi.
      destruct Hi as [Hi|[Hi|Hi]]; [discriminate|discriminate|auto]. }
  destruct ((n ++ [58; 32]%N ++ v) ++ [13; 10]%N) as [|z zs] eqn:E.
  { exfalso. apply app_eq_nil in E as [_ E]. discriminate. }
  rewrite <- E. rewrite utf8_valid_app by exact H4. cbn [utf8_valid].
  change (13 <? 128)%N with true. change (10 <? 128)%N with true. cbn [utf8_valid]. cbv iota.
  rewrite strip_crlf_app.
  destruct (n ++ [58; 32]%N ++ v) as [|w ws] eqn:E2.
  { exfalso. destruct n; discriminate. }
  rewrite <- E2, split_sep_app by exact H1. reflexivity.
Qed.

Lemma read_headers_end f size rest :
  read_headers (S f) size ([13; 10]%N ++ rest) = HDone size rest.
Proof. cbn. reflexivity. Qed.

Lemma header_line_len h : 1 <= length (header_line h).
Proof. unfold header_line. rewrite app_length. cbn. lia. Qed.
Lemma header_lines_len hs : length hs <= length (header_lines hs).
Proof.
  unfold header_lines. induction hs as [|h hs IH]; cbn [map concat length]; [lia|].
  rewrite app_length. pose proof (header_line_len h). lia.
Qed.

(** Headers that are not Content-Length are skipped. *)
Lemma read_headers_skip hs : Forall wf_header hs ->
  (forall h, In h hs -> eq_nocase (fst h) content_length = false) ->
  forall f size rest,
  read_headers (length hs + f) size (header_lines hs ++ rest) = read_headers f size rest.
Proof.
  induction hs as [|h hs IH]; intros Hw Hc f size rest; [reflexivity|].
  inversion Hw as [|? ? Hh Hhs]; subst.
  change (header_lines (h :: hs)) with (header_line h ++ header_lines hs).
  rewrite <- app_assoc. cbn [length Nat.add]. rewrite read_headers_line by exact Hh.
  rewrite (Hc h) by (left; auto). apply IH; [auto|]. intros; apply Hc; right; auto.
Qed.

Lemma read_msg_frame hs1 h hs2 body rest :
  Forall wf_header hs1 -> wf_header h -> Forall wf_header hs2 ->
  (forall x, In x (hs1 ++ hs2) -> eq_nocase (fst x) content_length = false) ->
  eq_nocase (fst h) content_length = true ->
  parse_unsigned U64 (snd h) = Some (N.of_nat (length body)) ->
  utf8_valid body = true ->
  read_msg (header_lines (hs1 ++ [h] ++ hs2) ++ [13; 10]%N ++ body ++ rest) = MMsg body rest.
Proof.
  intros W1 W W2 Hn Hy Hp Hu. unfold read_msg.
  assert (Hr : read_headers (S (length (header_lines (hs1 ++ [h] ++ hs2) ++ [13; 10]%N ++ body ++ rest)))
    None (header_lines (hs1 ++ [h] ++ hs2) ++ [13; 10]%N ++ body ++ rest)
    = HDone (Some (N.of_nat (length body))) (body ++ rest)).
  { pose proof (header_lines_len (hs1 ++ [h] ++ hs2)) as Hl.
    rewrite !app_length in *. cbn [length] in *.
    remember (length (header_lines _)) as L. remember (length body + length rest) as M.
    replace (header_lines (hs1 ++ [h] ++ hs2) ++ [13; 10]%N ++ body ++ rest)
      with (header_lines hs1 ++ header_line h ++ header_lines hs2 ++ [13; 10]%N ++ body ++ rest).
    2:{ unfold header_lines. rewrite !map_app, !concat_app. cbn [map concat]. rewrite app_nil_r, <- !app_assoc. reflexivity. }
    replace (S (L + (2 + M))) with (length hs1 + S (length hs2 + S (S (L + M + 1 - length hs1 - 1 - length hs2)))) by lia.
    rewrite read_headers_skip; [|auto|intros; apply Hn, in_or_app; auto].
    rewrite read_headers_line by exact W. rewrite Hy, Hp.
    rewrite read_headers_skip; [|auto|intros; apply Hn, in_or_app; auto].
    apply read_headers_end. }
  rewrite Hr. rewrite app_length.
  destruct (N.leb_spec (N.of_nat (length body)) (N.of_nat (length body + length rest))); [|lia].
  rewrite Nat2N.id, firstn_app, firstn_all, Nat.sub_diag, skipn_app, skipn_all, Nat.sub_diag.
  cbn [firstn skipn app]. rewrite app_nil_r, Hu. reflexivity.
Qed.

Lemma canonical_wf (body : bytes) : wf_header (content_length, show_dec (N.of_nat (length body))).
Proof.
  assert (Hd : forall x, In x (show_dec (N.of_nat (length body))) -> (48 <= x <= 57)%N).
  { intros x Hx. apply show_dec_digits in Hx. unfold is_digit in Hx. lia. }
  repeat split; cbn [fst snd].
  - intros a b E.
    assert (In 58%N content_length) as Hi.
    { rewrite E. apply in_or_app; right; left; auto. }
    cbn in Hi. repeat destruct Hi as [Hi|Hi]; try discriminate; try contradiction.
  - cbn. intros Hi. repeat destruct Hi as [Hi|Hi]; try discriminate; try contradiction.
  - intros Hi. apply Hd in Hi. lia.
  - apply ascii_text. intros x Hx. cbn in Hx. repeat destruct Hx as [<-|Hx]; try lia; try contradiction.
  - apply ascii_text. intros x Hx. apply Hd in Hx. lia.
Qed.

Lemma write_msg_shape body rest :
  write_msg body ++ rest =
  header_lines ([] ++ [(content_length, show_dec (N.of_nat (length body)))] ++ [])
    ++ [13; 10]%N ++ body ++ rest.
Proof.
  unfold write_msg, header_lines. cbn [app map concat]. unfold header_line. cbn [fst snd].
  rewrite app_nil_r, <- !app_assoc. reflexivity.
Qed.

Lemma read_write body rest : wf_body body -> read_msg (write_msg body ++ rest) = MMsg body rest.
Proof.
  intros Hb. destruct (wf_body_valid _ Hb) as [Hu Hl]. rewrite write_msg_shape. apply read_msg_frame; auto.
  - apply canonical_wf.
  - intros x [].
  - cbn [snd]. apply parse_unsigned_show; auto.
Qed.

Lemma write_msg_len body : 1 <= length (write_msg body).
Proof. unfold write_msg. rewrite app_length. cbn. lia. Qed.

Lemma read_all_fuel_write ms : Forall wf_body ms -> forall f tail,
  read_all_fuel (length ms + f) (write_all ms ++ tail) =
  let (ms', e) := read_all_fuel f tail in (ms ++ ms', e).
Proof.
  induction ms as [|m ms IH]; intros Hw f tail.
  - cbn. destruct (read_all_fuel f tail); reflexivity.
  - inversion Hw; subst. cbn [length Nat.add read_all_fuel].
    change (write_all (m :: ms)) with (write_msg m ++ write_all ms). rewrite <- app_assoc.
    rewrite read_write by auto. rewrite IH by auto.
    destruct (read_all_fuel f tail); reflexivity.
Qed.

Lemma write_all_len ms : length ms <= length (write_all ms).
Proof.
  unfold write_all. induction ms as [|m ms IH]; cbn [map concat length]; [lia|].
  rewrite app_length. pose proof (write_msg_len m). lia.
Qed.

Lemma read_all_write_tail ms tail : Forall wf_body ms ->
  read_all (write_all ms ++ tail) =
  let (ms', e) := read_all_fuel (S (length (write_all ms) + length tail - length ms)) tail in (ms ++ ms', e).
Proof.
  intros Hw. unfold read_all. rewrite app_length. pose proof (write_all_len ms).
  replace (S (length (write_all ms) + length tail))
    with (length ms + S (length (write_all ms) + length tail - length ms)) by lia.
  apply read_all_fuel_write; auto.
Qed.

Lemma read_all_write ms : Forall wf_body ms -> read_all (write_all ms) = (ms, EndEof).
Proof.
  intros Hw. rewrite <- (app_nil_r (write_all ms)). rewrite read_all_write_tail by auto.
  cbn. rewrite app_nil_r. reflexivity.
Qed.

(** ** Truncation *)

Lemma firstn_In {A} (x : A) n l : In x (firstn n l) -> In x l.
Proof. revert n; induction l; destruct n; cbn; intros H; try contradiction. destruct H; auto. right; eauto. Qed.

Lemma read_headers_nolf f size inp : ~ In 10%N inp -> inp <> [] -> read_headers (S f) size inp = HErr.
Proof.
  intros H Hne. cbn [read_headers]. rewrite take_line_nolf by exact H.
  destruct inp as [|x inp]; [congruence|]. destruct (utf8_valid (x :: inp)); [|reflexivity].
  rewrite strip_crlf_nolf by exact H. reflexivity.
Qed.

Lemma truncated_frame body j : wf_body body -> j < length (write_msg body) ->
  read_msg (firstn j (write_msg body)) = MEof \/ read_msg (firstn j (write_msg body)) = MErr.
Proof.
  intros Hb Hj. destruct (wf_body_valid _ Hb) as [Hu Hl]. pose proof (canonical_wf body) as Hw.
  set (h := (content_length, show_dec (N.of_nat (length body)))) in *.
  assert (Hshape : write_msg body = header_line h ++ [13; 10]%N ++ body).
  { pose proof (write_msg_shape body []) as E. rewrite !app_nil_r in E.
    unfold header_lines in E. cbn [app map concat] in E.
    rewrite ?app_nil_r in E. exact E. }
  rewrite Hshape in *. rewrite !app_length in Hj. cbn [length] in Hj.
  assert (Hlen : 2 <= length (header_line h)) by (unfold header_line; rewrite !app_length; cbn; lia).
  destruct (Nat.lt_ge_cases j (length (header_line h))) as [Hlt|Hge].
  - rewrite firstn_app. replace (j - length (header_line h)) with 0 by lia. cbn [firstn]. rewrite app_nil_r.
    destruct j as [|j]; [left; reflexivity|]. right. unfold read_msg.
    rewrite read_headers_nolf; [reflexivity| |].
    + (* the only LF of the header line is its last byte *)
      assert (E : header_line h = (fst h ++ [58; 32]%N ++ snd h ++ [13%N]) ++ [10%N]).
      { unfold header_line. rewrite <- !app_assoc. reflexivity. }
      rewrite E in *. rewrite app_length in Hlt. cbn [length] in Hlt.
      rewrite firstn_app. replace (S j - length (fst h ++ [58; 32]%N ++ snd h ++ [13%N])) with 0 by lia.
      rewrite firstn_O, app_nil_r. intros Hi. apply firstn_In in Hi.
      destruct Hw as (_ & H2 & H3 & _).
      apply in_app_or in Hi as [Hi|Hi]; [auto|]. apply in_app_or in Hi as [Hi|Hi].
      * cbn in Hi. destruct Hi as [Hi|[Hi|[]]]; discriminate.
      * apply in_app_or in Hi as [Hi|Hi]; [auto|]. cbn in Hi. destruct Hi as [Hi|[]]; discriminate.
    + destruct (header_line h); [cbn in Hlen; lia|discriminate].
  - rewrite firstn_app. rewrite firstn_all2 by lia.
    remember (j - length (header_line h)) as k eqn:Ek. unfold read_msg.
    rewrite read_headers_line by exact Hw.
    change (eq_nocase (fst h) content_length) with true. cbv iota.
    replace (parse_unsigned U64 (snd h)) with (Some (N.of_nat (length body)))
      by (symmetry; apply parse_unsigned_show; exact Hl).
    rewrite app_length. destruct (length (header_line h)) as [|L] eqn:EL; [lia|].
    cbn [Nat.add].
    destruct k as [|[|k]].
    + left. reflexivity.
    + right. reflexivity.
    + right. cbn [app firstn]. change (13%N :: 10%N :: firstn k body) with ([13; 10]%N ++ firstn k body).
      rewrite read_headers_end. rewrite firstn_length.
      destruct (N.leb_spec (N.of_nat (length body)) (N.of_nat (Nat.min k (length body)))); [lia|reflexivity].
Qed.

Lemma take_line_length inp : forall ln rest, take_line inp = (ln, rest) ->
  length ln + length rest = length inp.
Proof.
  induction inp as [|x inp IHi]; cbn; intros ln rest Et.
  - inversion Et; reflexivity.
  - destruct (N.eqb_spec x 10); [inversion Et; subst; reflexivity|].
    destruct (take_line inp) as [a b]. specialize (IHi _ _ eq_refl). inversion Et; subst. cbn. lia.
Qed.

Lemma read_headers_shorter fu : forall o inp size r,
  read_headers fu o inp = HDone size r -> length r < length inp.
Proof.
  induction fu as [|fu IH]; intros o inp size r H; [discriminate|]. cbn [read_headers] in H.
  destruct (take_line inp) as [ln rest] eqn:Et.
  apply take_line_length in Et as Hl.
  destruct ln as [|z ln]; [discriminate|]. cbn in Hl.
  destruct (utf8_valid (z :: ln)); [|discriminate].
  destruct (strip_crlf (z :: ln)) as [[|y ys]|]; [inversion H; subst; lia| |discriminate].
  destruct (split_sep (y :: ys)) as [[nm v]|]; [|discriminate].
  destruct (eq_nocase nm content_length).
  - destruct (parse_unsigned U64 v); [|discriminate]. apply IH in H. lia.
  - apply IH in H. lia.
Qed.

Lemma read_all_fuel_eq f inp : read_all_fuel (S f) inp =
  match read_msg inp with
  | MMsg b rest => let (ms, e) := read_all_fuel f rest in (b :: ms, e)
  | MEof => ([], EndEof)
  | MErr => ([], EndErr)
  | MFuel => ([], EndFuel)
  end.
Proof. reflexivity. Qed.

Lemma truncated_stream ms n : Forall wf_body ms ->
  exists k e, read_all (firstn n (write_all ms)) = (firstn k ms, e) /\ e <> EndFuel /\
    k <= length ms /\ length (write_all (firstn k ms)) <= n /\
    (k = length ms \/ n < length (write_all (firstn (S k) ms))).
Proof.
  intros Hw. revert n. induction ms as [|m ms IH]; intros n.
  - exists 0, EndEof. cbn. rewrite firstn_nil. repeat split; auto; [discriminate|lia].
  - inversion Hw as [|? ? Hm Hms]; subst.
    change (write_all (m :: ms)) with (write_msg m ++ write_all ms).
    destruct (Nat.lt_ge_cases n (length (write_msg m))) as [Hlt|Hge].
    + rewrite firstn_app. replace (n - length (write_msg m)) with 0 by lia.
      cbn [firstn]. rewrite app_nil_r. exists 0. cbn [firstn].
      destruct (truncated_frame m n Hm Hlt) as [E|E].
      * exists EndEof. unfold read_all. cbn [read_all_fuel]. rewrite E. repeat split; try discriminate; cbn; try lia.
        right. unfold write_all. cbn [map concat]. rewrite app_nil_r. exact Hlt.
      * exists EndErr. unfold read_all. cbn [read_all_fuel]. rewrite E. repeat split; try discriminate; cbn; try lia.
        right. unfold write_all. cbn [map concat]. rewrite app_nil_r. exact Hlt.
    + rewrite firstn_app, firstn_all2 by lia.
      destruct (IH Hms (n - length (write_msg m))) as (k & e & E & He & Hk & H1 & H2).
      exists (S k), e. cbn [firstn].
      assert (R : forall f tail, length tail <= f -> read_all_fuel (S f) tail = read_all tail).
      { intros f tail. unfold read_all. revert f.
        assert (G : forall f g inp, length inp <= f -> length inp <= g -> read_all_fuel (S f) inp = read_all_fuel (S g) inp).
        { induction f as [|f IHf]; intros g inp Hf Hg.
          - destruct inp; [reflexivity|cbn in Hf; lia].
          - rewrite (read_all_fuel_eq (S f)), (read_all_fuel_eq g). destruct (read_msg inp) as [| |b rest|] eqn:Er; try reflexivity.
            assert (Hrest : length rest < length inp).
            { unfold read_msg in Er. clear -Er.
              destruct (read_headers (S (length inp)) None inp) as [| |size r|] eqn:Eh; try discriminate.
              assert (Hr : length r < length inp).
              { eapply read_headers_shorter; eauto. }
              destruct size as [n|]; [|discriminate].
              destruct (n <=? _)%N; [|discriminate].
              destruct (utf8_valid _); [|discriminate].
              inversion Er; subst. rewrite skipn_length. lia. }
            destruct g as [|g]; [lia|].
            rewrite (IHf g rest) by lia. reflexivity. }
        intros f Hf. apply G; lia. }
      assert (Es : read_all (write_msg m ++ firstn (n - length (write_msg m)) (write_all ms)) = (m :: firstn k ms, e)).
      { unfold read_all at 1. rewrite read_all_fuel_eq. rewrite read_write by exact Hm.
        rewrite app_length. pose proof (write_msg_len m).
        replace (length (write_msg m) + length (firstn (n - length (write_msg m)) (write_all ms)))
          with (S (length (write_msg m) + length (firstn (n - length (write_msg m)) (write_all ms)) - 1)) by lia.
        rewrite R by lia. rewrite E. reflexivity. }
      repeat split; auto.
      * cbn. lia.
      * unfold write_all in *. cbn [firstn map concat]. rewrite app_length. lia.
      * destruct H2 as [H2|H2]; [left; cbn; lia|right].
        change (match ms with [] => [] | a :: l => a :: firstn k l end) with (firstn (S k) ms).
        unfold write_all in *. remember (firstn (S k) ms) as q. cbn [map concat]. rewrite app_length. lia.
Qed.

(** ** Headers *)

Lemma names_length_iff n : names_length n <-> eq_nocase n content_length = true.
Proof. unfold names_length. symmetry. apply eq_nocase_iff. Qed.

Lemma extra_headers hs1 h hs2 body rest :
  Forall wf_header hs1 -> wf_header h -> Forall wf_header hs2 ->
  (forall x, In x (hs1 ++ hs2) -> ~ names_length (fst x)) ->
  names_length (fst h) ->
  snd h = show_dec (N.of_nat (length body)) -> wf_body body ->
  read_msg (header_lines (hs1 ++ [h] ++ hs2) ++ [13; 10]%N ++ body ++ rest) =
  read_msg (write_msg body ++ rest).
Proof.
  intros W1 W W2 Hn Hy Hp Hb. destruct (wf_body_valid _ Hb) as [Hu Hl]. rewrite read_write by exact Hb.
  apply read_msg_frame; auto.
  - intros x Hx. destruct (eq_nocase (fst x) content_length) eqn:E; [|reflexivity].
    exfalso. apply (Hn x Hx). apply names_length_iff; auto.
  - apply names_length_iff; auto.
  - rewrite Hp. apply parse_unsigned_show; auto.
Qed.

Lemma no_length_rejected hs rest :
  Forall wf_header hs -> (forall x, In x hs -> ~ names_length (fst x)) ->
  read_msg (header_lines hs ++ [13; 10]%N ++ rest) = MErr.
Proof.
  intros W Hn. unfold read_msg. pose proof (header_lines_len hs).
  rewrite app_length. cbn [length app].
  replace (S (length (header_lines hs) + S (S (length rest))))
    with (length hs + S (length (header_lines hs) + S (S (length rest)) - length hs)) by lia.
  rewrite read_headers_skip; [|auto|].
  - change (13%N :: 10%N :: rest) with ([13; 10]%N ++ rest). rewrite read_headers_end. reflexivity.
  - intros x Hx. destruct (eq_nocase (fst x) content_length) eqn:E; [|reflexivity].
    exfalso. apply (Hn x Hx). apply names_length_iff; auto.
Qed.

Lemma sep_free_split l : sep_free l -> split_sep l = None.
Proof.
  induction l as [|a l IH]; intros H; [reflexivity|]. cbn [split_sep].
  destruct l as [|b l]; [reflexivity|].
  destruct ((a =? 58) && (b =? 32))%N eqn:E.
  - exfalso. apply andb_true_iff in E as [E1 E2]. apply N.eqb_eq in E1, E2. subst.
    apply (H [] l). reflexivity.
  - rewrite IH; [reflexivity|]. intros x y Ex. apply (H (a :: x) y). cbn. rewrite Ex. reflexivity.
Qed.

Lemma bad_header_rejected hs l rest :
  Forall wf_header hs -> (forall x, In x hs -> ~ names_length (fst x)) ->
  l <> [] -> ~ In 10%N l -> sep_free l ->
  read_msg (header_lines hs ++ l ++ [13; 10]%N ++ rest) = MErr.
Proof.
  intros W Hn Hne Hlf Hs. unfold read_msg. pose proof (header_lines_len hs).
  rewrite app_length.
  replace (S (length (header_lines hs) + length (l ++ [13; 10]%N ++ rest)))
    with (length hs + S (length (header_lines hs) + length (l ++ [13; 10]%N ++ rest) - length hs)) by lia.
  rewrite read_headers_skip; [|auto|].
  - cbn [read_headers]. rewrite take_line_crlf by exact Hlf.
    destruct (l ++ [13; 10]%N) eqn:E; [destruct l; discriminate|]. rewrite <- E.
    destruct (utf8_valid _); [|reflexivity]. rewrite strip_crlf_app.
    destruct l as [|a l]; [congruence|]. rewrite sep_free_split by exact Hs. reflexivity.
  - intros x Hx. destruct (eq_nocase (fst x) content_length) eqn:E2; [|reflexivity].
    exfalso. apply (Hn x Hx). apply names_length_iff; auto.
Qed.

Lemma sep_free_dec (l : bytes) : split_sep l = None -> sep_free l.
Proof.
  intros H a b ->. revert H. induction a as [|x a IH].
  - cbn. discriminate.
  - intros H. apply IH. change ((x :: a) ++ [58; 32]%N ++ b) with (x :: (a ++ [58; 32]%N ++ b)) in H.
    remember (a ++ [58; 32]%N ++ b) as q. cbn [split_sep] in H.
    destruct q as [|y r]; [reflexivity|].
    destruct ((x =? 58) && (y =? 32))%N; [discriminate|].
    destruct (split_sep (y :: r)) as [[? ?]|]; [discriminate|reflexivity].
Qed.

Lemma header_examples :
  wf_header (NumModel.lit "Content-Type", NumModel.lit "a") /\
  ~ names_length (NumModel.lit "Content-Type") /\
  sep_free (NumModel.lit "Content-Length:2").
Proof.
  repeat split.
  - apply sep_free_dec. reflexivity.
  - cbn. intuition discriminate.
  - cbn. intuition discriminate.
  - apply ascii_text. cbn. intros x Hx. intuition (subst; lia).
  - apply ascii_text. cbn. intros x Hx. intuition (subst; lia).
  - intros H. apply names_length_iff in H. discriminate.
  - apply sep_free_dec. reflexivity.
Qed.
