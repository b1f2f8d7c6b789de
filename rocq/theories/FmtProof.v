(** Proofs about formatting edits. *)
From Coq Require Import List NArith Arith Bool Lia.
From Verif Require Import TextModel TextSpec TextProof FmtModel FmtSpec.
Import ListNotations.

(** * Bytes *)
Lemma enc_len c : length (enc c) = len8c c.
Proof. unfold enc, len8c. destruct (c <? 128)%N, (c <? 2048)%N, (c <? 65536)%N; reflexivity. Qed.
Lemma bytes_len t : length (bytes t) = len8 t.
Proof. induction t as [|c t IH]; [reflexivity|]. cbn [bytes flat_map len8]. rewrite app_length, enc_len. f_equal. exact IH. Qed.
Lemma bytes_app a b : bytes (a ++ b) = bytes a ++ bytes b.
Proof. apply flat_map_app. Qed.
Lemma cons_eq {A} (a b : A) x y : a :: x = b :: y -> a = b /\ x = y.
Proof. intros [= -> ->]. auto. Qed.
Lemma enc_inj c d x y : enc c ++ x = enc d ++ y -> c = d /\ x = y.
Proof.
  unfold enc, char in *.
  assert (X : forall n : N, (n < 2048 -> n / 64 < 32)%N) by (intros; apply N.div_lt_upper_bound; lia).
  assert (Y : forall n : N, (n < 65536 -> n / 4096 < 16)%N) by (intros; apply N.div_lt_upper_bound; lia).
  pose proof (X c) as XC. pose proof (X d) as XD. pose proof (Y c) as YC. pose proof (Y d) as YD. clear X Y.
  pose proof (N.div_mod' c 64) as C0. pose proof (N.div_mod' d 64) as D0. pose proof (N.div_mod' (c / 64) 64) as C1. pose proof (N.div_mod' (d / 64) 64) as D1.
  pose proof (N.div_mod' (c / 4096) 64) as C2. pose proof (N.div_mod' (d / 4096) 64) as D2.
  replace (c / 64 / 64)%N with (c / 4096)%N in C1 by (rewrite N.div_div by discriminate; reflexivity).
  replace (d / 64 / 64)%N with (d / 4096)%N in D1 by (rewrite N.div_div by discriminate; reflexivity).
  replace (c / 4096 / 64)%N with (c / 262144)%N in C2 by (rewrite N.div_div by discriminate; reflexivity).
  replace (d / 4096 / 64)%N with (d / 262144)%N in D2 by (rewrite N.div_div by discriminate; reflexivity).
  revert C0 C1 C2 D0 D1 D2 XC XD YC YD.
  generalize (c / 262144)%N (d / 262144)%N (c / 4096)%N (d / 4096)%N (c / 64)%N (d / 64)%N.
  intros c3 d3 c2 d2 c1 d1. generalize (c2 mod 64)%N (d2 mod 64)%N (c1 mod 64)%N (d1 mod 64)%N (c mod 64)%N (d mod 64)%N. intros.
  destruct (N.ltb_spec c 128), (N.ltb_spec d 128); cbn [app] in *;
    try (destruct (N.ltb_spec c 2048)); try (destruct (N.ltb_spec d 2048)); cbn [app] in *;
    try (destruct (N.ltb_spec c 65536)); try (destruct (N.ltb_spec d 65536)); cbn [app] in *;
    repeat match goal with H : ?a :: _ = ?b :: _ |- _ => apply cons_eq in H as [? H] end;
    first [split; [lia|assumption] | exfalso; lia].
Qed.
Lemma bytes_inj a : forall b, bytes a = bytes b -> a = b.
Proof.
  assert (NE : forall c x, enc c ++ x <> []). { intros c x E. apply app_eq_nil in E as [E _]. pose proof (enc_len c) as L. rewrite E in L. pose proof (len8c_pos c). cbn in L. lia. }
  induction a as [|c a IH]; intros [|d b] E; auto; cbn in E.
  - symmetry in E. now apply NE in E.
  - now apply NE in E.
  - apply enc_inj in E as [-> E]. f_equal. now apply IH.
Qed.
Lemma enc_last c : exists l, enc c = l ++ [last_byte c].
Proof.
  unfold enc, last_byte. destruct (c <? 128)%N; [now exists []|]. destruct (c <? 2048)%N; [now eexists [_]|]. destruct (c <? 65536)%N; [now eexists [_; _]|now eexists [_; _; _]].
Qed.

(** * Common parts *)
Lemma common_app w u v : common (w ++ u) (w ++ v) = length w + common u v.
Proof. induction w as [|x w IH]; [reflexivity|]. cbn. rewrite N.eqb_refl, IH. reflexivity. Qed.
Lemma common_prefix a : forall b n, n <= common a b -> firstn n a = firstn n b.
Proof.
  induction a as [|x a IH]; intros [|y b] n H; cbn in H; try (assert (n = 0) by lia; subst; reflexivity).
  destruct (N.eqb_spec x y) as [->|]; [|assert (n = 0) by lia; subst; reflexivity]. destruct n; [reflexivity|]. cbn. f_equal. apply IH. lia.
Qed.
Lemma common_le a : forall b, common a b <= length a /\ common a b <= length b.
Proof. induction a as [|x a IH]; intros [|y b]; cbn; try lia. destruct (x =? y)%N; [|lia]. specialize (IH b). lia. Qed.
Lemma common_comm a : forall b, common a b = common b a.
Proof. induction a as [|x a IH]; intros [|y b]; cbn; auto. rewrite N.eqb_sym. destruct (y =? x)%N; auto. Qed.
Lemma firstn_bytes a b : firstn (len8 a) (bytes (a ++ b)) = bytes a.
Proof. rewrite bytes_app, <- bytes_len, firstn_app, firstn_all, Nat.sub_diag. apply app_nil_r. Qed.
Lemma common_cut x so y sn : len8 x = len8 y -> len8 x <= common (bytes (x ++ so)) (bytes (y ++ sn)) -> x = y.
Proof.
  intros L C. apply bytes_inj. rewrite <- (firstn_bytes x so). rewrite <- (firstn_bytes y sn), <- L. now apply common_prefix.
Qed.
Lemma common_cut_end m z m' z' : len8 z = len8 z' -> len8 z <= common (rev (bytes (m ++ z))) (rev (bytes (m' ++ z'))) -> z = z'.
Proof.
  intros L C. apply bytes_inj. rewrite !bytes_app, !rev_app_distr in C. apply common_prefix in C.
  rewrite firstn_app, firstn_app in C. rewrite !rev_length, !bytes_len in C. rewrite <- L, Nat.sub_diag in C. cbn in C. rewrite !app_nil_r in C.
  rewrite firstn_all2 in C by (rewrite rev_length, bytes_len; lia). rewrite firstn_all2 in C by (rewrite rev_length, bytes_len; lia).
  rewrite <- (rev_involutive (bytes z)), C. apply rev_involutive.
Qed.
Lemma boundary_spec t i : boundary t i = true <-> exists a b, t = a ++ b /\ i = len8 a.
Proof.
  unfold boundary. split.
  - destruct (split_byte i t) as [[a b]|] eqn:E; [|discriminate]. intros _. apply split_byte_inv in E as [-> ->]. eauto.
  - intros (a & b & -> & ->). now rewrite split_byte_app.
Qed.
Lemma back_le old new p : back old new p <= p.
Proof. induction p as [|p IH]; cbn; destruct (boundary old _ && boundary new _); lia. Qed.
Lemma back_ok old new p : boundary old (back old new p) = true /\ boundary new (back old new p) = true.
Proof.
  induction p as [|p IH]; cbn; destruct (boundary old _ && boundary new _) eqn:E; try (now apply andb_true_iff in E); auto.
  split; destruct old, new; reflexivity.
Qed.
Lemma back_ge old new p q : q <= p -> boundary old q = true -> boundary new q = true -> q <= back old new p.
Proof.
  intros L A B. induction p as [|p IH]; cbn.
  - destruct (_ && _); lia.
  - destruct (boundary old (S p) && boundary new (S p)) eqn:E; [lia|]. apply IH. destruct (Nat.eq_dec q (S p)) as [->|]; [|lia]. rewrite A, B in E. discriminate.
Qed.
Lemma split_longer {A} (a b c d : list A) : a ++ b = c ++ d -> (exists e, c = a ++ e /\ b = e ++ d) \/ (exists e, a = c ++ e /\ d = e ++ b).
Proof.
  revert c. induction a as [|x a IH]; intros c E; [left; now exists c|]. destruct c as [|y c].
  - right. exists (x :: a). split; auto.
  - injection E as -> E. destruct (IH c E) as [(e & -> & ->)|(e & -> & ->)]; [left|right]; now exists e.
Qed.

(** * The edit *)
(** If the common suffix ends at a character in both texts, the edit is right. *)
Lemma diff_shape old new e : old <> new ->
  exists x so sn, old = x ++ so /\ new = x ++ sn /\ back old new (common (bytes old) (bytes new)) = len8 x /\
   forall s, s = common (rev (bytes so)) (rev (bytes sn)) -> boundary old (len8 old - s) = true -> boundary new (len8 new - s) = true ->
   exists m m' z, so = m ++ z /\ sn = m' ++ z /\
     forall r, to_lsp_range (len8 x) (len8 (x ++ m)) old e = Some r -> calc_diff old new e = Some [mkChange (Some r) m'].
Proof.
  intros NE. set (p := common (bytes old) (bytes new)). destruct (back_ok old new p) as [BO BN].
  apply boundary_spec in BO as (x & so & EO & LO). apply boundary_spec in BN as (y & sn & EN & LN).
  assert (x = y). { eapply (common_cut x so y sn); [congruence|]. rewrite <- EO, <- EN, <- LO. apply back_le. }
  subst y. exists x, so, sn. repeat split; auto. intros s S B1 B2.
  destruct (common_le (rev (bytes so)) (rev (bytes sn))) as [C1 C2]. rewrite <- S, rev_length, bytes_len in C1, C2.
  apply boundary_spec in B1 as (o1 & z & E1 & L1). apply boundary_spec in B2 as (n1 & z' & E2 & L2).
  assert (LO' : len8 old = len8 x + len8 so) by (rewrite EO; apply len8_app). assert (LN' : len8 new = len8 x + len8 sn) by (rewrite EN; apply len8_app).
  assert (Z : len8 z = s) by (rewrite E1, len8_app in L1; rewrite E1, len8_app in LO'; lia).
  assert (Z' : len8 z' = s) by (rewrite E2, len8_app in L2; rewrite E2, len8_app in LN'; lia).
  assert (X1 : exists m, so = m ++ z).
  { rewrite EO in E1. apply split_longer in E1 as [(f & _ & ->)|(f & _ & ->)]; [now exists f|].
    rewrite len8_app in Z. assert (F : len8 f = 0) by lia. apply len8_0 in F as ->. now exists []. }
  assert (X2 : exists m, sn = m ++ z').
  { rewrite EN in E2. apply split_longer in E2 as [(f & _ & ->)|(f & _ & ->)]; [now exists f|].
    rewrite len8_app in Z'. assert (F : len8 f = 0) by lia. apply len8_0 in F as ->. now exists []. }
  destruct X1 as [m X1], X2 as [m' X2]. assert (z = z'). { apply (common_cut_end m z m' z'); [congruence|]. rewrite <- X1, <- X2, <- S, Z. auto. }
  subst z'. exists m, m', z. split; [exact X1|]. split; [exact X2|]. intros r R.
  unfold calc_diff. fold p.
  replace ((p =? len8 old) && (p =? len8 new)) with false.
  2: { symmetry. apply andb_false_iff. destruct (Nat.eqb_spec p (len8 old)) as [PO|]; auto. destruct (Nat.eqb_spec p (len8 new)) as [PN|]; auto. exfalso. apply NE, bytes_inj.
       pose proof (common_prefix (bytes old) (bytes new) p (le_n _)) as F. rewrite !firstn_all2 in F by (rewrite bytes_len; lia). exact F. }
  cbn zeta. rewrite LO. rewrite EO at 1. rewrite split_byte_app. rewrite EN at 1. rewrite split_byte_app. rewrite <- S.
  rewrite (Nat.add_comm (len8 old) 2). cbn [Nat.add forward].
  destruct (Nat.ltb_spec (len8 old) s); [lia|]. destruct (Nat.ltb_spec (len8 new) s); [lia|]. cbn [orb].
  assert (LOs : len8 old - s = len8 (x ++ m)) by (rewrite EO, X1, !len8_app; lia). assert (LNs : len8 new - s = len8 x + len8 m') by (rewrite EN, X2, !len8_app; lia).
  replace (boundary old (len8 old - s)) with true by (symmetry; apply boundary_spec; exists (x ++ m), z; split; [rewrite EO, X1; now rewrite app_assoc|exact LOs]).
  replace (boundary new (len8 new - s)) with true by (symmetry; apply boundary_spec; exists (x ++ m'), z; split; [rewrite EN, X2; now rewrite app_assoc|rewrite len8_app; exact LNs]).
  cbn [andb]. rewrite LNs, LOs, R. rewrite EN, X2 at 1. rewrite get_range_app. reflexivity.
Qed.
(** The common suffix ends at a character if the differing parts do not share last bytes. *)
Lemma suffix_boundary x so sn m m' z (a a' : text) : a' ++ so = m ++ z -> a' ++ sn = m' ++ z -> differ_in a m m' z ->
  let s := common (rev (bytes so)) (rev (bytes sn)) in
  boundary (x ++ so) (len8 (x ++ so) - s) = true /\ boundary (x ++ sn) (len8 (x ++ sn) - s) = true.
Proof.
  intros E1 E2 D. cbn zeta.
  assert (SUF : forall u v w, so = u -> sn = v -> (u = w ++ v \/ v = w ++ u) -> 
    boundary (x ++ so) (len8 (x ++ so) - common (rev (bytes so)) (rev (bytes sn))) = true /\ boundary (x ++ sn) (len8 (x ++ sn) - common (rev (bytes so)) (rev (bytes sn))) = true).
  { intros u v w -> -> [->| ->].
    - assert (C : common (rev (bytes (w ++ v))) (rev (bytes v)) = len8 v).
      { rewrite bytes_app, rev_app_distr. rewrite <- (app_nil_r (rev (bytes v))) at 2. rewrite common_app, rev_length, bytes_len. destruct (rev (bytes w)); cbn; lia. }
      rewrite C. split; apply boundary_spec; [exists (x ++ w), v|exists x, v]; (split; [now rewrite ?app_assoc|rewrite !len8_app; lia]).
    - assert (C : common (rev (bytes u)) (rev (bytes (w ++ u))) = len8 u).
      { rewrite bytes_app, rev_app_distr. rewrite <- (app_nil_r (rev (bytes u))) at 1. rewrite common_app, rev_length, bytes_len. destruct (rev (bytes w)); cbn; lia. }
      rewrite C. split; apply boundary_spec; [exists x, u|exists (x ++ w), u]; (split; [now rewrite ?app_assoc|rewrite !len8_app; lia]). }
  apply split_longer in E1 as [(e1 & M1 & S1)|(e1 & M1 & S1)]; apply split_longer in E2 as [(e2 & M2 & S2)|(e2 & M2 & S2)].
  - (* both texts still hold the end of the differing parts *)
    subst m m'. destruct D as [D|[D|(n & c & n' & c' & D1 & D2 & D3)]].
    + apply app_eq_nil in D as [_ ->]. apply (SUF _ _ e2 S1 S2). right. reflexivity.
    + apply app_eq_nil in D as [_ ->]. apply (SUF _ _ e1 S1 S2). left. reflexivity.
    + destruct e1 as [|f1 e1] using rev_ind; [apply (SUF _ _ e2 S1 S2); now right|]. clear IHe1.
      destruct e2 as [|f2 e2] using rev_ind; [apply (SUF _ _ (e1 ++ [f1]) S1 S2); now left|]. clear IHe2.
      rewrite app_assoc in D1, D2. apply app_inj_tail in D1 as [_ ->]. apply app_inj_tail in D2 as [_ ->]. subst so sn.
      assert (C : common (rev (bytes ((e1 ++ [c]) ++ z))) (rev (bytes ((e2 ++ [c']) ++ z))) = len8 z).
      { rewrite !bytes_app, !rev_app_distr, common_app, rev_length, bytes_len. cbn [bytes flat_map]. rewrite !app_nil_r.
        destruct (enc_last c) as [l1 ->], (enc_last c') as [l2 ->]. rewrite !rev_app_distr. cbn [rev app common]. apply N.eqb_neq in D3. rewrite D3. lia. }
      rewrite C. split; apply boundary_spec; [exists (x ++ e1 ++ [c]), z|exists (x ++ e2 ++ [c']), z]; (split; [now rewrite <- ?app_assoc|rewrite !len8_app; lia]).
  - subst z. apply (SUF _ _ (e1 ++ e2) eq_refl eq_refl). left. rewrite S1. now rewrite app_assoc.
  - subst z. apply (SUF _ _ (e2 ++ e1) eq_refl eq_refl). right. rewrite S2. now rewrite app_assoc.
  - rewrite S1 in S2. apply split_longer in S2 as [(f & _ & ->)|(f & _ & ->)]; [apply (SUF _ _ f eq_refl eq_refl); now left|apply (SUF _ _ f eq_refl eq_refl); now right].
Qed.
Lemma to_lsp_range_ok e a m z : exists r, to_lsp_range (len8 a) (len8 (a ++ m)) (a ++ m ++ z) e = Some r /\
  to_typst_range r e (a ++ m ++ z) = Some (len8 a, len8 (a ++ m)).
Proof.
  destruct (roundtrip e (a ++ m ++ z) a (m ++ z) eq_refl) as (x & X1 & X2). destruct (roundtrip e (a ++ m ++ z) (a ++ m) z) as (y & Y1 & Y2); [now rewrite app_assoc|].
  exists (mkRange x y). unfold to_lsp_range, to_typst_range. rewrite X1, Y1. cbn [r_start r_end]. now rewrite X2, Y2.
Qed.
(** Where the edit is: [x] is kept, [m] replaced, [z] kept. *)
Lemma edit_shape a m m' z e : differ_in a m m' z -> a ++ m ++ z <> a ++ m' ++ z ->
  exists x n n' w r, a ++ m ++ z = x ++ n ++ w /\ a ++ m' ++ z = x ++ n' ++ w /\
    to_lsp_range (len8 x) (len8 (x ++ n)) (a ++ m ++ z) e = Some r /\
    calc_diff (a ++ m ++ z) (a ++ m' ++ z) e = Some [mkChange (Some r) n'].
Proof.
  intros D NE. destruct (diff_shape _ _ e NE) as (x & so & sn & EO & EN & B & K).
  assert (P : exists a', x = a ++ a').
  { assert (G : len8 a <= len8 x).
    { rewrite <- B. apply back_ge; [|apply boundary_spec; now exists a, (m ++ z)|apply boundary_spec; now exists a, (m' ++ z)].
      rewrite !bytes_app, common_app, bytes_len. lia. }
    apply split_longer in EO as [(f & -> & _)|(f & F & _)]; [now exists f|]. rewrite F, len8_app in G. assert (F0 : len8 f = 0) by lia. apply len8_0 in F0 as ->.
    exists []. now rewrite app_nil_r in *. }
  destruct P as [a' ->].
  assert (E1 : a' ++ so = m ++ z). { rewrite <- app_assoc in EO. now apply app_inv_head in EO. }
  assert (E2 : a' ++ sn = m' ++ z). { rewrite <- app_assoc in EN. now apply app_inv_head in EN. }
  destruct (suffix_boundary (a ++ a') so sn m m' z a a' (eq_sym (eq_sym E1)) E2 D) as [B1 B2].
  destruct (K _ eq_refl) as (n & n' & w & S1 & S2 & R); [now rewrite EO|now rewrite EN|].
  destruct (to_lsp_range_ok e (a ++ a') n w) as (r & R1 & _). rewrite S1 in EO. rewrite <- EO in R1.
  exists (a ++ a'), n, n', w, r. repeat split; auto. rewrite EN, S2. reflexivity.
Qed.
Lemma calc_same t e : calc_diff t t e = Some [].
Proof.
  unfold calc_diff. assert (C : common (bytes t) (bytes t) = len8 t).
  { rewrite <- (app_nil_r (bytes t)), common_app, bytes_len. cbn. lia. }
  rewrite C, Nat.eqb_refl. reflexivity.
Qed.
Lemma calc_none old new e : calc_diff old new e = Some [] -> old = new.
Proof.
  unfold calc_diff. set (p := common (bytes old) (bytes new)). destruct ((p =? len8 old) && (p =? len8 new)) eqn:E.
  - intros _. apply andb_true_iff in E as [E1 E2]. apply Nat.eqb_eq in E1, E2. apply bytes_inj.
    pose proof (common_prefix (bytes old) (bytes new) p (le_n _)) as F. rewrite !firstn_all2 in F by (rewrite bytes_len; lia). exact F.
  - cbn zeta. destruct (split_byte _ old) as [[? ?]|]; [|discriminate]. destruct (split_byte _ new) as [[? ?]|]; [|discriminate].
    destruct (forward _ _ _ _); [|discriminate]. destruct (get_range _ _ _); [|discriminate]. destruct (to_lsp_range _ _ _ _); discriminate.
Qed.
(** The server would apply the edit to the formatted text. *)
Lemma edit_server a m m' z e : differ_in a m m' z -> exists cs, calc_diff (a ++ m ++ z) (a ++ m' ++ z) e = Some cs /\ length cs <= 1 /\
  apply_changes e (a ++ m ++ z) cs = Some (a ++ m' ++ z).
Proof.
  intros D. destruct (list_eq_dec N.eq_dec (a ++ m ++ z) (a ++ m' ++ z)) as [E|NE].
  - rewrite E. exists []. rewrite calc_same. cbn. auto.
  - destruct (edit_shape a m m' z e D NE) as (x & n & n' & w & r & E1 & E2 & R & C). exists [mkChange (Some r) n']. split; [exact C|]. split; [cbn; lia|].
    destruct (to_lsp_range_ok e x n w) as (r' & R1 & R2). rewrite E1 in *. rewrite E2. assert (r' = r) by congruence. subst r'.
    cbn [apply_changes]. unfold apply_change. cbn [c_range c_text]. rewrite R2, source_edit_cut. reflexivity.
Qed.

(** * Positions for the client *)
Lemma line_inner_n nl n : forall t, length t <= n -> (nl CR = true) -> (nl LF = true) -> forall pre l post r rest, split_lines nl t = pre ++ l :: post -> l = r ++ rest ->
  (rest <> [] \/ post = []) -> (forall c, In c r -> nl c = false) \/ (exists r', r = r' ++ [CR] /\ rest = [LF]).
Proof.
  induction n as [|n IH]; intros t L NC NL pre l post r rest E ER K.
  - destruct t; [|cbn in L; lia]. cbn in E. destruct pre as [|? [|? ?]]; try discriminate. injection E as <- <-. symmetry in ER. apply app_eq_nil in ER as [-> ->]. left. intros c [].
  - destruct t as [|c t]; [cbn in E; destruct pre as [|? [|? ?]]; try discriminate; injection E as <- <-; symmetry in ER; apply app_eq_nil in ER as [-> ->]; left; intros c []|].
    cbn [split_lines] in E. cbn in L.
    assert (ONE : forall d0, r ++ rest = [d0] -> rest <> [] -> (forall c, In c r -> nl c = false) \/ (exists r', r = r' ++ [CR] /\ rest = [LF])).
    { intros d0 X Y. destruct r as [|? [|? ?]]; [left; intros ? []| |]; destruct rest; try discriminate; congruence. }
    destruct (nl c) eqn:C.
    + destruct t as [|d t'].
      * destruct pre as [|p0 [|p1 pre]]; cbn in E.
        -- injection E as <- <-. destruct K as [K|K]; [|discriminate]. eapply ONE; eauto.
        -- injection E as <- <- <-. symmetry in ER. apply app_eq_nil in ER as [-> ->]. left. intros ? [].
        -- injection E as _ _ E. destruct pre; discriminate.
      * destruct ((c =? CR) && (d =? LF))%N eqn:CL.
        -- destruct pre as [|p0 pre]; cbn in E.
           ++ injection E as <- EP. destruct K as [K|K]; [|subst post; pose proof (split_lines_nonempty nl t'); congruence].
              apply andb_true_iff in CL as [C1 C2]. apply N.eqb_eq in C1, C2. subst c d.
              destruct r as [|r0 [|r1 [|r2 r]]]; cbn in ER; [left; intros ? []| | |].
              ** injection ER as <- <-. right. now exists [].
              ** injection ER as <- <- <-. congruence.
              ** injection ER. intros. discriminate.
           ++ injection E as _ E. eapply (IH t'); eauto. cbn in L. lia.
        -- destruct pre as [|p0 pre]; cbn in E.
           ++ injection E as <- EP. destruct K as [K|K]; [eapply ONE; eauto|]. subst post. pose proof (split_lines_nonempty nl (d :: t')). cbn in *. congruence.
           ++ injection E as _ E. eapply (IH (d :: t')); eauto. lia.
    + destruct (split_lines nl t) as [|l0 ls] eqn:S; [now apply split_lines_nonempty in S|].
      destruct pre as [|p0 pre]; cbn in E.
      * injection E as <- <-. destruct r as [|r0 r]; [left; intros ? []|]. cbn in ER. injection ER as <- ER.
        destruct (IH t ltac:(lia) NC NL [] l0 ls r rest S ER K) as [I|(r' & -> & ->)]; [left|right].
        -- intros x [<-|X]; auto.
        -- now exists (c :: r').
      * injection E as <- E. eapply (IH t ltac:(lia) NC NL (l0 :: pre)); eauto. rewrite S. cbn. now rewrite E.
Qed.
Lemma client_position t p s : plain t -> t = p ++ s -> ~ inside_crlf p s -> exists x, to_lsp_position (len8 p) Utf16 t = Some x /\ client_at t x p s.
Proof.
  intros P E C. destruct (located_ex t p s E) as (pre & l & post & r & rest & HL). pose proof HL as (H1 & H2 & H3 & H4 & H5).
  exists (mkPos (length pre) (len16 r)). split; [exact (to_lsp_loc Utf16 _ _ _ _ _ _ _ _ HL)|].
  split; [exact E|]. exists r, rest. cbn [p_line p_char]. rewrite (plain_lines t P). rewrite H1.
  split; [rewrite nth_error_app2, Nat.sub_diag by lia; cbn; congruence|]. split; [rewrite firstn_pre; exact H2|]. split; [|reflexivity].
  unfold tl_ in H1. destruct (line_inner_n is_newline (length t) t (le_n _) eq_refl eq_refl pre l post r rest H1 H3 H5) as [I|(r' & -> & ->)].
  - intros c IC. rewrite P; [now apply I|]. rewrite E, H2. apply in_or_app. left. apply in_or_app. auto.
  - exfalso. apply C. exists (concat pre ++ r'), (concat post). split; [rewrite H2; now rewrite app_assoc|exact H4].
Qed.
(** A client applies the edit to the formatted text, unless an end is inside of a CR LF. *)
Lemma edit_client a m m' z : plain (a ++ m ++ z) -> differ_in a m m' z -> (forall p s, a ++ m ++ z = p ++ s -> ~ inside_crlf p s) ->
  exists cs, calc_diff (a ++ m ++ z) (a ++ m' ++ z) Utf16 = Some cs /\ client_edits (a ++ m ++ z) cs (a ++ m' ++ z).
Proof.
  intros P D NC. destruct (list_eq_dec N.eq_dec (a ++ m ++ z) (a ++ m' ++ z)) as [E|NE].
  - rewrite E. exists []. rewrite calc_same. split; [reflexivity|constructor].
  - destruct (edit_shape a m m' z Utf16 D NE) as (x & n & n' & w & r & E1 & E2 & R & C). exists [mkChange (Some r) n']. split; [exact C|]. constructor.
    rewrite E1 in *. rewrite E2. destruct (client_position _ x (n ++ w) P eq_refl) as (x1 & X1 & X2); [now apply NC|].
    destruct (client_position _ (x ++ n) w P (app_assoc _ _ _)) as (y1 & Y1 & Y2); [apply NC; apply app_assoc|].
    unfold to_lsp_range in R. rewrite X1, Y1 in R. injection R as <-. eapply CCRange; eauto.
Qed.
(** Every two texts have a longest common end. *)
Lemma common_end (old : text) : forall new, exists m m' z, old = m ++ z /\ new = m' ++ z /\ (m = [] \/ m' = [] \/ exists n c n' c', m = n ++ [c] /\ m' = n' ++ [c'] /\ c <> c').
Proof.
  rewrite <- (rev_involutive old). induction (rev old) as [|c o IH]; intros new; [exists [], new, []; rewrite !app_nil_r; repeat split; auto|]. cbn [rev].
  rewrite <- (rev_involutive new). destruct (rev new) as [|d w]; [exists (rev o ++ [c]), [], []; rewrite !app_nil_r; repeat split; auto|]. cbn [rev].
  destruct (N.eq_dec c d) as [->|NE].
  - destruct (IH (rev w)) as (m & m' & z & -> & -> & K). exists m, m', (z ++ [d]). rewrite !app_assoc. auto.
  - exists (rev o ++ [c]), (rev w ++ [d]), []. rewrite !app_nil_r. repeat split; auto. right. right. exists (rev o), c, (rev w), d. auto.
Qed.
