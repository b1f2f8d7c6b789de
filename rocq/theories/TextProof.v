From Coq Require Import List NArith Arith Bool Lia.
From Verif Require Import TextModel TextSpec.
Import ListNotations.

Lemma len8c_pos c : 1 <= len8c c.
Proof. unfold len8c; repeat destruct (_ <? _)%N; lia. Qed.
Lemma len16c_pos c : 1 <= len16c c.
Proof. unfold len16c; destruct (_ <? _)%N; lia. Qed.
Lemma len8_app a b : len8 (a ++ b) = len8 a + len8 b.
Proof. induction a; cbn; lia. Qed.
Lemma len16_app a b : len16 (a ++ b) = len16 a + len16 b.
Proof. induction a; cbn; lia. Qed.
Lemma len8_length t : length t <= len8 t.
Proof. induction t as [|c t IH]; cbn; [lia|]. pose proof (len8c_pos c); lia. Qed.
Lemma len16_length t : length t <= len16 t.
Proof. induction t as [|c t IH]; cbn; [lia|]. pose proof (len16c_pos c); lia. Qed.
Lemma len8_0 t : len8 t = 0 -> t = [].
Proof. destruct t; cbn; [auto|]. pose proof (len8c_pos c); lia. Qed.
Lemma len16_0 t : len16 t = 0 -> t = [].
Proof. destruct t; cbn; [auto|]. pose proof (len16c_pos c); lia. Qed.

Lemma split_byte_app p s : split_byte (len8 p) (p ++ s) = Some (p, s).
Proof.
  induction p as [|c p IH]; cbn [len8 app].
  - destruct s; reflexivity.
  - pose proof (len8c_pos c).
    destruct (len8c c + len8 p) eqn:E; [lia|]. cbn [split_byte]. rewrite <- E.
    destruct (Nat.leb_spec (len8c c) (len8c c + len8 p)); [|lia].
    replace (len8c c + len8 p - len8c c) with (len8 p) by lia. rewrite IH; reflexivity.
Qed.

Lemma split_byte_inv n t p s : split_byte n t = Some (p, s) -> t = p ++ s /\ n = len8 p.
Proof.
  revert n p s; induction t as [|c t IH]; intros n p s H.
  - destruct n; cbn in H; inversion H; subst; auto.
  - destruct n; cbn [split_byte] in H; [inversion H; subst; auto|].
    destruct (Nat.leb_spec (len8c c) (S n)); [|discriminate].
    destruct (split_byte (S n - len8c c) t) as [[p' s']|] eqn:E; [|discriminate].
    inversion H; subst. apply IH in E as [-> E2]. cbn. split; [auto|lia].
Qed.

Lemma get_range_app a m s : get_range (a ++ m ++ s) (len8 a) (len8 a + len8 m) = Some m.
Proof.
  unfold get_range. destruct (Nat.ltb_spec (len8 a + len8 m) (len8 a)); [lia|].
  rewrite split_byte_app. replace (len8 a + len8 m - len8 a) with (len8 m) by lia.
  rewrite split_byte_app. reflexivity.
Qed.

(** ** The line index *)

Fixpoint starts (b u : nat) (ls : list text) : list line :=
  match ls with
  | [] => []
  | l :: r => mkLine b u :: starts (b + len8 l) (u + len16 l) r
  end.

Notation tl_ := (split_lines is_newline).

Lemma split_lines_nonempty nl t : split_lines nl t <> [].
Proof.
  destruct t as [|c r]; cbn; [discriminate|].
  destruct (nl c); [destruct r; [discriminate|destruct (_ && _); discriminate]|].
  destruct (split_lines nl r); discriminate.
Qed.

Lemma concat_split_lines_n nl n : forall t, length t <= n -> concat (split_lines nl t) = t.
Proof.
  induction n as [|n IH]; intros t Ht.
  - destruct t; [reflexivity|cbn in Ht; lia].
  - destruct t as [|c r]; [reflexivity|]. cbn in Ht. cbn [split_lines].
    destruct (nl c).
    + destruct r as [|d r']; [reflexivity|]. cbn in Ht.
      destruct (_ && _); cbn [concat app]; rewrite IH; cbn; auto; lia.
    + destruct (split_lines nl r) eqn:E.
      * exfalso; eapply split_lines_nonempty; eauto.
      * cbn [concat app]. f_equal. rewrite <- (IH r) by lia. rewrite E. reflexivity.
Qed.
Lemma concat_split_lines nl t : concat (split_lines nl t) = t.
Proof. eapply concat_split_lines_n; eauto. Qed.

(** All lines but the last are non-empty. *)
Fixpoint nonlast (ls : list text) : Prop :=
  match ls with
  | [] => True
  | [_] => True
  | l :: r => l <> [] /\ nonlast r
  end.

Lemma nonlast_cons l r : l <> [] -> nonlast r -> nonlast (l :: r).
Proof. destruct r; cbn; auto. Qed.

Lemma split_lines_nonlast_n nl n : forall t, length t <= n -> nonlast (split_lines nl t).
Proof.
  induction n as [|n IH]; intros t Ht.
  - destruct t; [exact I|cbn in Ht; lia].
  - destruct t as [|c r]; [exact I|]. cbn in Ht. cbn [split_lines].
    destruct (nl c).
    + destruct r as [|d r']; [split; [discriminate|exact I]|]. cbn in Ht.
      destruct (_ && _); apply nonlast_cons; try discriminate; apply IH; cbn; lia.
    + specialize (IH r ltac:(lia)). destruct (split_lines nl r) as [|l ls] eqn:E; [exact I|].
      destruct ls; [exact I|]. cbn in IH |- *. destruct IH; split; [discriminate|auto].
Qed.
Lemma split_lines_nonlast nl t : nonlast (split_lines nl t).
Proof. eapply split_lines_nonlast_n; eauto. Qed.

Lemma lines_from_starts_n n : forall t b u, length t <= n ->
  mkLine b u :: lines_from b u t = starts b u (tl_ t).
Proof.
  induction n as [|n IH]; intros t b u Ht.
  - destruct t; [reflexivity|cbn in Ht; lia].
  - destruct t as [|c r]; [reflexivity|]. cbn in Ht. cbn [split_lines lines_from].
    destruct (is_newline c) eqn:Ec.
    + destruct r as [|d r'].
      * cbn [starts len8 len16]. rewrite !Nat.add_0_r. reflexivity.
      * cbn in Ht. destruct ((c =? CR) && (d =? LF))%N eqn:E.
        -- apply andb_true_iff in E as [E1 E2].
           apply N.eqb_eq in E1, E2; subst c d.
           cbn [starts]. f_equal. change (len8 [CR; LF]) with 2. change (len16 [CR; LF]) with 2.
           apply IH; lia.
        -- cbn [starts len8 len16]. rewrite !Nat.add_0_r. f_equal.
           change (mkLine (b + len8c c) (u + len16c c) :: lines_from (b + len8c c) (u + len16c c) (d :: r')
                   = starts (b + len8c c) (u + len16c c) (tl_ (d :: r'))).
           apply IH; cbn; lia.
    + specialize (IH r (b + len8c c) (u + len16c c) ltac:(lia)).
      destruct (tl_ r) as [|l ls] eqn:E; [exfalso; eapply split_lines_nonempty; eauto|].
      cbn [starts] in IH |- *. injection IH as IH. rewrite IH.
      f_equal. cbn [len8 len16]. rewrite !Nat.add_assoc. reflexivity.
Qed.
Lemma lines_starts t : lines t = starts 0 0 (tl_ t).
Proof. unfold lines. eapply lines_from_starts_n; eauto. Qed.

Lemma starts_length b u ls : length (starts b u ls) = length ls.
Proof. revert b u; induction ls; cbn; auto. Qed.

Lemma len_lines_spec t : len_lines t = length (tl_ t).
Proof. unfold len_lines. rewrite lines_starts, starts_length. reflexivity. Qed.

Lemma starts_nth pre l post b u :
  nth_error (starts b u (pre ++ l :: post)) (length pre)
  = Some (mkLine (b + len8 (concat pre)) (u + len16 (concat pre))).
Proof.
  revert b u; induction pre as [|x pre IH]; intros; cbn [app starts length nth_error concat].
  - cbn. rewrite !Nat.add_0_r. reflexivity.
  - rewrite IH, len8_app, len16_app, !Nat.add_assoc. reflexivity.
Qed.

(** Locating a cut of the text among its lines. *)
Lemma locate ls : nonlast ls -> ls <> [] -> forall p s, concat ls = p ++ s ->
  exists pre l post r rest,
    ls = pre ++ l :: post /\ p = concat pre ++ r /\ l = r ++ rest /\
    s = rest ++ concat post /\ (rest <> [] \/ post = []).
Proof.
  induction ls as [|l ls IH]; intros Hn Hne p s Hc; [congruence|].
  destruct ls as [|l2 ls].
  - cbn in Hc. rewrite app_nil_r in Hc. subst l.
    exists [], (p ++ s), [], p, s. cbn. rewrite app_nil_r. repeat split; auto.
  - destruct Hn as [Hl Hn]. change (l ++ concat (l2 :: ls) = p ++ s) in Hc.
    destruct (le_lt_dec (length l) (length p)) as [Hle|Hlt].
    + assert (exists r, p = l ++ r) as [r ->].
      { apply (f_equal (firstn (length l))) in Hc as Hf.
        rewrite firstn_app, firstn_all, Nat.sub_diag, app_nil_r in Hf.
        rewrite firstn_app in Hf. replace (length l - length p) with 0 in Hf by lia.
        rewrite app_nil_r in Hf. exists (skipn (length l) p).
        rewrite Hf at 1. symmetry; apply firstn_skipn. }
      rewrite <- app_assoc in Hc. apply app_inv_head in Hc.
      destruct (IH Hn ltac:(discriminate) r s Hc) as (pre & l' & post & r' & rest & H1 & H2 & H3 & H4 & H5).
      exists (l :: pre), l', post, r', rest. rewrite H1. cbn [concat app]. rewrite H2, app_assoc.
      repeat split; auto.
    + assert (exists rest, l = p ++ rest) as [rest ->].
      { apply (f_equal (firstn (length p))) in Hc as Hf.
        rewrite (firstn_app _ p s), firstn_all, Nat.sub_diag, app_nil_r in Hf.
        rewrite firstn_app in Hf. replace (length p - length l) with 0 in Hf by lia.
        rewrite app_nil_r in Hf. exists (skipn (length p) l).
        rewrite <- Hf at 1. symmetry; apply firstn_skipn. }
      rewrite <- app_assoc in Hc. apply app_inv_head in Hc.
      exists [], (p ++ rest), (l2 :: ls), p, rest.
      repeat split; auto. left. intros ->. rewrite app_nil_r in Hlt. lia.
Qed.

Definition located (t p s : text) pre l post r rest :=
  tl_ t = pre ++ l :: post /\ p = concat pre ++ r /\ l = r ++ rest /\
  s = rest ++ concat post /\ (rest <> [] \/ post = []).

Lemma located_ex t p s : t = p ++ s -> exists pre l post r rest, located t p s pre l post r rest.
Proof.
  intros ->. apply locate.
  - apply split_lines_nonlast.
  - apply split_lines_nonempty.
  - apply concat_split_lines.
Qed.

(** Counting line starts below an offset. *)
Lemma filter_none {A} (f : A -> bool) l : (forall x, In x l -> f x = false) -> filter f l = [].
Proof.
  induction l as [|a l IH]; cbn; intros H; [auto|].
  rewrite (H a) by auto. apply IH; auto.
Qed.
Lemma filter_all {A} (f : A -> bool) l : (forall x, In x l -> f x = true) -> filter f l = l.
Proof.
  induction l as [|a l IH]; cbn; intros H; [auto|].
  rewrite (H a) by auto. f_equal; apply IH; auto.
Qed.

Lemma starts_ge b u ls x : In x (starts b u ls) -> b <= l_byte x /\ u <= l_utf16 x.
Proof.
  revert b u; induction ls as [|l ls IH]; cbn; intros b u H; [contradiction|].
  destruct H as [<-|H]; cbn; [lia|]. apply IH in H; lia.
Qed.
Lemma starts_app b u xs ys :
  starts b u (xs ++ ys) = starts b u xs ++ starts (b + len8 (concat xs)) (u + len16 (concat xs)) ys.
Proof.
  revert b u; induction xs as [|x xs IH]; intros; cbn [app starts concat].
  - cbn. rewrite !Nat.add_0_r. reflexivity.
  - rewrite IH, len8_app, len16_app, !Nat.add_assoc. reflexivity.
Qed.
Lemma starts_le b u ls x : In x (starts b u ls) ->
  l_byte x <= b + len8 (concat ls) /\ l_utf16 x <= u + len16 (concat ls).
Proof.
  revert b u; induction ls as [|l ls IH]; cbn [starts In concat]; intros b u H; [contradiction|].
  rewrite len8_app, len16_app. destruct H as [<-|H]; cbn; [lia|]. apply IH in H; lia.
Qed.

Definition key_ok (key : line -> nat) (m : text -> nat) :=
  (key = l_byte /\ m = len8) \/ (key = l_utf16 /\ m = len16).

Lemma count_le_gen key m pre l post x :
  key_ok key m -> m (concat pre) <= x -> (post = [] \/ x < m (concat pre) + m l) ->
  count_le key x (starts 0 0 (pre ++ l :: post)) = length pre + 1.
Proof.
  intros Hk Hx Hpost. unfold count_le.
  change (pre ++ l :: post) with (pre ++ [l] ++ post). rewrite app_assoc, starts_app, filter_app, app_length.
  rewrite (filter_all _ (starts 0 0 (pre ++ [l]))).
  2:{ intros y Hy. apply Nat.leb_le. rewrite starts_app in Hy.
      apply in_app_or in Hy. cbn [starts In] in Hy.
      destruct Hy as [Hy|[<-|[]]].
      - apply starts_le in Hy. destruct Hk as [[-> ->]|[-> ->]]; lia.
      - destruct Hk as [[-> ->]|[-> ->]]; cbn; lia. }
  rewrite filter_none.
  - rewrite starts_length, app_length. cbn. lia.
  - intros y Hy. apply Nat.leb_gt. destruct Hpost as [->|Hpost]; [destruct Hy|].
    apply starts_ge in Hy. rewrite concat_app in Hy. cbn [concat] in Hy.
    rewrite app_nil_r in Hy. rewrite !len8_app, !len16_app in Hy.
    destruct Hk as [[-> ->]|[-> ->]]; lia.
Qed.

Lemma count_le_starts key m pre l post r rest :
  key_ok key m -> l = r ++ rest -> (rest <> [] \/ post = []) ->
  count_le key (m (concat pre ++ r)) (starts 0 0 (pre ++ l :: post)) = length pre + 1.
Proof.
  intros Hk Hl Hrest. apply (count_le_gen key m); [auto| |].
  - destruct Hk as [[-> ->]|[-> ->]]; rewrite ?len8_app, ?len16_app; lia.
  - destruct Hrest as [Hrest|Hrest]; [right|auto]. subst l.
    assert (1 <= len8 rest) by (destruct rest; [congruence|]; cbn; pose proof (len8c_pos c); lia).
    assert (1 <= len16 rest) by (destruct rest; [congruence|]; cbn; pose proof (len16c_pos c); lia).
    destruct Hk as [[-> ->]|[-> ->]]; rewrite ?len8_app, ?len16_app; lia.
Qed.

Lemma search_starts key m pre l post r rest :
  key_ok key m -> l = r ++ rest -> (rest <> [] \/ post = []) ->
  search_line key (m (concat pre ++ r)) (starts 0 0 (pre ++ l :: post)) = length pre.
Proof. intros. unfold search_line. erewrite count_le_starts; eauto. lia. Qed.

Lemma key8 : key_ok l_byte len8. Proof. left; auto. Qed.
Lemma key16 : key_ok l_utf16 len16. Proof. right; auto. Qed.

Lemma located_text t p s pre l post r rest : located t p s pre l post r rest -> t = p ++ s.
Proof.
  intros (H1 & -> & -> & -> & _). rewrite <- (concat_split_lines is_newline t), H1, concat_app.
  cbn. rewrite <- !app_assoc. reflexivity.
Qed.

Lemma byte_to_line_loc t p s pre l post r rest : located t p s pre l post r rest ->
  byte_to_line t (len8 p) = Some (length pre).
Proof.
  intros HL. pose proof (located_text _ _ _ _ _ _ _ _ HL) as Ht.
  destruct HL as (H1 & -> & H3 & H4 & H5).
  unfold byte_to_line. destruct (Nat.leb_spec (len8 (concat pre ++ r)) (len8 t)) as [_|Hlt].
  - rewrite lines_starts, H1, (search_starts l_byte len8 _ _ _ _ _ key8 H3 H5). reflexivity.
  - rewrite Ht, (len8_app (concat pre ++ r)) in Hlt. lia.
Qed.

Lemma line_to_byte_loc t pre l post : tl_ t = pre ++ l :: post ->
  nth_error (lines t) (length pre) = Some (mkLine (len8 (concat pre)) (len16 (concat pre))).
Proof. intros H. rewrite lines_starts, H, starts_nth. reflexivity. Qed.

Lemma line_to_byte_loc' t pre l post : tl_ t = pre ++ l :: post ->
  line_to_byte t (length pre) = Some (len8 (concat pre)).
Proof. intros H. unfold line_to_byte. rewrite (line_to_byte_loc _ _ _ _ H). reflexivity. Qed.

Lemma get_head_loc t p s pre l post r rest : located t p s pre l post r rest ->
  get_range t (len8 (concat pre)) (len8 p) = Some r.
Proof.
  intros HL. pose proof (located_text _ _ _ _ _ _ _ _ HL) as Ht.
  destruct HL as (H1 & -> & H3 & H4 & H5). rewrite Ht, len8_app.
  rewrite <- app_assoc. apply get_range_app.
Qed.

Lemma byte_to_column_loc t p s pre l post r rest : located t p s pre l post r rest ->
  byte_to_column t (len8 p) = Some (length r).
Proof.
  intros HL. unfold byte_to_column. rewrite (byte_to_line_loc _ _ _ _ _ _ _ _ HL).
  pose proof HL as HL'. destruct HL' as (H1 & _).
  rewrite (line_to_byte_loc' _ _ _ _ H1), (get_head_loc _ _ _ _ _ _ _ _ HL). reflexivity.
Qed.

Lemma byte_to_utf16_prefix t p s : t = p ++ s -> byte_to_utf16 t (len8 p) = Some (len16 p).
Proof.
  intros Ht. destruct (located_ex t p s Ht) as (pre & l & post & r & rest & HL).
  unfold byte_to_utf16. rewrite (byte_to_line_loc _ _ _ _ _ _ _ _ HL).
  pose proof HL as HL'. destruct HL' as (H1 & H2 & _).
  rewrite (line_to_byte_loc _ _ _ _ H1). cbn [l_byte l_utf16].
  rewrite (get_head_loc _ _ _ _ _ _ _ _ HL). rewrite H2, len16_app. reflexivity.
Qed.

Lemma utf16_scan_hit r rest b k :
  utf16_scan (k + len16 r) b k (r ++ rest) = Some (b + len8 r).
Proof.
  revert b k; induction r as [|c r IH]; intros b k; cbn [len16 app len8].
  - rewrite !Nat.add_0_r. destruct rest; cbn [utf16_scan].
    + rewrite Nat.eqb_refl; reflexivity.
    + destruct (Nat.leb_spec k k); [reflexivity|lia].
  - cbn [utf16_scan]. pose proof (len16c_pos c).
    destruct (Nat.leb_spec (k + (len16c c + len16 r)) k); [lia|].
    replace (k + (len16c c + len16 r)) with (k + len16c c + len16 r) by lia.
    rewrite IH. f_equal; lia.
Qed.

(** General behaviour of the scan. A target strictly inside the surrogate pair
    that ends the text is not found. *)
Lemma utf16_scan_spec target b k t : k <= target ->
  (exists p s, t = p ++ s /\ utf16_scan target b k t = Some (b + len8 p)
       /\ target <= k + len16 p
       /\ (p = [] \/ exists p' c, p = p' ++ [c] /\ k + len16 p' < target)) \/
  (utf16_scan target b k t = None /\
     (k + len16 t < target \/
      exists p c, t = p ++ [c] /\ k + len16 p < target < k + len16 t)).
Proof.
  revert b k; induction t as [|c t IH]; intros b k Hk; cbn [len16 utf16_scan].
  - destruct (Nat.eqb_spec k target).
    + left. exists [], []. cbn. rewrite !Nat.add_0_r. repeat split; auto; lia.
    + right. split; [reflexivity|lia].
  - pose proof (len16c_pos c). destruct (Nat.leb_spec target k).
    + left. exists [], (c :: t). cbn. rewrite !Nat.add_0_r. repeat split; auto.
    + destruct (le_lt_dec (k + len16c c) target) as [Hle|Hgt].
      * destruct (IH (b + len8c c) (k + len16c c) Hle) as [(p & s & -> & -> & H4 & H5)|(H1 & H2)].
        -- left. exists (c :: p), s. cbn. repeat split; [f_equal; lia|lia|].
           right. destruct H5 as [->|(p' & d & -> & H6)].
           ++ exists [], c. cbn. split; [auto|lia].
           ++ exists (c :: p'), d. cbn. split; [auto|lia].
        -- right. split; [auto|]. destruct H2 as [H2|(p & d & -> & H2)]; [left; lia|].
           right. exists (c :: p), d. cbn. split; [auto|lia].
      * destruct t as [|d t].
        -- cbn [utf16_scan]. destruct (Nat.eqb_spec (k + len16c c) target); [lia|].
           right. split; [auto|]. right. exists [], c. cbn. split; [auto|lia].
        -- cbn [utf16_scan]. destruct (Nat.leb_spec target (k + len16c c)); [|lia].
           left. exists [c], (d :: t). cbn. rewrite !Nat.add_0_r. repeat split; auto; try lia.
           right. exists [], c. cbn. split; auto; lia.
Qed.

Lemma split_at_key ls : ls <> [] -> forall u x, u <= x ->
  exists pre l post, ls = pre ++ l :: post /\ u + len16 (concat pre) <= x /\
    (post = [] \/ x < u + len16 (concat pre) + len16 l).
Proof.
  induction ls as [|l ls IH]; intros Hne u x Hu; [congruence|].
  destruct ls as [|l2 ls].
  - exists [], l, []. cbn. repeat split; auto; lia.
  - destruct (le_lt_dec (u + len16 l) x) as [Hle|Hlt].
    + destruct (IH ltac:(discriminate) (u + len16 l) x Hle) as (pre & l' & post & H1 & H2 & H3).
      exists (l :: pre), l', post. rewrite H1. cbn [app concat]. rewrite len16_app.
      repeat split; [lia|]. destruct H3; [auto|right; lia].
    + exists [], l, (l2 :: ls). cbn. repeat split; [lia|right; lia].
Qed.

Lemma split_byte_pre t pre l post : tl_ t = pre ++ l :: post ->
  split_byte (len8 (concat pre)) t = Some (concat pre, l ++ concat post).
Proof.
  intros H. rewrite <- (concat_split_lines is_newline t), H, concat_app.
  cbn [concat]. apply split_byte_app.
Qed.

Lemma utf16_to_byte_gen t x : exists pre l post,
  tl_ t = pre ++ l :: post /\ len16 (concat pre) <= x /\
  utf16_to_byte t x = utf16_scan x (len8 (concat pre)) (len16 (concat pre)) (l ++ concat post).
Proof.
  destruct (split_at_key (tl_ t) (split_lines_nonempty _ _) 0 x ltac:(lia)) as (pre & l & post & H1 & H2 & H3).
  cbn in H2, H3. exists pre, l, post. repeat split; auto.
  assert (Hs : search_line l_utf16 x (lines t) = length pre).
  { unfold search_line. rewrite lines_starts, H1.
    rewrite (count_le_gen l_utf16 len16 _ _ _ x key16 H2 H3). lia. }
  unfold utf16_to_byte. rewrite Hs.
  rewrite (line_to_byte_loc _ _ _ _ H1). cbn [l_byte l_utf16].
  rewrite (split_byte_pre _ _ _ _ H1). reflexivity.
Qed.

Lemma text_pre t pre l post : tl_ t = pre ++ l :: post -> t = concat pre ++ l ++ concat post.
Proof.
  intros H. rewrite <- (concat_split_lines is_newline t), H, concat_app. reflexivity.
Qed.

(** Two cuts of one text: one is a prefix of the other. *)
Lemma cuts_order (p s q z : text) : p ++ s = q ++ z ->
  (exists m, q = p ++ m /\ s = m ++ z) \/ (exists m, p = q ++ m /\ z = m ++ s).
Proof.
  revert q; induction p as [|c p IH]; intros q H.
  - left. exists q. auto.
  - destruct q as [|d q].
    + right. exists (c :: p). auto.
    + cbn in H. injection H as -> H. destruct (IH q H) as [(m & -> & ->)|(m & -> & ->)].
      * left; exists m; auto.
      * right; exists m; auto.
Qed.

Lemma utf16_to_byte_prefix t p s : t = p ++ s -> utf16_to_byte t (len16 p) = Some (len8 p).
Proof.
  intros Ht. destruct (utf16_to_byte_gen t (len16 p)) as (pre & l & post & H1 & H2 & ->).
  pose proof (text_pre _ _ _ _ H1) as Ht'. rewrite Ht in Ht'.
  destruct (cuts_order _ _ _ _ Ht') as [(m & E1 & E2)|(m & E1 & E2)].
  - assert (len16 m = 0) as Hm by (rewrite E1, len16_app in H2; lia).
    apply len16_0 in Hm; subst m. rewrite app_nil_r in E1. rewrite E1.
    pose proof (utf16_scan_hit [] (l ++ concat post) (len8 p) (len16 p)) as Hs.
    cbn [len16 len8 app] in Hs. rewrite !Nat.add_0_r in Hs. exact Hs.
  - rewrite E2. subst p. rewrite len16_app, len8_app. apply utf16_scan_hit.
Qed.

(** ** Positions *)

Lemma to_lsp_loc e t p s pre l post r rest : located t p s pre l post r rest ->
  to_lsp_position (len8 p) e t =
  Some (mkPos (length pre) (match e with Utf8 => length r | Utf16 => len16 r end)).
Proof.
  intros HL. pose proof (located_text _ _ _ _ _ _ _ _ HL) as Ht.
  unfold to_lsp_position. destruct (Nat.ltb_spec (len8 t) (len8 p)) as [Hlt|_].
  { rewrite Ht, len8_app in Hlt; lia. }
  rewrite (byte_to_line_loc _ _ _ _ _ _ _ _ HL), (byte_to_column_loc _ _ _ _ _ _ _ _ HL).
  destruct e; [reflexivity|].
  rewrite (byte_to_utf16_prefix t p s Ht).
  pose proof HL as HL'. destruct HL' as (H1 & H2 & _).
  rewrite (line_to_byte_loc' _ _ _ _ H1).
  rewrite (byte_to_utf16_prefix t (concat pre) (l ++ concat post) (text_pre _ _ _ _ H1)).
  rewrite H2, len16_app. do 2 f_equal. lia.
Qed.

Lemma line_to_byte_next t pre l post : tl_ t = pre ++ l :: post ->
  (match line_to_byte t (length pre + 1) with Some e => e | None => len8 t end)
  = len8 (concat pre) + len8 l.
Proof.
  intros H. destruct post as [|l2 post].
  - unfold line_to_byte. replace (nth_error (lines t) (length pre + 1)) with (@None line).
    + cbn. rewrite (text_pre _ _ _ _ H). cbn. rewrite app_nil_r, len8_app. reflexivity.
    + symmetry. apply nth_error_None. rewrite lines_starts, starts_length, H, app_length. cbn. lia.
  - replace (length pre + 1) with (length (pre ++ [l])) by (rewrite app_length; cbn; lia).
    rewrite (line_to_byte_loc' t (pre ++ [l]) l2 post).
    + rewrite concat_app. cbn. rewrite app_nil_r, len8_app. reflexivity.
    + rewrite H, <- app_assoc. reflexivity.
Qed.

Lemma line_column_to_byte_loc t pre l post col : tl_ t = pre ++ l :: post ->
  line_column_to_byte t (length pre) col = Some (len8 (concat pre) + len8 (firstn col l)).
Proof.
  intros H. unfold line_column_to_byte. rewrite (line_to_byte_loc' _ _ _ _ H).
  rewrite (line_to_byte_next _ _ _ _ H).
  rewrite (text_pre _ _ _ _ H), get_range_app. reflexivity.
Qed.

Lemma len_lines_loc t pre l post : tl_ t = pre ++ l :: post ->
  len_lines t = length pre + 1 + length post.
Proof. intros H. rewrite len_lines_spec, H, app_length. cbn. lia. Qed.

(** What [to_typst_position] does on an existing line. *)
Lemma to_typst_line e t pre l post col : tl_ t = pre ++ l :: post ->
  to_typst_position (mkPos (length pre) col) e t =
  if (match post with [] => true | _ => false end) &&
     negb (col <? (match e with Utf8 => len8 l | Utf16 => len16 l end))
  then Some (len8 t)
  else match e with
       | Utf8 => Some (len8 (concat pre) + len8 (firstn col l))
       | Utf16 => utf16_to_byte t (len16 (concat pre) + col)
       end.
Proof.
  intros H. unfold to_typst_position. cbn [p_line p_char].
  rewrite (len_lines_loc _ _ _ _ H).
  destruct (Nat.ltb_spec (length pre) (length pre + 1 + length post)); [|lia].
  rewrite (line_to_byte_loc' _ _ _ _ H), (line_column_to_byte_loc _ _ _ _ _ H),
    (byte_to_utf16_prefix t (concat pre) (l ++ concat post) (text_pre _ _ _ _ H)).
  destruct post as [|l2 post].
  - cbn [length]. destruct (Nat.eqb_spec (length pre + 1) (length pre + 1 + 0)); [|lia].
    replace (length pre + 1 + 0 - 1) with (length pre) by lia.
    rewrite (line_to_byte_loc' _ _ _ _ H), (split_byte_pre _ _ _ _ H). cbn [concat].
    rewrite app_nil_r. destruct e; destruct (_ <? _); reflexivity.
  - cbn [length]. destruct (Nat.eqb_spec (length pre + 1) (length pre + 1 + S (length post))); [lia|].
    cbn [andb]. destruct e; reflexivity.
Qed.

Lemma roundtrip e t p s : t = p ++ s ->
  exists x, to_lsp_position (len8 p) e t = Some x /\ to_typst_position x e t = Some (len8 p).
Proof.
  intros Ht. destruct (located_ex t p s Ht) as (pre & l & post & r & rest & HL).
  eexists. split; [eapply to_lsp_loc; eauto|].
  pose proof HL as (H1 & H2 & H3 & H4 & H5). rewrite (to_typst_line _ _ _ _ _ _ H1).
  destruct (andb _ _) eqn:E.
  - apply andb_true_iff in E as [E1 E2]. destruct post; [|discriminate].
    apply negb_true_iff, Nat.ltb_ge in E2. rewrite H3 in E2.
    assert (rest = []).
    { destruct rest; [auto|]. exfalso. pose proof (len8_length r).
      rewrite len8_app, len16_app in E2. cbn in E2. pose proof (len8c_pos c). pose proof (len16c_pos c).
      destruct e; lia. }
    subst rest s. rewrite app_nil_r in Ht. subst t. reflexivity.
  - destruct e.
    + rewrite H3, firstn_app, firstn_all, Nat.sub_diag. cbn. rewrite app_nil_r, H2, len8_app. reflexivity.
    + rewrite <- len16_app, <- H2. eapply utf16_to_byte_prefix; eauto.
Qed.

(** ** Totality and bounds *)

Lemma line_cut t i : i < len_lines t -> exists pre l post,
  tl_ t = pre ++ l :: post /\ length pre = i.
Proof.
  intros H. rewrite len_lines_spec in H.
  destruct (nth_error (tl_ t) i) as [l|] eqn:E.
  - apply nth_error_split in E as (pre & post & E1 & E2). exists pre, l, post. auto.
  - apply nth_error_None in E. lia.
Qed.

Lemma firstn_pre {A} (pre : list A) l post : firstn (length pre) (pre ++ l :: post) = pre.
Proof. rewrite firstn_app, firstn_all, Nat.sub_diag. cbn. apply app_nil_r. Qed.

Lemma utf16_to_byte_cases t u :
  (exists p s, t = p ++ s /\ utf16_to_byte t u = Some (len8 p)) \/
  (utf16_to_byte t u = None /\ misses t u).
Proof.
  destruct (utf16_to_byte_gen t u) as (pre & l & post & H1 & H2 & ->).
  pose proof (text_pre _ _ _ _ H1) as Ht.
  destruct (utf16_scan_spec u (len8 (concat pre)) (len16 (concat pre)) (l ++ concat post) H2)
    as [(p & s & E1 & E2 & E3 & E4)|(E1 & E2)].
  - left. exists (concat pre ++ p), s. rewrite E2, len8_app, Ht, E1, app_assoc. auto.
  - right. split; [auto|]. destruct E2 as [E2|(p & c & E2 & E3)].
    + left. rewrite Ht, len16_app. lia.
    + right. exists (concat pre ++ p), c. split; [rewrite Ht, E2, app_assoc; reflexivity|].
      rewrite Ht, (len16_app (concat pre) p), (len16_app (concat pre) (l ++ concat post)). lia.
Qed.

Lemma utf16_to_byte_misses t u : misses t u -> utf16_to_byte t u = None.
Proof.
  intros Hm. destruct (utf16_to_byte_gen t u) as (pre & l & post & H1 & H2 & ->).
  pose proof (text_pre _ _ _ _ H1) as Ht.
  destruct (utf16_scan_spec u (len8 (concat pre)) (len16 (concat pre)) (l ++ concat post) H2)
    as [(p & s & E1 & E2 & E3 & E4)|(E1 & E2)]; [|exact E1].
  exfalso.
  assert (Hf : t = (concat pre ++ p) ++ s) by (rewrite Ht, E1, app_assoc; reflexivity).
  assert (Hp : u <= len16 (concat pre ++ p)) by (rewrite len16_app; lia).
  destruct Hm as [Hm|(q & c & Eq & Hm)].
  - rewrite Hf, len16_app in Hm. lia.
  - rewrite Hf in Eq. destruct (cuts_order _ _ _ _ Eq) as [(m & F1 & F2)|(m & F1 & F2)].
    + rewrite F1, len16_app in Hm. lia.
    + destruct m as [|d m].
      * rewrite app_nil_r in F1. rewrite F1 in Hp. lia.
      * cbn in F2. injection F2 as <- F2. symmetry in F2. apply app_eq_nil in F2 as [-> ->].
        (* the scan reached the end of the text, so the target equals its length *)
        assert (Hs : utf16_scan u (len8 (concat pre)) (len16 (concat pre)) (l ++ concat post) <> None)
          by (intros Hn; pose proof (eq_trans (eq_sym E2) Hn); discriminate).
        rewrite app_nil_r in E1, Hf.
        clear E2. revert Hs.
        rewrite E1. assert (Hu : len16 (concat pre ++ p) <> u).
        { rewrite Hf in Hm. lia. }
        assert (Hlast : forall p', (exists p0, p' = p0 ++ [c]) -> forall b k,
          k + len16 p' <> u -> (forall p0, p' = p0 ++ [c] -> k + len16 p0 < u) ->
          utf16_scan u b k p' = None).
        { induction p' as [|a p' IH]; intros [p0 Hp0] b k Hne Hlt.
          - destruct p0; discriminate.
          - cbn [utf16_scan]. destruct p' as [|a' p'].
            + destruct p0; [|destruct p0; discriminate].
              specialize (Hlt [] Hp0). cbn in Hlt.
              destruct (Nat.leb_spec u k); [lia|]. cbn.
              destruct (Nat.eqb_spec (k + len16c a) u); [|reflexivity]. cbn in Hne. lia.
            + destruct p0 as [|x p0]; [discriminate|]. cbn in Hp0. injection Hp0 as <- Hp0.
              pose proof (Hlt (a :: p0) ltac:(cbn; rewrite Hp0; reflexivity)) as Hl. cbn in Hl.
              destruct (Nat.leb_spec u k); [lia|].
              apply IH; [eauto| cbn in Hne |- *; lia|].
              intros p1 Hp1. specialize (Hlt (a :: p1)). cbn in Hlt. rewrite Hp1 in Hlt.
              specialize (Hlt eq_refl). lia. }
        intros Hs. apply Hs. apply Hlast.
        -- destruct p as [|a p] using rev_ind.
           ++ exfalso. rewrite app_nil_r in Hu, Hp. lia.
           ++ rewrite app_assoc in F1. apply app_inj_tail in F1 as [F1 ->]. eauto.
        -- rewrite len16_app in Hu. lia.
        -- intros p0 ->. rewrite app_assoc in F1. apply app_inj_tail in F1 as [F1 _].
           rewrite <- len16_app, F1. lia.
Qed.

Lemma to_typst_cases x e t :
  match to_typst_position x e t with
  | Some o => exists p s, t = p ++ s /\ o = len8 p
  | None => e = Utf16 /\ p_line x < length (tl_ t) /\
            misses t (len16 (concat (firstn (p_line x) (tl_ t))) + p_char x)
  end.
Proof.
  destruct x as [i col]. destruct (le_lt_dec (len_lines t) i) as [Hge|Hlt].
  - unfold to_typst_position. cbn [p_line p_char].
    destruct (Nat.ltb_spec i (len_lines t)); [lia|]. exists t, []. rewrite app_nil_r. auto.
  - destruct (line_cut t i Hlt) as (pre & l & post & H1 & H2). subst i.
    rewrite (to_typst_line e t pre l post col H1). cbn [p_line p_char].
    replace (firstn (length pre) (tl_ t)) with pre by (rewrite H1, firstn_pre; reflexivity).
    destruct (andb _ _); [exists t, []; rewrite app_nil_r; auto|].
    destruct e.
    + exists (concat pre ++ firstn col l), (skipn col l ++ concat post).
      rewrite len8_app. split; [|auto]. rewrite (text_pre _ _ _ _ H1) at 1.
      rewrite <- app_assoc. f_equal. rewrite app_assoc, firstn_skipn. reflexivity.
    + destruct (utf16_to_byte_cases t (len16 (concat pre) + col)) as [(p & s & E1 & ->)|(-> & E2)].
      * eauto.
      * rewrite len_lines_spec in Hlt. auto.
Qed.

Lemma to_typst_exact t i r rest :
  nth_error (tl_ t) i = Some (r ++ rest) ->
  to_typst_position (mkPos i (len16 r)) Utf16 t
  = Some (len8 (concat (firstn i (tl_ t)) ++ r)).
Proof.
  intros H. apply nth_error_split in H as (pre & post & H1 & <-).
  rewrite (to_typst_line _ _ _ _ _ _ H1).
  replace (firstn (length pre) (tl_ t)) with pre by (rewrite H1, firstn_pre; reflexivity).
  pose proof (text_pre _ _ _ _ H1) as Ht.
  destruct (andb _ _) eqn:E.
  - apply andb_true_iff in E as [E1 E2]. destruct post; [|discriminate].
    apply negb_true_iff, Nat.ltb_ge in E2. rewrite len16_app in E2.
    assert (rest = []) as -> by (apply len16_0; lia).
    rewrite Ht. cbn. rewrite !app_nil_r. reflexivity.
  - rewrite <- len16_app. apply utf16_to_byte_prefix with (s := rest ++ concat post).
    rewrite Ht, !app_assoc. reflexivity.
Qed.

Lemma to_typst_clamp t x e : length (tl_ t) <= p_line x -> to_typst_position x e t = Some (len8 t).
Proof.
  intros H. unfold to_typst_position. rewrite len_lines_spec.
  destruct (Nat.ltb_spec (p_line x) (length (tl_ t))); [lia|reflexivity].
Qed.

Lemma to_typst_none_iff x t :
  to_typst_position x Utf16 t = None <->
  p_line x + 1 < length (tl_ t) /\ misses t (len16 (concat (firstn (p_line x) (tl_ t))) + p_char x)
  \/ p_line x + 1 = length (tl_ t) /\
     len16 (concat (firstn (p_line x) (tl_ t))) + p_char x < len16 t /\
     misses t (len16 (concat (firstn (p_line x) (tl_ t))) + p_char x).
Proof.
  destruct x as [i col]. cbn [p_line p_char].
  destruct (le_lt_dec (len_lines t) i) as [Hge|Hlt].
  - rewrite to_typst_clamp by (cbn; rewrite <- len_lines_spec; lia).
    rewrite len_lines_spec in Hge. split; [discriminate|]. intros [[H _]|[H _]]; lia.
  - destruct (line_cut t i Hlt) as (pre & l & post & H1 & H2). subst i.
    rewrite (to_typst_line _ _ _ _ _ _ H1). rewrite H1, firstn_pre, app_length. cbn [length].
    pose proof (text_pre _ _ _ _ H1) as Ht.
    destruct post as [|l2 post].
    + cbn [length andb]. destruct (Nat.ltb_spec col (len16 l)); cbn [negb].
      * split.
        -- intros E. right. rewrite Ht at 1. cbn. rewrite app_nil_r, len16_app.
           split; [lia|]. split; [lia|].
           destruct (utf16_to_byte_cases t (len16 (concat pre) + col)) as [(p & s & _ & E')|(_ & E')];
             [congruence|auto].
        -- intros [[H0 _]|(_ & _ & Hm)]; [lia|]. apply utf16_to_byte_misses; auto.
      * split; [discriminate|]. intros [[H0 _]|(_ & H0 & _)]; [lia|].
        rewrite Ht in H0. cbn in H0. rewrite app_nil_r, len16_app in H0. lia.
    + cbn [length andb]. split.
      * intros E. left. split; [lia|].
        destruct (utf16_to_byte_cases t (len16 (concat pre) + col)) as [(p & s & _ & E')|(_ & E')];
          [congruence|auto].
      * intros [[_ Hm]|(H0 & _)]; [|lia]. apply utf16_to_byte_misses; auto.
Qed.

(** ** Edits *)

Lemma split_lines_ext_n nl nl' n : forall t, length t <= n ->
  (forall c, In c t -> nl c = nl' c) -> split_lines nl t = split_lines nl' t.
Proof.
  induction n as [|n IH]; intros t Ht H.
  - destruct t; [reflexivity|cbn in Ht; lia].
  - destruct t as [|c r]; [reflexivity|]. cbn in Ht. cbn [split_lines].
    rewrite (H c) by (left; auto).
    destruct (nl' c).
    + destruct r as [|d r']; [reflexivity|]. cbn in Ht.
      rewrite (IH r') by (try lia; intros; apply H; cbn; auto).
      rewrite (IH (d :: r')) by (try (cbn; lia); intros; apply H; cbn in *; tauto).
      reflexivity.
    + rewrite (IH r) by (try lia; intros; apply H; cbn; auto). reflexivity.
Qed.
Lemma plain_lines t : plain t -> split_lines lsp_nl t = tl_ t.
Proof. intros H. eapply split_lines_ext_n; eauto. Qed.

Lemma client_at_offset t x p s : plain t -> client_at t x p s ->
  to_typst_position x Utf16 t = Some (len8 p).
Proof.
  intros Hp (Ht & r & rest & H1 & H2 & H3 & H4). rewrite (plain_lines t Hp) in *.
  destruct x as [i col]. cbn [p_line p_char] in *. subst col.
  rewrite (to_typst_exact _ _ _ _ H1), <- H2. reflexivity.
Qed.

Lemma source_edit_cut p m s new :
  source_edit (p ++ m ++ s) (len8 p) (len8 (p ++ m)) new = Some (p ++ new ++ s).
Proof.
  unfold source_edit. rewrite len8_app at 1.
  destruct (Nat.ltb_spec (len8 p + len8 m) (len8 p)); [lia|].
  rewrite split_byte_app. rewrite app_assoc, split_byte_app. reflexivity.
Qed.

Lemma client_change_ok t c t' : plain t -> client_change t c t' -> apply_change Utf16 t c = Some t'.
Proof.
  intros Hp H. destruct H as [new|a b p m s new Ha Hb]; [reflexivity|].
  unfold apply_change, to_typst_range. cbn [c_range c_text r_start r_end].
  rewrite (client_at_offset _ _ _ _ Hp Ha), (client_at_offset _ _ _ _ Hp Hb).
  destruct Ha as [-> _]. apply source_edit_cut.
Qed.

Lemma plain_app a b : plain (a ++ b) <-> plain a /\ plain b.
Proof.
  unfold plain; split.
  - intros H; split; intros c Hc; apply H, in_or_app; auto.
  - intros [H1 H2] c Hc. apply in_app_or in Hc as [Hc|Hc]; auto.
Qed.

Lemma client_change_plain t c t' : plain t -> plain (c_text c) -> client_change t c t' -> plain t'.
Proof.
  intros Hp Hc H. destruct H as [new|a b p m s new Ha Hb]; [auto|].
  destruct Ha as [-> _]. rewrite !plain_app in *. cbn in Hc. tauto.
Qed.

Lemma client_changes_ok t cs t' : plain t -> (forall c, In c cs -> plain (c_text c)) ->
  client_changes t cs t' -> apply_changes Utf16 t cs = Some t' /\ plain t'.
Proof.
  intros Hp Hcs H. induction H as [|t c t' cs t'' H1 H2 IH]; [auto|].
  cbn [apply_changes]. rewrite (client_change_ok _ _ _ Hp H1). apply IH.
  - eapply client_change_plain; eauto. apply Hcs; left; auto.
  - intros; apply Hcs; right; auto.
Qed.

(** ** The document store *)

Definition docs_match (s : docs) (d : cdocs) : Prop :=
  (forall p, doc_get p s = d p) /\ (forall p t, d p = Some t -> plain t).

Lemma doc_get_remove p q s : doc_get q (doc_remove p s) = if q =? p then None else doc_get q s.
Proof.
  induction s as [|[k t] s IH]; [cbn; destruct (q =? p); auto|].
  unfold doc_remove in *. cbn [filter fst doc_get].
  destruct (Nat.eqb_spec p k); cbn [negb doc_get]; rewrite IH.
  - subst. destruct (Nat.eqb_spec q k); auto.
  - destruct (Nat.eqb_spec q p); [subst|auto].
    destruct (Nat.eqb_spec p k); [congruence|auto].
Qed.
Lemma doc_get_insert p q t s : doc_get q (doc_insert p t s) = if q =? p then Some t else doc_get q s.
Proof.
  unfold doc_insert. cbn [doc_get]. rewrite doc_get_remove. destruct (q =? p); auto.
Qed.

Lemma doc_step_ok s d ev d' pu : docs_match s d -> client_step d ev d' pu ->
  exists s', doc_step Utf16 s ev = Done (s', pu) /\ docs_match s' d'.
Proof.
  intros [Hg Hp] H. destruct H as [p t Ht|p|p t t' cs Hd Hc Hcs]; cbn [doc_step].
  - eexists; split; [reflexivity|]. split; unfold cset.
    + intros q. rewrite doc_get_insert, Hg. reflexivity.
    + intros q u. destruct (q =? p); [intros E; try discriminate E; injection E as <-; assumption|apply Hp].
  - eexists; split; [reflexivity|]. split; unfold cset.
    + intros q. rewrite doc_get_remove, Hg. reflexivity.
    + intros q u. destruct (q =? p); [intros E; try discriminate E; injection E as <-; assumption|apply Hp].
  - rewrite Hg, Hd. destruct (client_changes_ok t cs t' (Hp _ _ Hd) Hcs Hc) as [-> Hp'].
    eexists; split; [reflexivity|]. split; unfold cset.
    + intros q. rewrite doc_get_insert, Hg. reflexivity.
    + intros q u. destruct (q =? p); [intros E; try discriminate E; injection E as <-; assumption|apply Hp].
Qed.

Lemma doc_run_ok s d evs d' pus : docs_match s d -> client_run d evs d' pus ->
  exists s', doc_run s evs = Done (s', pus) /\ (forall p, doc_get p s' = d' p).
Proof.
  intros Hm H. revert s Hm. induction H as [d|d ev d' pu evs d'' pus Hs Hr IH]; intros s Hm.
  - exists s. split; [reflexivity|apply Hm].
  - destruct (doc_step_ok _ _ _ _ _ Hm Hs) as (s' & E & Hm').
    destruct (IH s' Hm') as (s'' & E' & Hg). exists s''. cbn. rewrite E, E'. auto.
Qed.

(** ** Statements used by TextThm *)

Lemma nonlast_has_nl_n nl n : forall t, length t <= n -> forall pre l x post,
  split_lines nl t = pre ++ l :: x :: post -> exists c, In c l /\ nl c = true.
Proof.
  induction n as [|n IH]; intros t Ht pre l x post H.
  - destruct t; [|cbn in Ht; lia]. cbn in H. destruct pre as [|? [|]]; discriminate.
  - destruct t as [|c r]; [cbn in H; destruct pre as [|? [|]]; discriminate|].
    cbn in Ht. cbn [split_lines] in H.
    destruct (nl c) eqn:Ec.
    + destruct r as [|d r'].
      * destruct pre as [|y pre]; cbn in H; injection H as H0 H; [subst; exists c; cbn; auto|].
        destruct pre as [|? [|]]; discriminate.
      * cbn in Ht. destruct (_ && _).
        -- destruct pre as [|y pre]; cbn in H; injection H as H0 H; [subst; exists c; cbn; auto|].
           eapply (IH r'); [lia|eauto].
        -- destruct pre as [|y pre]; injection H as H0 H; [subst; exists c; cbn; auto|].
           eapply (IH (d :: r')); [cbn; lia|eauto].
    + destruct (split_lines nl r) as [|l0 ls] eqn:E; [destruct pre as [|? [|]]; discriminate|].
      destruct pre as [|y pre]; cbn in H; injection H as H0 H.
      * destruct (IH r ltac:(lia) [] l0 x post) as (e & He & Hn); [rewrite E; cbn; congruence|].
        exists e. subst l. cbn; auto.
      * subst ls. apply (IH r ltac:(lia) (l0 :: pre) l x post). exact E.
Qed.

Lemma position_meaning t x p s :
  plain t -> client_at t x p s -> to_lsp_position (len8 p) Utf16 t = Some x.
Proof.
  intros Hp (Ht & r & rest & H1 & H2 & H3 & H4). rewrite (plain_lines t Hp) in *.
  destruct x as [i col]. cbn [p_line p_char] in *. subst col.
  apply nth_error_split in H1 as (pre & post & H1 & <-).
  rewrite H1, firstn_pre in H2.
  assert (HL : located t p s pre (r ++ rest) post r rest).
  { repeat split; auto.
    - pose proof (text_pre _ _ _ _ H1) as Ht'. rewrite Ht, H2 in Ht'. rewrite <- !app_assoc in Ht'.
      apply app_inv_head in Ht'. apply app_inv_head in Ht'. exact Ht'.
    - destruct post as [|y post]; [auto|]. left. intros ->.
      destruct (nonlast_has_nl_n is_newline (length t) t (le_n _) pre _ y post H1) as (c & Hc & Hn).
      rewrite app_nil_r in Hc. specialize (H3 c Hc). rewrite Hp in H3; [congruence|].
      rewrite Ht, H2. apply in_or_app; left. apply in_or_app; auto. }
  rewrite (to_lsp_loc Utf16 _ _ _ _ _ _ _ _ HL). reflexivity.
Qed.

Lemma utf8_columns_refuted : exists t o x bl,
  to_lsp_position o Utf8 t = Some x /\
  line_to_byte t (p_line x) = Some bl /\ p_char x <> o - bl.
Proof.
  exists [233; 97]%N, 2, (mkPos 0 1), 0. repeat split; vm_compute; congruence.
Qed.

Lemma ascii_len8 (r : text) : (forall c : char, In c r -> (c < 128)%N) -> len8 r = length r.
Proof.
  induction r as [|c r IH]; intros H; [reflexivity|]. cbn.
  rewrite IH by (intros; apply H; right; auto).
  unfold len8c. specialize (H c (or_introl eq_refl)).
  apply N.ltb_lt in H. rewrite H. reflexivity.
Qed.

Lemma utf8_columns_ascii t p s pre r :
  t = p ++ s -> p = concat pre ++ r ->
  (exists l post, split_lines is_newline t = pre ++ l :: post /\
     (exists rest, l = r ++ rest /\ (rest <> [] \/ post = []))) ->
  (forall c, In c r -> (c < 128)%N) ->
  to_lsp_position (len8 p) Utf8 t = Some (mkPos (length pre) (len8 p - len8 (concat pre))).
Proof.
  intros Ht Hp (l & post & H1 & rest & H2 & H3) Ha.
  assert (HL : located t p s pre l post r rest).
  { repeat split; auto. pose proof (text_pre _ _ _ _ H1) as Ht'.
    rewrite Ht in Ht'. rewrite Hp, H2 in Ht'. rewrite <- !app_assoc in Ht'.
    apply app_inv_head in Ht'. apply app_inv_head in Ht'. exact Ht'. }
  rewrite (to_lsp_loc Utf8 _ _ _ _ _ _ _ _ HL). do 2 f_equal.
  cbv iota. rewrite Hp, len8_app, (ascii_len8 r Ha). lia.
Qed.

Lemma documents_agree evs d' pus :
  client_run (fun _ => None) evs d' pus ->
  exists s', doc_run [] evs = Done (s', pus) /\ (forall p, doc_get p s' = d' p).
Proof.
  apply doc_run_ok. split; [reflexivity|discriminate].
Qed.

Lemma C05_example :
  client_run (fun _ => None)
    [DidOpen 1 [97; 233; 10; 98]%N;
     DidChange 1 [mkChange (Some (mkRange (mkPos 0 1) (mkPos 1 0))) [129402]%N]]
    (cset (cset (fun _ => None) 1 (Some [97; 233; 10; 98]%N)) 1 (Some [97; 129402; 98]%N))
    [PushInsert 1 [97; 233; 10; 98]%N; PushInsert 1 [97; 129402; 98]%N].
Proof.
  eapply CRCons; [|eapply CRCons; [|apply CRNil]].
  - apply CSOpen. intros c Hc. cbn in Hc.
    repeat destruct Hc as [<-|Hc]; [reflexivity..|contradiction].
  - eapply CSChange; [reflexivity| |].
    + eapply CCCons; [|apply CCNil].
      apply (CCRange _ (mkPos 0 1) (mkPos 1 0) [97]%N [233; 10]%N [98]%N [129402]%N).
      * split; [reflexivity|]. exists [97]%N, [233; 10]%N. repeat split.
        intros c [<-|[]]; reflexivity.
      * split; [reflexivity|]. exists [], [98]%N. repeat split. intros c [].
    + intros c [<-|[]] x [<-|[]]; reflexivity.
Qed.

Lemma documents_agree_refuted : exists t c t' t'',
  client_change t c t' /\ apply_change Utf16 t c = Some t'' /\ t' <> t''.
Proof.
  exists [8232; 10; 97]%N, (mkChange (Some (mkRange (mkPos 1 0) (mkPos 1 1))) [98]%N),
    ([8232; 10] ++ [98] ++ [])%N, [8232; 98; 97]%N.
  split; [|split; [vm_compute; reflexivity|discriminate]].
  apply (CCRange _ (mkPos 1 0) (mkPos 1 1) [8232; 10]%N [97]%N [] [98]%N).
  - split; [reflexivity|]. exists [], [97]%N. repeat split. intros c [].
  - split; [reflexivity|]. exists [97]%N, []. repeat split. intros c [<-|[]]; reflexivity.
Qed.

Lemma no_panic_refuted : exists p t c1 c2 c3,
  doc_step Utf16 [(p, t)] (DidChange p [c1]) = Panic /\
  doc_step Utf16 [(p, t)] (DidChange p [c2]) = Panic /\
  doc_step Utf16 [(p, t)] (DidChange p [c3]) = Panic.
Proof.
  exists 0, [97; 10; 129402]%N,
    (mkChange (Some (mkRange (mkPos 0 0) (mkPos 0 9))) []),
    (mkChange (Some (mkRange (mkPos 0 0) (mkPos 1 1))) []),
    (mkChange (Some (mkRange (mkPos 1 0) (mkPos 0 0))) []).
  repeat split; vm_compute; reflexivity.
Qed.

Lemma no_panic_ordered e t r new a b :
  to_typst_range r e t = Some (a, b) -> a <= b ->
  exists p m s, t = p ++ m ++ s /\ a = len8 p /\ b = len8 (p ++ m) /\
    apply_change e t (mkChange (Some r) new) = Some (p ++ new ++ s).
Proof.
  intros Hr Hab. unfold apply_change. cbn [c_range c_text]. rewrite Hr.
  unfold to_typst_range in Hr.
  pose proof (to_typst_cases (r_start r) e t) as Ha.
  destruct (to_typst_position (r_start r) e t) as [a'|]; [|discriminate].
  pose proof (to_typst_cases (r_end r) e t) as Hb.
  destruct (to_typst_position (r_end r) e t) as [b'|]; [|discriminate].
  injection Hr as -> ->. destruct Ha as (p & s & Ht & Ha), Hb as (q & z & Ht' & Hb).
  rewrite Ht in Ht'. destruct (cuts_order _ _ _ _ Ht') as [(m & -> & ->)|(m & -> & ->)].
  - exists p, m, z. subst. repeat split; auto. apply source_edit_cut.
  - assert (m = []) as ->. { apply len8_0. rewrite len8_app in Ha. lia. }
    exists q, [], s. rewrite app_nil_r in *. subst. repeat split; auto.
    pose proof (source_edit_cut q [] s new) as E. rewrite app_nil_r in E. exact E.
Qed.

Lemma column_clamp_refuted :
  (exists t i col o, nth_error (split_lines is_newline t) i = Some [97; 10]%N /\
     to_typst_position (mkPos i col) Utf16 t = Some o /\
     len8 (concat (firstn (i + 1) (split_lines is_newline t))) < o) /\
  (exists t i col, nth_error (split_lines is_newline t) i = Some [97; 10]%N /\
     to_typst_position (mkPos i col) Utf8 t
     = Some (len8 (concat (firstn (i + 1) (split_lines is_newline t))))).
Proof.
  split.
  - exists [97; 10; 98; 99]%N, 0, 3, 3. repeat split; vm_compute; auto.
  - exists [97; 10; 98; 99]%N, 0, 9. repeat split.
Qed.

Lemma column_clamp_last t i col l :
  i + 1 = length (split_lines is_newline t) ->
  nth_error (split_lines is_newline t) i = Some l -> len16 l <= col ->
  to_typst_position (mkPos i col) Utf16 t = Some (len8 t).
Proof.
  intros Hi H Hl. apply nth_error_split in H as (pre & post & H1 & <-).
  rewrite (to_typst_line _ _ _ _ _ _ H1). rewrite H1, app_length in Hi. cbn in Hi.
  destruct post; [|cbn in Hi; lia]. destruct (Nat.ltb_spec col (len16 l)); [lia|]. reflexivity.
Qed.

(** A sample text: "a", e-acute, an emoji, CR LF, "x", LF. *)
Definition sample : text := [97; 233; 129402; 13; 10; 120; 10]%N.

Lemma C01_meaning_example : plain sample /\
  client_at sample (mkPos 1 1) [97; 233; 129402; 13; 10; 120]%N [10]%N.
Proof.
  split.
  - intros c Hc. cbn in Hc. repeat destruct Hc as [<-|Hc]; [reflexivity..|contradiction].
  - split; [reflexivity|]. exists [120]%N, [10]%N. repeat split. intros c [<-|[]]; reflexivity.
Qed.
