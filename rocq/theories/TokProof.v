(** Proofs about semantic tokens. *)
From Coq Require Import List NArith Arith Bool Lia.
From Verif Require Import TextModel TextSpec TextProof TokModel TokSpec.
Import ListNotations.

(** * Decoding *)
Fixpoint endpos (l c : nat) (ts : list stok) : pos :=
  match ts with
  | [] => mkPos l c
  | t :: r => endpos (l + d_line t) (if d_line t =? 0 then c + d_start t else d_start t) r
  end.
Lemma decode_app a : forall l c b, decode_from l c (a ++ b) =
  decode_from l c a ++ decode_from (p_line (endpos l c a)) (p_char (endpos l c a)) b.
Proof. induction a as [|x a IH]; intros l c b; cbn; [reflexivity|]. rewrite IH. reflexivity. Qed.
Lemma endpos_app a : forall l c b, endpos l c (a ++ b) = endpos (p_line (endpos l c a)) (p_char (endpos l c a)) b.
Proof. induction a as [|x a IH]; intros l c b; cbn; [reflexivity|]. apply IH. Qed.

(** * Lengths and lines *)
Lemma wid_0 e f : wid e f = 0 -> f = [].
Proof. destruct e; [apply len8_0|apply len16_0]. Qed.
Lemma wid_pos e f : f <> [] -> 0 < wid e f.
Proof. intros H. destruct (wid e f) eqn:E; [|lia]. apply wid_0 in E. contradiction. Qed.
Lemma len8_pos f : f <> [] -> 0 < len8 f.
Proof. apply (wid_pos Utf8). Qed.
Lemma encode_prefix e t p f z : t = p ++ f ++ z -> encode_length e t (len8 p) (len8 (p ++ f)) = Some (wid e f).
Proof.
  intros H. destruct e; cbn.
  - unfold sub. rewrite len8_app. destruct (Nat.leb_spec (len8 p) (len8 p + len8 f)); [|lia]. f_equal. lia.
  - rewrite (byte_to_utf16_prefix t p (f ++ z)) by auto.
    rewrite (byte_to_utf16_prefix t (p ++ f) z) by now rewrite <- app_assoc.
    unfold sub. rewrite len16_app. destruct (Nat.leb_spec (len16 p) (len16 p + len16 f)); [|lia]. f_equal. lia.
Qed.
Lemma filter_le_mono (f g : line -> bool) l : (forall x, f x = true -> g x = true) -> length (filter f l) <= length (filter g l).
Proof.
  intros H. induction l as [|x l IH]; cbn; auto. destruct (f x) eqn:F.
  - rewrite (H x F). cbn. lia.
  - destruct (g x); cbn; lia.
Qed.
Lemma byte_to_line_mono t a b x y : a <= b -> byte_to_line t a = Some x -> byte_to_line t b = Some y -> x <= y.
Proof.
  unfold byte_to_line. destruct (a <=? len8 t); [|discriminate]. destruct (b <=? len8 t); [|discriminate].
  intros H X Y. injection X as <-. injection Y as <-. unfold search_line, count_le.
  assert (L : length (filter (fun l => l_byte l <=? a) (lines t)) <= length (filter (fun l => l_byte l <=? b) (lines t))).
  { apply filter_le_mono. intros l E. apply Nat.leb_le in E. apply Nat.leb_le. lia. }
  lia.
Qed.
Lemma nonlast_mid pre l l2 post : nonlast (pre ++ l :: l2 :: post) -> l <> [].
Proof.
  induction pre as [|x pre IH]; [cbn; tauto|]. intros N. apply IH.
  destruct pre; [cbn in *; tauto|]. cbn [app] in *. destruct N as [_ N]. exact N.
Qed.
(** The start of a line that exists. *)
Lemma located_start t pre l post : tl_ t = pre ++ l :: post -> located t (concat pre) (l ++ concat post) pre l post [] l.
Proof.
  intros H. unfold located. rewrite app_nil_r. split; [auto|]. split; [auto|]. split; [auto|]. split; [auto|].
  destruct post as [|l2 post]; auto. left. pose proof (split_lines_nonlast is_newline t) as N. rewrite H in N.
  exact (nonlast_mid _ _ _ _ N).
Qed.
(** Where a piece starting inside a line ends. *)
Lemma piece_cases (m z rest : text) (post : list text) : m ++ z = rest ++ concat post ->
  (exists rest', rest = m ++ rest' /\ z = rest' ++ concat post /\ (rest' <> [] \/ post = [])) \/
  (exists m1 l2 post2, m = rest ++ m1 /\ post = l2 :: post2 /\ m1 ++ z = l2 ++ concat post2).
Proof.
  intros H. destruct (cuts_order _ _ _ _ H) as [(x & E1 & E2)|(x & E1 & E2)].
  - destruct x as [|c x].
    + rewrite app_nil_r in E1. subst rest. cbn in E2. destruct post as [|l2 post2].
      * left. exists []. rewrite app_nil_r. auto.
      * right. exists [], l2, post2. rewrite app_nil_r. split; auto.
    + left. exists (c :: x). split; auto. split; auto. left. discriminate.
  - destruct post as [|l2 post2].
    + cbn in E2. symmetry in E2. apply app_eq_nil in E2. destruct E2 as [-> ->]. rewrite app_nil_r in E1. subst m.
      left. exists []. rewrite app_nil_r. auto.
    + right. exists x, l2, post2. cbn in E2. auto.
Qed.

(** * Fragments *)
Lemma fragments_app e t fs : forall before ts fs' ts', fragments e t before fs ts ->
  fragments e t (before ++ concat (map fst fs)) fs' ts' -> fragments e t before (fs ++ fs') (ts ++ ts').
Proof.
  induction fs as [|[f lab] fs IH]; intros before ts fs' ts' H H'; destruct ts as [|a ts]; cbn in *; try tauto.
  - rewrite app_nil_r in H'. exact H'.
  - destruct H as [A B]. split; auto. apply IH; auto. rewrite <- app_assoc. exact H'.
Qed.
Lemma labels_app a b : labels (a ++ b) = labels a ++ labels b.
Proof. apply flat_map_app. Qed.

Lemma spread_spec e t ty md fin fend post : forall pre l m z n ch s,
  tl_ t = pre ++ l :: post -> m ++ z = l ++ concat post -> 0 < length pre ->
  fend = len8 (concat pre ++ m) -> byte_to_line t fend = Some fin ->
  n = S fin - length pre ->
  endpos 0 0 (p_out s) = mkPos (length pre - 1) ch ->
  p_char (p_curr s) = ch ->
  exists d s' new fs,
    spread e t ty md fin fend n (length pre) (len8 (concat pre)) 0 s = Some (d, s') /\
    p_out s' = p_out s ++ new /\
    fragments e t (concat pre) fs (decode_from (length pre - 1) ch new) /\
    concat (map fst fs) = m /\ labels fs = repeat (ty, md) (length m) /\
    endpos 0 0 (p_out s') = mkPos (fin - d) (p_char (p_curr s')) /\
    len8 (concat pre) <= p_off s' <= fend /\
    length pre <= fin /\
    exists pre' l' post' r' rest', located t (concat pre ++ m) z pre' l' post' r' rest' /\ fin = length pre' /\
      ((d = 0 /\ p_char (p_curr s') = 0) \/ (d = 1 /\ r' = [])).
Proof.
  induction post as [|l0 post0 IHp]; intros pre l m z n ch s HT HM HP HF HB HN HE HC.
  all: pose proof (text_pre _ _ _ _ HT) as TT.
  all: destruct (piece_cases _ _ _ _ HM) as [(rest' & E1 & E2 & E3)|(m1 & l2 & post2 & E1 & E2 & E3)]; [|try discriminate E2].
  1, 2: assert (HL : located t (concat pre ++ m) z pre l _ m rest')
      by (unfold located; repeat split; [exact HT|exact E1|exact E2|exact E3]).
  1, 2: pose proof (byte_to_line_loc _ _ _ _ _ _ _ _ HL) as HB2; rewrite <- HF, HB in HB2; injection HB2 as HB2.
  1, 2: replace (S fin - length pre) with 1 in HN by lia; subst n; cbn [spread]; rewrite <- HB2, Nat.eqb_refl.
  1, 2: destruct m as [|c m].
  1, 3: rewrite app_nil_r in HF, HL |- *; rewrite HF, Nat.ltb_irrefl; eexists; eexists; exists [], [];
      (split; [reflexivity|]); cbn [p_out p_off p_curr]; rewrite app_nil_r;
      (split; [reflexivity|]); (split; [exact I|]); (split; [reflexivity|]); (split; [reflexivity|]);
      (split; [rewrite HE, HC, HB2; reflexivity|]); (split; [lia|]); (split; [lia|]);
      exists pre, l; eexists; exists [], rest'; (split; [exact HL|]); (split; [exact HB2|]); right; auto.
  1, 2: assert (LT : len8 (concat pre) <? fend = true)
      by (apply Nat.ltb_lt; rewrite HF, len8_app; pose proof (len8_pos (c :: m)); assert (c :: m <> []) by discriminate; intuition lia).
  1, 2: rewrite LT, HF.
  1, 2: rewrite (encode_prefix e t (concat pre) (c :: m) z)
      by (rewrite HM; exact TT).
  1, 2: eexists; eexists; exists [mkStok 1 0 (wid e (c :: m)) ty md], [(c :: m, (ty, md))];
      (split; [reflexivity|]); cbn [p_out p_off p_curr p_char];
      (split; [reflexivity|]);
      (split; [cbn [fragments decode_from d_line d_start d_len d_ty d_md Nat.eqb]; split; [|exact I];
               split; [discriminate|]; exists pre, l; eexists; exists [], rest';
               (split; [exact HT|]); (split; [exact E1|]); (split; [now rewrite app_nil_r|]);
               f_equal; [lia|destruct e; reflexivity]|]);
      (split; [cbn; now rewrite app_nil_r|]); (split; [cbn; now rewrite app_nil_r|]);
      (split; [rewrite endpos_app, HE; cbn; f_equal; lia|]);
      (split; [rewrite len8_app; lia|]); (split; [lia|]);
      exists pre, l; eexists; exists (c :: m), rest'; (split; [exact HL|]); (split; [exact HB2|]); left; auto.
  (* the piece goes on on the next line *)
  injection E2 as -> ->.
  assert (HT' : tl_ t = (pre ++ [l]) ++ l2 :: post2) by (rewrite <- app_assoc; exact HT).
  assert (CC : concat (pre ++ [l]) = concat pre ++ l) by (rewrite concat_app; cbn; now rewrite app_nil_r).
  assert (LE : length (pre ++ [l]) = S (length pre)) by (rewrite app_length; cbn; lia).
  assert (GE : S (length pre) <= fin).
  { rewrite <- LE. apply (byte_to_line_mono t (len8 (concat (pre ++ [l]))) fend); auto.
    - rewrite HF, CC, E1, !len8_app. lia.
    - exact (byte_to_line_loc _ _ _ _ _ _ _ _ (located_start _ _ _ _ HT')). }
  assert (NL : l <> []).
  { destruct (located_start _ _ _ _ HT) as (_ & _ & _ & _ & [H|H]); [exact H|discriminate]. }
  replace n with (S (S fin - S (length pre))) by lia. cbn [spread].
  replace (length pre =? fin) with false by (symmetry; apply Nat.eqb_neq; lia).
  unfold line_end. rewrite (line_to_byte_next _ _ _ _ HT).
  assert (LT : len8 (concat pre) <? len8 (concat pre) + len8 l = true)
    by (apply Nat.ltb_lt; pose proof (len8_pos l NL); lia).
  rewrite LT, <- len8_app.
  rewrite (encode_prefix e t (concat pre) l (l2 ++ concat post2)) by exact TT.
  set (s1 := mkPst (mkPos (p_line (p_curr s)) 0) (len8 (concat pre)) (p_out s ++ [mkStok (0 + 1) 0 (wid e l) ty md])).
  destruct (IHp (pre ++ [l]) l2 m1 z (S fin - S (length pre)) 0 s1) as (d & s' & new & fs & R1 & R2 & R3 & R4 & R5 & R6 & R7 & R8 & R9); auto.
  - lia.
  - rewrite HF, CC, E1, <- app_assoc. reflexivity.
  - unfold s1. cbn [p_out]. rewrite endpos_app, HE. cbn. rewrite LE. f_equal. lia.
  - rewrite LE, CC in R1. exists d, s', (mkStok (0 + 1) 0 (wid e l) ty md :: new), ((l, (ty, md)) :: fs).
    split; [exact R1|]. split; [rewrite R2; unfold s1; cbn [p_out]; now rewrite <- app_assoc|].
    split.
    { cbn [fragments decode_from d_line d_start d_len d_ty d_md Nat.eqb]. split.
      - split; [exact NL|]. exists pre, l, (l2 :: post2), [], []. split; [exact HT|]. split; [now rewrite app_nil_r|].
        split; [now rewrite app_nil_r|]. f_equal; [lia|destruct e; reflexivity].
      - rewrite CC, LE in R3. cbn [Nat.add Nat.eqb].
        replace (length pre - 1 + 1) with (S (length pre) - 1) by lia. exact R3. }
    split; [cbn [map fst concat]; rewrite R4; auto|].
    split; [unfold labels in *; cbn [flat_map fst snd]; rewrite R5, E1, app_length, repeat_app; reflexivity|].
    split; [exact R6|]. split; [rewrite CC, len8_app in R7; lia|]. split; [lia|].
    destruct R9 as (pre' & l' & post' & r' & rest' & L & R9). exists pre', l', post', r', rest'.
    split; [|exact R9]. rewrite CC, <- app_assoc in L. rewrite E1. exact L.
Qed.

(** * Pushing pieces in order *)
Lemma rev_case {A} (l : list A) : l = [] \/ exists a x, l = a ++ [x].
Proof. induction l as [|x a _] using rev_ind; eauto. Qed.
(** The state fits a position: nothing was pushed behind it. *)
Definition behind (multi : bool) (e : encoding) (c : pos) (n : nat) (r : text) : Prop :=
  if multi then p_line c < n \/ p_line c = n /\ p_char c <= col e r
  else (p_line c = n /\ p_char c <= col e r) \/ (S (p_line c) = n /\ r = []).
Definition Inv (multi : bool) (e : encoding) (t P : text) (s : pst) : Prop :=
  endpos 0 0 (p_out s) = p_curr s /\ p_off s <= len8 P /\
  exists Z pre l post r rest, located t P Z pre l post r rest /\ behind multi e (p_curr s) (length pre) r.
Lemma Inv0 multi e t : Inv multi e t [] pst0.
Proof.
  split; [reflexivity|]. split; [cbn; lia|].
  destruct (located_ex t [] t eq_refl) as (pre & l & post & r & rest & L). exists t, pre, l, post, r, rest. split; auto.
  pose proof L as (_ & E & _). symmetry in E. apply app_eq_nil in E. destruct E as [E ->].
  destruct pre as [|x pre].
  - destruct multi; cbn; [right|left]; auto with arith.
  - exfalso. pose proof L as (H & _). pose proof (split_lines_nonlast is_newline t) as N. rewrite H in N.
    destruct pre; cbn in N, E; apply app_eq_nil in E; tauto.
Qed.
Lemma app_same_length {A} (a : list A) : forall x b a2 y b2, a ++ x :: b = a2 ++ y :: b2 -> length a = length a2 -> a = a2 /\ x = y.
Proof.
  induction a as [|u a IH]; intros x b [|v a2] y b2 H E; cbn in *; try discriminate.
  - injection H as -> _. auto.
  - injection H as -> H. injection E as E. destruct (IH _ _ _ _ _ H E) as [-> ->]. auto.
Qed.
(** Positions grow with the text before them. *)
Lemma cut_order_pos e t p s g z pre l post r rest pre2 l2 post2 r2 rest2 :
  located t p s pre l post r rest -> located t (p ++ g) z pre2 l2 post2 r2 rest2 ->
  length pre < length pre2 \/ length pre = length pre2 /\ col e r <= col e r2.
Proof.
  intros L1 L2. pose proof (located_text _ _ _ _ _ _ _ _ L1) as T1. pose proof (located_text _ _ _ _ _ _ _ _ L2) as T2.
  assert (LE : length pre <= length pre2).
  { apply (byte_to_line_mono t (len8 p) (len8 (p ++ g))).
    - rewrite len8_app. lia.
    - exact (byte_to_line_loc _ _ _ _ _ _ _ _ L1).
    - exact (byte_to_line_loc _ _ _ _ _ _ _ _ L2). }
  destruct (Nat.eq_dec (length pre) (length pre2)) as [E|E]; [right|left; lia]. split; auto.
  destruct L1 as (A1 & A2 & _). destruct L2 as (B1 & B2 & _). rewrite A1 in B1.
  assert (pre = pre2 /\ l = l2) as [-> _].
  { exact (app_same_length _ _ _ _ _ _ B1 E). }
  rewrite A2, <- app_assoc in B2. apply app_inv_head in B2. subst r2. destruct e; cbn; [rewrite app_length|rewrite len16_app]; lia.
Qed.
Lemma located_same e t p s z pre l post r rest pre2 l2 post2 r2 rest2 :
  located t p s pre l post r rest -> located t p z pre2 l2 post2 r2 rest2 -> length pre = length pre2 /\ col e r = col e r2.
Proof.
  intros L1 L2. pose proof (to_lsp_loc e _ _ _ _ _ _ _ _ L1) as E1. rewrite (to_lsp_loc e _ _ _ _ _ _ _ _ L2) in E1.
  destruct e; injection E1 as E1 E2; cbn; auto.
Qed.
Lemma delta_fwd c q : p_line c < p_line q \/ p_line c = p_line q /\ p_char c <= p_char q ->
  exists dl dc, delta c q = Some (dl, dc) /\ p_line c + dl = p_line q /\ (if dl =? 0 then p_char c + dc else dc) = p_char q.
Proof.
  intros H. unfold delta, sub. destruct (Nat.leb_spec (p_line c) (p_line q)); [|lia].
  destruct (p_line q - p_line c) as [|d] eqn:E.
  - destruct (Nat.leb_spec (p_char c) (p_char q)); [|lia]. exists 0, (p_char q - p_char c). cbn. split; auto. lia.
  - exists (S d), (p_char q). cbn. split; auto. lia.
Qed.
Lemma behind_fwd multi e c n r : behind multi e c n r -> p_line c < n \/ p_line c = n /\ p_char c <= col e r.
Proof. destruct multi; cbn; [auto|]. intros [H|[H _]]; [auto|lia]. Qed.

(** In multi-line mode gaps are fine. *)
Lemma Inv_gap e t P g z s : Inv true e t P s -> t = P ++ g ++ z -> Inv true e t (P ++ g) s.
Proof.
  intros (E & O & Z & pre & l & post & r & rest & L & B) T. split; auto. split; [rewrite len8_app; lia|].
  destruct (located_ex t (P ++ g) z) as (pre2 & l2 & post2 & r2 & rest2 & L2); [now rewrite <- app_assoc|].
  exists z, pre2, l2, post2, r2, rest2. split; auto.
  destruct (cut_order_pos e _ _ _ _ _ _ _ _ _ _ _ _ _ _ _ L L2); cbn in *; lia.
Qed.

Lemma push_guards t P m z s : t = P ++ m ++ z -> m <> [] -> p_off s <= len8 P ->
  (len8 P <? p_off s) = false /\ Nat.min (len8 P + len8 m) (len8 t) = len8 (P ++ m) /\
  (len8 (P ++ m) <=? len8 P) || (len8 t <? len8 P) = false.
Proof.
  intros -> M O. rewrite !len8_app. pose proof (len8_pos m M).
  split; [apply Nat.ltb_ge; lia|]. split; [lia|].
  apply orb_false_iff. split; [apply Nat.leb_gt|apply Nat.ltb_ge]; lia.
Qed.

(** The token of the piece [m] after [P] in multi-line mode. *)
Lemma push_multi e t P m z ty md s : Inv true e t P s -> t = P ++ m ++ z -> m <> [] ->
  exists s' q dl dc, push e t true (mkTok ty md (len8 P) (len8 P + len8 m)) s = Some s' /\
    to_lsp_position (len8 P) e t = Some q /\
    p_out s' = p_out s ++ [mkStok dl dc (wid e m) ty md] /\
    p_line (p_curr s) + dl = p_line q /\ (if dl =? 0 then p_char (p_curr s) + dc else dc) = p_char q /\
    p_curr s' = q /\ Inv true e t (P ++ m) s' /\ p_off s' = len8 P.
Proof.
  intros HI T M. pose proof HI as (E & O & Z & pre & l & post & r & rest & L & B).
  destruct (push_guards t P m z s T M O) as (G1 & G2 & G3).
  unfold push. cbn [k_start k_end k_ty k_md]. rewrite G1, G2, G3.
  pose proof (to_lsp_loc e _ _ _ _ _ _ _ _ L) as Q.
  replace (match e with Utf8 => length r | Utf16 => len16 r end) with (col e r) in Q by (destruct e; reflexivity).
  rewrite Q. destruct (delta_fwd (p_curr s) (mkPos (length pre) (col e r)) (behind_fwd _ _ _ _ _ B)) as (dl & dc & D & D1 & D2).
  rewrite D, (encode_prefix e t P m z T).
  exists (mkPst (mkPos (length pre) (col e r)) (len8 P) (p_out s ++ [mkStok dl dc (wid e m) ty md])), (mkPos (length pre) (col e r)), dl, dc.
  split; [reflexivity|]. split; [reflexivity|]. split; [reflexivity|]. split; [exact D1|]. split; [exact D2|]. split; [reflexivity|].
  split; [|reflexivity].
  apply Inv_gap with (z := z); auto.
  split.
  - cbn [p_out p_curr]. rewrite endpos_app, E. cbn [endpos d_line d_start]. rewrite D1, D2. reflexivity.
  - split; [cbn; lia|]. exists Z, pre, l, post, r, rest. split; auto. cbn. auto.
Qed.

(** The tokens of the piece [m] after [P] with one line per token. *)
Lemma push_single e t P m z ty md s : Inv false e t P s -> t = P ++ m ++ z -> m <> [] ->
  exists s' new fs, push e t false (mkTok ty md (len8 P) (len8 P + len8 m)) s = Some s' /\
    p_out s' = p_out s ++ new /\
    fragments e t P fs (decode_from (p_line (p_curr s)) (p_char (p_curr s)) new) /\
    concat (map fst fs) = m /\ labels fs = repeat (ty, md) (length m) /\
    Inv false e t (P ++ m) s' /\ len8 P <= p_off s'.
Proof.
  intros HI T M. pose proof HI as (E & O & Z & pre & l & post & r & rest & L & B).
  destruct (push_guards t P m z s T M O) as (G1 & G2 & G3).
  unfold push. cbn [k_start k_end k_ty k_md]. rewrite G1, G2, G3.
  pose proof (to_lsp_loc e _ _ _ _ _ _ _ _ L) as Q.
  replace (match e with Utf8 => length r | Utf16 => len16 r end) with (col e r) in Q by (destruct e; reflexivity).
  rewrite Q. destruct (delta_fwd (p_curr s) (mkPos (length pre) (col e r)) (behind_fwd _ _ _ _ _ B)) as (dl & dc & D & D1 & D2).
  rewrite D. cbn [p_line p_char] in D1, D2.
  destruct (located_ex t (P ++ m) z) as (pre9 & l9 & post9 & r9 & rest9 & L9); [now rewrite <- app_assoc|].
  rewrite (byte_to_line_loc _ _ _ _ _ _ _ _ L9).
  pose proof L as (H1 & H2 & H3 & H4 & H5).
  assert (MZ : m ++ z = rest ++ concat post).
  { pose proof (located_text _ _ _ _ _ _ _ _ L) as T2. rewrite T in T2. apply app_inv_head in T2. congruence. }
  destruct B as [[B1 B2]|[B1 B2]].
  - (* on the line of the last token *)
    unfold line_end. rewrite B1, (line_to_byte_next _ _ _ _ H1).
    assert (D0 : dl = 0) by lia. subst dl. cbn [Nat.eqb] in D2.
    destruct (piece_cases _ _ _ _ MZ) as [(rest' & E1 & E2 & E3)|(m1 & l2 & post2 & E1 & E2 & E3)].
    + assert (L8 : located t (P ++ m) z pre l post (r ++ m) rest').
      { unfold located. split; [exact H1|]. split; [rewrite H2, <- app_assoc; reflexivity|].
        split; [rewrite H3, E1, <- app_assoc; reflexivity|]. auto. }
      destruct (located_same e _ _ _ _ _ _ _ _ _ _ _ _ _ _ L8 L9) as [LE _]. rewrite <- LE.
      assert (MIN : Nat.min (len8 (P ++ m)) (len8 (concat pre) + len8 l) = len8 (P ++ m)).
      { apply Nat.min_l. rewrite H2, H3, E1, !len8_app. lia. }
      rewrite MIN, (encode_prefix e t P m z T). pose proof (wid_pos e m M) as W.
      replace (wid e m =? 0) with false by (symmetry; apply Nat.eqb_neq; lia). cbn [p_curr p_line]. rewrite Nat.leb_refl.
      eexists. exists [mkStok 0 dc (wid e m) ty md], [(m, (ty, md))]. split; [reflexivity|]. split; [reflexivity|].
      split.
      { cbn [fragments decode_from d_line d_start d_len d_ty d_md Nat.eqb]. split; [|exact I]. split; [exact M|].
        exists pre, l, post, r, rest'. split; [exact H1|]. split; [rewrite H3, E1; reflexivity|]. split; [exact H2|].
        cbn [fst snd]. f_equal; lia. }
      split; [cbn; now rewrite app_nil_r|]. split; [cbn; now rewrite app_nil_r|]. split; [|cbn; lia].
      split; [cbn [p_out p_curr]; rewrite endpos_app, E; cbn [endpos d_line d_start Nat.eqb]; f_equal; lia|].
      split; [cbn; rewrite len8_app; lia|]. exists z, pre, l, post, (r ++ m), rest'. split; [exact L8|]. left. cbn. split; auto.
      destruct e; cbn; [rewrite app_length|rewrite len16_app]; lia.
    + (* the piece goes on on the next line *)
      subst post. assert (R : rest <> []) by (destruct H5; [auto|discriminate]).
      assert (HT' : tl_ t = (pre ++ [l]) ++ l2 :: post2) by (rewrite <- app_assoc; exact H1).
      assert (CC : concat (pre ++ [l]) = concat pre ++ l) by (rewrite concat_app; cbn; now rewrite app_nil_r).
      assert (LE : length (pre ++ [l]) = S (length pre)) by (rewrite app_length; cbn; lia).
      assert (PR : P ++ rest = concat (pre ++ [l])) by (rewrite CC, H3, H2, <- app_assoc; reflexivity).
      assert (MIN : Nat.min (len8 (P ++ m)) (len8 (concat pre) + len8 l) = len8 (P ++ rest)).
      { rewrite PR, CC, !len8_app. apply Nat.min_r. rewrite H2, H3, E1, !len8_app. lia. }
      rewrite MIN, (encode_prefix e t P rest (m1 ++ z)) by (rewrite T, E1, <- !app_assoc; reflexivity).
      pose proof (wid_pos e rest R) as W.
      replace (wid e rest =? 0) with false by (symmetry; apply Nat.eqb_neq; lia). cbn [p_curr p_line].
      set (s2 := mkPst (mkPos (length pre) (col e r)) (len8 P) (p_out s ++ [mkStok 0 dc (wid e rest) ty md])).
      assert (E2 : endpos 0 0 (p_out s2) = mkPos (length (pre ++ [l]) - 1) (col e r)).
      { unfold s2. cbn [p_out]. rewrite endpos_app, E. cbn [endpos d_line d_start Nat.eqb]. f_equal; lia. }
      assert (PM : P ++ m = concat (pre ++ [l]) ++ m1) by (rewrite <- PR, E1, <- app_assoc; reflexivity).
      destruct (spread_spec e t ty md (length pre9) (len8 (P ++ m)) post2 (pre ++ [l]) l2 m1 z (S (length pre9) - length (pre ++ [l])) (col e r) s2)
        as (d & s' & new & fs & R1 & R2 & R3 & R4 & R5 & R6 & R7 & R8 & R9); auto.
      { rewrite LE. lia. } { now rewrite PM. } { exact (byte_to_line_loc _ _ _ _ _ _ _ _ L9). }
      rewrite LE in R8. destruct (Nat.leb_spec (length pre9) (length pre)) as [X|_]; [lia|].
      replace (length pre9 - length pre) with (S (length pre9) - length (pre ++ [l])) by lia.
      replace (len8 (concat pre) + len8 l) with (len8 (concat (pre ++ [l]))) by (rewrite CC, len8_app; reflexivity).
      rewrite <- LE, R1.
      eexists. exists (mkStok 0 dc (wid e rest) ty md :: new), ((rest, (ty, md)) :: fs).
      split; [reflexivity|]. cbn [p_out p_off]. split; [rewrite R2; unfold s2; cbn [p_out]; now rewrite <- app_assoc|].
      split.
      { cbn [fragments decode_from d_line d_start d_len d_ty d_md Nat.eqb]. split.
        - split; [exact R|]. exists pre, l, (l2 :: post2), r, []. split; [exact H1|]. split; [rewrite H3, app_nil_r; reflexivity|].
          split; [exact H2|]. cbn [fst snd]. f_equal; lia.
        - rewrite PR. replace (length pre + 0) with (length (pre ++ [l]) - 1) by lia.
          replace (p_char (p_curr s) + dc) with (col e r) by lia. exact R3. }
      split; [cbn [map fst concat]; rewrite R4; auto|].
      split; [unfold labels in *; cbn [flat_map fst snd]; rewrite R5, E1, app_length, repeat_app; reflexivity|].
      split; [|rewrite <- PR, len8_app in R7; lia].
      split; [cbn [p_out p_curr]; exact R6|]. split; [cbn; lia|].
      destruct R9 as (pre' & l' & post' & r' & rest' & L' & F' & R9). exists z, pre', l', post', r', rest'.
      split; [rewrite PM; exact L'|]. cbn [behind p_curr p_line p_char].
      destruct R9 as [[-> ->]|[-> ->]]; [left; split; lia|right; split; [lia|reflexivity]].
  - (* at the start of the line after the last token *)
    subst r. cbn [app] in H3. subst l. rewrite app_nil_r in H2.
    destruct (rev_case pre) as [->|(pre0 & l0 & ->)].
    { cbn in B1. lia. }
    assert (LE : length (pre0 ++ [l0]) = S (length pre0)) by (rewrite app_length; cbn; lia).
    assert (CL : p_line (p_curr s) = length pre0) by lia.
    assert (NX : line_end t (p_line (p_curr s)) = len8 P).
    { unfold line_end. rewrite CL, (line_to_byte_next t pre0 l0 (rest :: post)) by (rewrite H1, <- app_assoc; reflexivity).
      rewrite H2, concat_app. cbn. rewrite app_nil_r, len8_app. reflexivity. }
    rewrite NX.
    assert (MIN : Nat.min (len8 (P ++ m)) (len8 P) = len8 (P ++ [])) by (rewrite app_nil_r, len8_app; lia).
    rewrite MIN, (encode_prefix e t P [] (m ++ z) T). replace (wid e [] =? 0) with true by (destruct e; reflexivity).
    cbn [p_curr].
    set (s2 := mkPst (p_curr s) (len8 P) (p_out s)).
    destruct (spread_spec e t ty md (length pre9) (len8 (P ++ m)) post (pre0 ++ [l0]) rest m z (S (length pre9) - length (pre0 ++ [l0])) (p_char (p_curr s)) s2)
      as (d & s' & new & fs & R1 & R2 & R3 & R4 & R5 & R6 & R7 & R8 & R9); auto.
    { lia. } { now rewrite <- H2. } { exact (byte_to_line_loc _ _ _ _ _ _ _ _ L9). }
    { unfold s2. cbn [p_out]. rewrite E. destruct (p_curr s) as [cl cc]. cbn in *. f_equal. lia. }
    rewrite LE in R8. destruct (Nat.leb_spec (length pre9) (p_line (p_curr s))) as [X|_]; [lia|].
    replace (length pre9 - p_line (p_curr s)) with (S (length pre9) - length (pre0 ++ [l0])) by lia.
    rewrite <- H2 in R1, R3, R7. rewrite B1, R1.
    eexists. exists new, fs. split; [reflexivity|]. cbn [p_out p_off]. split; [rewrite R2; reflexivity|].
    split.
    { replace (p_line (p_curr s)) with (length (pre0 ++ [l0]) - 1) by lia. exact R3. }
    split; [exact R4|]. split; [exact R5|]. split; [|lia].
    split; [cbn [p_out p_curr]; exact R6|]. split; [cbn; lia|].
    destruct R9 as (pre' & l' & post' & r' & rest' & L' & F' & R9). exists z, pre', l', post', r', rest'.
    split; [rewrite H2; exact L'|]. cbn [behind p_curr p_line p_char].
    destruct R9 as [[-> ->]|[-> ->]]; [left; split; lia|right; split; [lia|reflexivity]].
Qed.

(** * Sequences of pieces *)
Definition full (ps : list (text * label)) : Prop := forall x, In x ps -> fst x <> [].
Lemma push_any multi e t P m z ty md s : Inv multi e t P s -> t = P ++ m ++ z -> m <> [] ->
  exists s', push e t multi (mkTok ty md (len8 P) (len8 P + len8 m)) s = Some s' /\
    Inv multi e t (P ++ m) s' /\ len8 P <= p_off s'.
Proof.
  intros HI T M. destruct multi.
  - destruct (push_multi e t P m z ty md s HI T M) as (s' & q & dl & dc & A & _ & _ & _ & _ & _ & B & C).
    exists s'. split; auto. split; auto. lia.
  - destruct (push_single e t P m z ty md s HI T M) as (s' & new & fs & A & _ & _ & _ & _ & B & C). eauto.
Qed.
Lemma push_all_any multi e t ps : forall P z s, Inv multi e t P s -> t = P ++ concat (map fst ps) ++ z -> full ps ->
  exists s', push_all e t multi (toks (len8 P) ps) s = Some s' /\ Inv multi e t (P ++ concat (map fst ps)) s' /\
    p_off s <= p_off s' /\ (1 <= length ps -> len8 P <= p_off s') /\ (2 <= length ps -> len8 P < p_off s').
Proof.
  induction ps as [|[m [ty md]] ps IH]; intros P z s HI T F; cbn [toks push_all map fst concat].
  - exists s. rewrite app_nil_r. split; auto. split; auto. split; auto. cbn. split; lia.
  - cbn [map fst concat] in T. rewrite <- app_assoc in T.
    assert (M : m <> []) by apply (F (m, (ty, md))), in_eq.
    destruct (push_any multi e t P m (concat (map fst ps) ++ z) ty md s HI T M) as (s1 & A & B & C).
    rewrite A, <- len8_app.
    destruct (IH (P ++ m) z s1 B) as (s' & A2 & B2 & C2 & D2 & E2).
    + rewrite <- app_assoc. exact T.
    + intros x X. apply F. right. exact X.
    + exists s'. rewrite app_assoc. split; auto. split; auto.
      pose proof HI as (_ & O & _). split; [lia|]. split; [lia|]. cbn [length]. intros X.
      rewrite len8_app in D2. pose proof (len8_pos m M). lia.
Qed.
Lemma push_all_app e t multi a : forall b s, push_all e t multi (a ++ b) s =
  match push_all e t multi a s with None => None | Some s1 => push_all e t multi b s1 end.
Proof. induction a as [|k a IH]; intros b s; cbn; [reflexivity|]. destruct (push e t multi k s); auto. Qed.
Lemma toks_app a : forall o b, toks o (a ++ b) = toks o a ++ toks (o + len8 (concat (map fst a))) b.
Proof.
  induction a as [|[f [ty md]] a IH]; intros o b; cbn.
  - rewrite Nat.add_0_r. reflexivity.
  - rewrite IH, len8_app, Nat.add_assoc. reflexivity.
Qed.
Lemma pieces_single e t ps : forall P z s, Inv false e t P s -> t = P ++ concat (map fst ps) ++ z -> full ps ->
  exists s' new fs, push_all e t false (toks (len8 P) ps) s = Some s' /\ p_out s' = p_out s ++ new /\
    fragments e t P fs (decode_from (p_line (p_curr s)) (p_char (p_curr s)) new) /\
    concat (map fst fs) = concat (map fst ps) /\ labels fs = labels ps.
Proof.
  induction ps as [|[m [ty md]] ps IH]; intros P z s HI T F; cbn [toks push_all map fst concat].
  - exists s, [], []. rewrite app_nil_r. split; [reflexivity|]. split; [reflexivity|]. split; [exact I|]. auto.
  - cbn [map fst concat] in T. rewrite <- app_assoc in T.
    assert (M : m <> []) by apply (F (m, (ty, md))), in_eq.
    destruct (push_single e t P m (concat (map fst ps) ++ z) ty md s HI T M) as (s1 & new & fs & A1 & A2 & A3 & A4 & A5 & A6 & _).
    rewrite A1, <- len8_app.
    destruct (IH (P ++ m) z s1 A6) as (s' & new' & fs' & B1 & B2 & B3 & B4 & B5).
    + rewrite <- app_assoc. exact T.
    + intros x X. apply F. right. exact X.
    + exists s', (new ++ new'), (fs ++ fs'). split; auto. split; [now rewrite B2, A2, <- app_assoc|].
      split.
      { rewrite decode_app. apply fragments_app; auto. rewrite A4.
        assert (X : endpos (p_line (p_curr s)) (p_char (p_curr s)) new = p_curr s1).
        { destruct A6 as (X & _). rewrite A2, endpos_app in X. destruct HI as (Y & _). rewrite Y in X. exact X. }
        rewrite X. exact B3. }
      split; [rewrite map_app, concat_app, A4, B4; reflexivity|].
      rewrite labels_app, A5, B5. reflexivity.
Qed.

(** * Overlaps *)
Lemma fragments_disjoint e t fs : (forall f, In f (map fst fs) -> wid e f = col e f) ->
  forall before ts, fragments e t before fs ts -> disjoint ts.
Proof.
  induction fs as [|[f lab] fs IH]; intros W before ts F; destruct ts as [|a ts]; cbn in F; try tauto.
  destruct F as [A F]. destruct ts as [|b ts]; [exact I|]. destruct fs as [|[f2 lab2] fs]; [destruct F|].
  split.
  - destruct F as [(B0 & pre2 & l2 & post2 & r2 & rest2 & B1 & B2 & B3 & ->) _].
    destruct A as (A0 & pre & l & post & r & rest & A1 & A2 & A3 & ->). cbn.
    assert (L2 : located t (before ++ f) ((f2 ++ rest2) ++ concat post2) pre2 l2 post2 r2 (f2 ++ rest2)).
    { unfold located. repeat (split; [assumption || reflexivity|]). left. intros X. apply app_eq_nil in X. tauto. }
    assert (X : (rest <> [] \/ post = []) \/ (rest = [] /\ exists l3 post3, post = l3 :: post3)).
    { destruct rest; [|left; left; discriminate]. destruct post; eauto. }
    destruct X as [X|[-> (l3 & post3 & ->)]].
    + assert (L1 : located t (before ++ f) (rest ++ concat post) pre l post (r ++ f) rest).
      { unfold located. split; [exact A1|]. split; [rewrite A3, <- app_assoc; reflexivity|].
        split; [rewrite A2, <- app_assoc; reflexivity|]. auto. }
      destruct (located_same e _ _ _ _ _ _ _ _ _ _ _ _ _ _ L1 L2) as [-> E]. right. split; auto.
      rewrite <- E, (W f) by (left; reflexivity). destruct e; cbn; [rewrite app_length|rewrite len16_app]; lia.
    + left. assert (L1 : located t (concat (pre ++ [l])) (l3 ++ concat post3) (pre ++ [l]) l3 post3 [] l3).
      { apply located_start. rewrite A1, <- app_assoc. reflexivity. }
      assert (EQ : concat (pre ++ [l]) = before ++ f).
      { rewrite concat_app, A3, A2. cbn. rewrite !app_nil_r, <- app_assoc. reflexivity. }
      rewrite EQ in L1. destruct (located_same e _ _ _ _ _ _ _ _ _ _ _ _ _ _ L1 L2) as [E _].
      rewrite <- E, app_length. cbn. lia.
  - apply (IH (fun x X => W x (or_intror X)) _ _ F).
Qed.

(** * Trees *)
Lemma node_ind' (Q : node -> Prop) (HL : forall ty md s, Q (Leaf ty md s))
  (HI : forall ty md ch, (forall c, In c ch -> Q c) -> Q (Inner ty md ch)) : forall n, Q n.
Proof.
  fix IH 1. intros [ty md s|ty md ch]; [apply HL|]. apply HI.
  induction ch as [|x ch IHc]; intros c; [intros []|]. intros [<-|X]; [apply IH|apply IHc, X].
Qed.
Section Go.
Context (e : encoding) (t : text) (multi : bool) (m : nat).
Fixpoint go (l : list node) (o : nat) (s : pst * option tok) : option (pst * option tok) :=
  match l with
  | [] => Some s
  | x :: r => match tokenize e t multi x o m s with None => None | Some s' => go r (o + len8 (str x)) s' end
  end.
End Go.
Lemma tokenize_inner e t multi ty md ch o mods s : tokenize e t multi (Inner ty md ch) o mods s =
  match push_start e t multi o s with
  | None => None
  | Some s1 =>
      match go e t multi (Nat.lor mods md) ch o (fst s1, option_map (fun y => mkTok y (Nat.lor mods md) o (o + len8 (str (Inner ty md ch)))) ty) with
      | None => None
      | Some (s2, tk2) => push_end e t multi tk2 (s2, snd s1)
      end
  end.
Proof. reflexivity. Qed.
Lemma regular_inner ty md ch : regular (Inner ty md ch) ->
  forall c, In c ch -> (ty = None \/ is_leaf c \/ length (nonempty (leaves 0 c)) <> 1) /\ regular c.
Proof.
  cbn. induction ch as [|x ch IH]; intros H c; [intros []|]. destruct H as (A & B & C). intros [<-|X]; auto.
Qed.
Lemma leaves_text n : forall m, concat (map fst (leaves m n)) = str n.
Proof.
  induction n as [ty md s|ty md ch IH] using node_ind'; intros m; cbn; [apply app_nil_r|].
  revert IH. induction ch as [|c ch IHc]; intros IH; cbn; [reflexivity|].
  rewrite map_app, concat_app, (IH c (or_introl eq_refl)), IHc; [reflexivity|]. intros d D. apply IH. right. exact D.
Qed.
Lemma leaves_mods n : forall m m', map fst (leaves m n) = map fst (leaves m' n).
Proof.
  induction n as [ty md s|ty md ch IH] using node_ind'; intros m m'; cbn; [reflexivity|].
  revert IH. induction ch as [|c ch IHc]; intros IH; cbn; [reflexivity|].
  rewrite !map_app, (IH c (or_introl eq_refl) _ (Nat.lor m' md)), IHc; [reflexivity|]. intros d D. apply IH. right. exact D.
Qed.
Lemma nonempty_length : forall a b : list (text * label), map fst a = map fst b -> length (nonempty a) = length (nonempty b).
Proof.
  induction a as [|[f x] a IH]; intros [|[g y] b] H; cbn in *; try discriminate; auto.
  injection H as <- H. destruct f; cbn; auto.
Qed.
Lemma nonempty_text ps : concat (map fst (nonempty ps)) = concat (map fst ps).
Proof.
  induction ps as [|[f x] ps IH]; auto. unfold nonempty. cbn [filter fst]. destruct f; cbn [map fst concat]; [exact IH|f_equal; exact IH].
Qed.
Lemma nonempty_labels ps : labels (nonempty ps) = labels ps.
Proof.
  unfold labels. induction ps as [|[f x] ps IH]; auto. unfold nonempty. cbn [filter fst].
  destruct f; cbn [flat_map fst snd]; [exact IH|f_equal; exact IH].
Qed.
Lemma nonempty_full ps : full (nonempty ps).
Proof. intros x X. apply filter_In in X. destruct X as [_ X]. destruct (fst x); [discriminate X|discriminate]. Qed.
Lemma nonempty_app a b : nonempty (a ++ b) = nonempty a ++ nonempty b.
Proof. apply filter_app. Qed.

(** The token of the parent at an offset. *)
Definition okp (q : option tok) (o : nat) (s : pst) : Prop :=
  match q with None => True | Some p => k_start p <= o <= k_end p /\ (k_start p = o \/ k_start p < p_off s) end.
Definition upto (q : option tok) (x : nat) : Prop := match q with None => True | Some p => x <= k_end p end.
Lemma push_start_ok e t multi o s q : okp q o s -> exists q1,
  push_start e t multi o (s, q) = Some (s, q1) /\
  (q = None -> q1 = None) /\ (forall p, q = Some p -> exists ty md, q1 = Some (mkTok ty md o (k_end p))).
Proof.
  intros H. unfold push_start. cbn [snd fst]. destruct q as [p|]; [|eexists; split; [reflexivity|]; split; auto; discriminate].
  cbn in H. destruct H as [[H1 H2] H3]. destruct p as [ty md st en]. cbn [k_start k_end k_ty k_md] in *.
  destruct ((st <? en) && (st <? o)) eqn:C.
  - apply andb_true_iff in C. destruct C as [C1 C2]. apply Nat.ltb_lt in C1, C2.
    unfold push. cbn [k_start]. destruct (Nat.ltb_spec st (p_off s)); [|lia]. cbn [option_map].
    eexists. split; [reflexivity|]. split; [discriminate|]. intros p [= <-]. exists ty, md. cbn. do 2 f_equal. lia.
  - eexists. split; [reflexivity|]. split; [discriminate|]. intros p [= <-]. exists ty, md. cbn. do 2 f_equal.
    apply andb_false_iff in C. destruct C as [C|C]; apply Nat.ltb_ge in C; lia.
Qed.

Lemma tokenize_tree multi e t n : forall P z mods s q,
  regular n -> Inv multi e t P s -> t = P ++ str n ++ z ->
  okp q (len8 P) s -> upto q (len8 (P ++ str n)) ->
  q = None \/ is_leaf n \/ length (nonempty (leaves 0 n)) <> 1 ->
  exists s' q', tokenize e t multi n (len8 P) mods (s, q) = Some (s', q') /\
    push_all e t multi (toks (len8 P) (nonempty (leaves mods n))) s = Some s' /\
    okp q' (len8 (P ++ str n)) s' /\ option_map k_end q' = option_map k_end q.
Proof.
  induction n as [ty md x|ty md ch IH] using node_ind'; intros P z mods s q HR HI T HQ HU HC.
  - destruct (push_start_ok e t multi (len8 P) s q HQ) as (q1 & PS & PN & PP).
    cbn [tokenize]. rewrite PS. unfold push_end. cbn [k_start k_end fst snd].
    destruct x as [|c x].
    + cbn [len8]. rewrite Nat.add_0_r, Nat.ltb_irrefl. exists s, q1. split; auto. split; [reflexivity|].
      rewrite app_nil_r in *. destruct q as [p|].
      * destruct (PP p eq_refl) as (a & b & ->). cbn in *. split; [lia|]. auto.
      * rewrite (PN eq_refl). cbn. auto.
    + cbn [str] in *. set (m := c :: x) in *. assert (M : m <> []) by discriminate. pose proof (len8_pos m M).
      destruct (Nat.ltb_spec (len8 P) (len8 P + len8 m)); [|lia].
      set (y := match ty with Some y => y | None => TEXT end).
      destruct (push_any multi e t P m z y (Nat.lor mods md) s HI T M) as (s' & A & B & C). rewrite A. cbn [option_map].
      exists s'. eexists. split; [reflexivity|]. unfold nonempty. cbn [leaves filter fst m toks push_all]. fold m y. rewrite A.
      split; [reflexivity|]. rewrite len8_app in *. destruct q as [p|].
      * destruct (PP p eq_refl) as (a & b & ->). cbn in *. split; [lia|]. auto.
      * rewrite (PN eq_refl). cbn. auto.
  - destruct (push_start_ok e t multi (len8 P) s q HQ) as (q1 & PS & PN & PP).
    rewrite tokenize_inner, PS. cbn [fst snd]. set (M := Nat.lor mods md).
    set (tk := option_map (fun y => mkTok y M (len8 P) (len8 P + len8 (str (Inner ty md ch)))) ty).
    pose proof (regular_inner ty md ch HR) as HR'.
    assert (GO : forall l P0 z0 s0 tk0, (forall c, In c l -> In c ch) -> Inv multi e t P0 s0 -> t = P0 ++ flat_map str l ++ z0 ->
      okp tk0 (len8 P0) s0 -> upto tk0 (len8 (P0 ++ flat_map str l)) -> (ty = None -> tk0 = None) ->
      exists s' tk', go e t multi M l (len8 P0) (s0, tk0) = Some (s', tk') /\
        push_all e t multi (toks (len8 P0) (nonempty (flat_map (leaves M) l))) s0 = Some s' /\
        okp tk' (len8 (P0 ++ flat_map str l)) s' /\ option_map k_end tk' = option_map k_end tk0).
    { induction l as [|c l IHl]; intros P0 z0 s0 tk0 HS HI0 T0 HQ0 HU0 HTY; cbn [go flat_map].
      - exists s0, tk0. rewrite app_nil_r. auto.
      - cbn [flat_map] in T0, HU0. rewrite <- app_assoc in T0.
        assert (C : In c ch) by apply HS, in_eq. destruct (HR' c C) as [HC0 HRc].
        destruct (IH c C P0 (flat_map str l ++ z0) M s0 tk0 HRc HI0 T0 HQ0) as (s1 & tk1 & A1 & A2 & A3 & A4).
        + destruct tk0; cbn in *; [|exact I]. rewrite !len8_app in *. lia.
        + destruct HC0 as [X|X]; [left; apply HTY, X|right; exact X].
        + rewrite A1, <- len8_app.
          assert (HI1 : Inv multi e t (P0 ++ str c) s1).
          { destruct (push_all_any multi e t (nonempty (leaves M c)) P0 (flat_map str l ++ z0) s0 HI0) as (s1' & E1 & E2 & _).
            - rewrite nonempty_text, leaves_text. exact T0.
            - apply nonempty_full.
            - rewrite A2 in E1. injection E1 as <-. rewrite nonempty_text, leaves_text in E2. exact E2. }
          destruct (IHl (P0 ++ str c) z0 s1 tk1) as (s2 & tk2 & B1 & B2 & B3 & B4); auto.
          * intros d D. apply HS. right. exact D.
          * rewrite <- app_assoc. exact T0.
          * rewrite <- app_assoc. destruct tk0, tk1; try discriminate A4; cbn in *; [injection A4 as ->|]; auto.
          * intros X. rewrite (HTY X) in A4. destruct tk1; [discriminate A4|reflexivity].
          * exists s2, tk2. split; [exact B1|].
            rewrite nonempty_app, toks_app, push_all_app, A2, nonempty_text, leaves_text, <- len8_app. split; [exact B2|].
            rewrite app_assoc. split; auto. congruence. }
    destruct (GO ch P z s tk) as (s' & tk' & B1 & B2 & B3 & B4); auto.
    + unfold tk. destruct ty; cbn; [|exact I]. lia.
    + unfold tk. destruct ty; cbn; [|exact I]. rewrite len8_app. lia.
    + unfold tk. intros ->. reflexivity.
    + cbn [str] in B1 |- *. rewrite B1. cbn [leaves]. fold M.
      destruct (push_all_any multi e t (nonempty (flat_map (leaves M) ch)) P z s HI) as (s'' & E1 & E2 & E3 & E4 & E5).
      { rewrite nonempty_text. change (flat_map (leaves M) ch) with (leaves mods (Inner ty md ch)). rewrite leaves_text. exact T. }
      { apply nonempty_full. }
      rewrite B2 in E1. injection E1 as <-.
      (* how the parent's token is left *)
      assert (Q1 : okp q1 (len8 (P ++ flat_map str ch)) s').
      { destruct q as [p|]; [|rewrite (PN eq_refl); exact I]. destruct (PP p eq_refl) as (a & b & ->). cbn in *.
        destruct HC as [HC|[[]|HC]]; [discriminate|]. rewrite len8_app in *. split; [lia|].
        rewrite (nonempty_length _ (flat_map (leaves M) ch)) in HC
          by (change (map fst (leaves 0 (Inner ty md ch)) = map fst (leaves mods (Inner ty md ch))); apply leaves_mods).
        destruct (nonempty (flat_map (leaves M) ch)) as [|u [|v w]] eqn:N.
        - left. pose proof (leaves_text (Inner ty md ch) mods) as LT. cbn [leaves str] in LT. fold M in LT.
          rewrite <- nonempty_text, N in LT. cbn in LT. rewrite <- LT. cbn. lia.
        - cbn in HC. lia.
        - right. apply E5. cbn. lia. }
      unfold push_end. destruct tk' as [k|]; [destruct (Nat.ltb_spec (k_start k) (k_end k))|].
      * (* the rest of the token of this node *)
        cbn in B3. destruct B3 as [[K1 K2] K3].
        assert (KE : k_end k = len8 (P ++ flat_map str ch)).
        { unfold tk in B4. destruct ty; [|discriminate B4]. cbn in B4. injection B4 as ->. rewrite len8_app. reflexivity. }
        destruct K3 as [K3|K3]; [lia|].
        unfold push. cbn [fst snd]. destruct (Nat.ltb_spec (k_start k) (p_off s')); [|lia]. cbn [option_map].
        exists s'. eexists. split; [reflexivity|]. split; [exact B2|].
        destruct q as [p|].
        -- destruct (PP p eq_refl) as (a & b & ->). cbn in *. split; [lia|]. auto.
        -- rewrite (PN eq_refl). cbn. auto.
      * exists s', q1. split; [reflexivity|]. split; [exact B2|]. split; [exact Q1|].
        destruct q as [p|]; [destruct (PP p eq_refl) as (a & b & ->); reflexivity|rewrite (PN eq_refl); reflexivity].
      * exists s', q1. split; [reflexivity|]. split; [exact B2|]. split; [exact Q1|].
        destruct q as [p|]; [destruct (PP p eq_refl) as (a & b & ->); reflexivity|rewrite (PN eq_refl); reflexivity].
Qed.

(** * Multi-line tokens with gaps *)
Lemma places_multi e t gs : forall P z s, Inv true e t P s -> t = P ++ gap_text gs ++ z ->
  (forall x, In x gs -> snd (fst x) <> []) ->
  exists s' new, push_all e t true (gap_toks (len8 P) gs) s = Some s' /\ p_out s' = p_out s ++ new /\
    places e t P gs (decode_from (p_line (p_curr s)) (p_char (p_curr s)) new).
Proof.
  induction gs as [|[[g m] [ty md]] gs IH]; intros P z s HI T F; cbn [gap_toks push_all].
  - exists s, []. rewrite app_nil_r. split; [reflexivity|]. split; [reflexivity|]. exact I.
  - unfold gap_text in T. cbn [flat_map fst snd] in T. fold (gap_text gs) in T. rewrite <- !app_assoc in T.
    assert (M : m <> []) by apply (F (g, m, (ty, md))), in_eq.
    pose proof (Inv_gap e t P g _ s HI T) as HI'. rewrite <- !len8_app.
    assert (T' : t = (P ++ g) ++ m ++ gap_text gs ++ z) by (rewrite <- app_assoc; exact T).
    destruct (push_multi e t (P ++ g) m _ ty md s HI' T' M) as (s1 & q & dl & dc & A1 & A2 & A3 & A4 & A5 & A6 & A7 & _).
    rewrite len8_app with (a := P ++ g), A1, <- len8_app.
    destruct (IH ((P ++ g) ++ m) z s1 A7) as (s' & new & B1 & B2 & B3).
    + rewrite <- app_assoc. exact T'.
    + intros x X. apply F. right. exact X.
    + exists s', (mkStok dl dc (wid e m) ty md :: new). split; [exact B1|].
      split; [rewrite B2, A3, <- app_assoc; reflexivity|].
      cbn [places decode_from d_line d_start d_len d_ty d_md]. rewrite A4, A5. split.
      * destruct (located_ex t (P ++ g) (m ++ gap_text gs ++ z) T') as (pre & l & post & r & rest & L).
        pose proof (to_lsp_loc e _ _ _ _ _ _ _ _ L) as Q. rewrite A2 in Q. injection Q as ->.
        destruct L as (L1 & L2 & L3 & L4 & L5). exists pre, l, post, r, rest. split; [exact L1|]. split; [exact L3|].
        split; [exact L2|]. split; [exact L5|]. destruct e; reflexivity.
      * rewrite A6 in B3. rewrite <- app_assoc in B3. exact B3.
Qed.

(** * Whole documents *)
Lemma covers_pieces e t ps : concat (map fst ps) = t -> full ps ->
  exists s, push_all e t false (toks 0 ps) pst0 = Some s /\ covers e t ps (decode (p_out s)).
Proof.
  intros T F. destruct (pieces_single e t ps [] [] pst0 (Inv0 false e t)) as (s & new & fs & A & B & C & D & E); auto.
  - cbn. rewrite app_nil_r. auto.
  - exists s. split; auto. exists fs. rewrite B. split; [exact C|]. split; [congruence|auto].
Qed.
Lemma tree_pushes multi e n : regular n -> exists s,
  semantic_tokens e multi n = Some (p_out s) /\ push_all e (str n) multi (toks 0 (nonempty (leaves 0 n))) pst0 = Some s.
Proof.
  intros R. destruct (tokenize_tree multi e (str n) n [] [] 0 pst0 None) as (s & q & A & B & _); cbn; auto.
  - apply Inv0.
  - rewrite app_nil_r. reflexivity.
  - exists s. unfold semantic_tokens. cbn in A. rewrite A. auto.
Qed.
Lemma tree_covers e n : regular n -> exists out,
  semantic_tokens e false n = Some out /\ covers e (str n) (leaves 0 n) (decode out).
Proof.
  intros R. destruct (tree_pushes false e n R) as (s & A & B). exists (p_out s). split; auto.
  destruct (covers_pieces e (str n) (nonempty (leaves 0 n))) as (s' & A' & fs & C1 & C2 & C3).
  - rewrite nonempty_text. apply leaves_text.
  - apply nonempty_full.
  - rewrite B in A'. injection A' as <-. exists fs. rewrite nonempty_labels in C3. auto.
Qed.
Lemma no_gaps ps : forall o, gap_toks o (map (fun x => ([], fst x, snd x)) ps) = toks o ps.
Proof.
  induction ps as [|[f [ty md]] ps IH]; intros o; cbn; [reflexivity|]. rewrite Nat.add_0_r, IH. reflexivity.
Qed.
Lemma no_gaps_text ps : gap_text (map (fun x => ([], fst x, snd x)) ps) = concat (map fst ps).
Proof. unfold gap_text. induction ps as [|x ps IH]; cbn; [reflexivity|]. rewrite IH. reflexivity. Qed.
Lemma tree_places e n : regular n -> exists out,
  semantic_tokens e true n = Some out /\
  places e (str n) [] (map (fun x => ([], fst x, snd x)) (nonempty (leaves 0 n))) (decode out).
Proof.
  intros R. destruct (tree_pushes true e n R) as (s & A & B). exists (p_out s). split; auto.
  destruct (places_multi e (str n) (map (fun x => ([], fst x, snd x)) (nonempty (leaves 0 n))) [] [] pst0 (Inv0 _ _ _)) as (s' & new & C1 & C2 & C3).
  - rewrite no_gaps_text, nonempty_text, leaves_text, app_nil_r. reflexivity.
  - intros x X. apply in_map_iff in X. destruct X as (y & <- & Y). apply (nonempty_full _ _ Y).
  - rewrite no_gaps in C1. cbn [len8] in C1. rewrite B in C1. injection C1 as <-. rewrite C2. exact C3.
Qed.
Lemma covers_disjoint t ps ts : covers Utf16 t ps ts -> disjoint ts.
Proof. intros (fs & F & _). apply (fragments_disjoint Utf16 t fs (fun _ _ => eq_refl) [] ts F). Qed.

(** * Deltas *)
Lemma stok_eqb_eq a b : stok_eqb a b = true <-> a = b.
Proof.
  unfold stok_eqb. rewrite !andb_true_iff, !Nat.eqb_eq. destruct a, b; cbn. split.
  - intros [[[[-> ->] ->] ->] ->]. reflexivity.
  - intros [= -> -> -> -> ->]. auto.
Qed.
Lemma common_prefix a : forall b, firstn (common stok_eqb a b) a = firstn (common stok_eqb a b) b /\
  common stok_eqb a b <= length a /\ common stok_eqb a b <= length b.
Proof.
  induction a as [|x a IH]; intros b; cbn; [split; auto with arith|].
  destruct b as [|y b]; cbn; [auto with arith|]. destruct (stok_eqb x y) eqn:E; cbn; [|auto with arith].
  apply stok_eqb_eq in E. subst y. destruct (IH b) as (A & B & C). rewrite A. split; auto. lia.
Qed.
Lemma common_refl a : common stok_eqb a a = length a.
Proof. induction a as [|x a IH]; cbn; auto. replace (stok_eqb x x) with true by (symmetry; now apply stok_eqb_eq). now rewrite IH. Qed.
Lemma common_suffix a b : let d := common stok_eqb (rev a) (rev b) in
  skipn (length a - d) a = skipn (length b - d) b /\ d <= length a /\ d <= length b.
Proof.
  cbn. destruct (common_prefix (rev a) (rev b)) as (A & B & C). rewrite !rev_length in *. split; [|auto].
  rewrite !firstn_rev in A. apply (f_equal (@rev _)) in A. rewrite !rev_involutive in A. exact A.
Qed.
Lemma flat_app a b : flat (a ++ b) = flat a ++ flat b.
Proof. apply flat_map_app. Qed.
Lemma flat_length a : length (flat a) = 5 * length a.
Proof. unfold flat. induction a as [|x a IH]; auto. cbn [flat_map length app]. lia. Qed.
Lemma token_delta_parts from to : exists pre a b suf, from = pre ++ a ++ suf /\ to = pre ++ b ++ suf /\
  token_delta from to = match a, b with [], [] => [] | _, _ => [mkEdit (5 * length pre) (5 * length a) b] end.
Proof.
  unfold token_delta. set (st := common stok_eqb from to). destruct (common_prefix from to) as (A & B & C). fold st in A, B, C.
  set (f1 := skipn st from). set (t1 := skipn st to).
  destruct (common_suffix f1 t1) as (D & E & F). set (d := common stok_eqb (rev f1) (rev t1)) in *.
  exists (firstn st from), (firstn (length f1 - d) f1), (firstn (length t1 - d) t1), (skipn (length f1 - d) f1).
  split; [rewrite firstn_skipn; unfold f1; now rewrite firstn_skipn|].
  split; [rewrite D, firstn_skipn, A; unfold t1; now rewrite firstn_skipn|].
  rewrite !firstn_length_le by lia. reflexivity.
Qed.
Lemma token_delta_applies from to : apply_edits (flat from) (token_delta from to) = flat to.
Proof.
  destruct (token_delta_parts from to) as (pre & a & b & suf & -> & -> & ->). rewrite !flat_app.
  destruct a as [|x a]; [destruct b as [|y b]; [reflexivity|]|].
  all: unfold apply_edits; cbn [fold_left]; unfold apply_edit; cbn [e_start e_delete e_data].
  all: rewrite <- !flat_length, <- app_length; f_equal; [rewrite firstn_app, firstn_all, Nat.sub_diag, firstn_O, app_nil_r; reflexivity|].
  all: f_equal; rewrite app_assoc, skipn_app, skipn_all, Nat.sub_diag; reflexivity.
Qed.
Lemma token_delta_empty from to : token_delta from to = [] <-> from = to.
Proof.
  split.
  - destruct (token_delta_parts from to) as (pre & a & b & suf & -> & -> & ->). destruct a, b; try discriminate. auto.
  - intros <-. unfold token_delta. rewrite common_refl, skipn_all. reflexivity.
Qed.
