(** Proofs about jumps between preview and source (C42, C80). *)
From Coq Require Import List Arith Bool NArith Lia.
From Verif Require Import TextModel TextSpec TextProof JumpModel JumpSpec.
Import ListNotations.

Lemma pos_le_spec x y : pos_le x y = true <-> before x y.
Proof. unfold pos_le, before. rewrite orb_true_iff, andb_true_iff, Nat.ltb_lt, Nat.eqb_eq, Nat.leb_le. tauto. Qed.
Lemma pos_le_false x y : pos_le x y = false -> before y x.
Proof. intros H. assert (N : ~ before x y) by (rewrite <- pos_le_spec; congruence). unfold before in *. lia. Qed.
Lemma before_refl x : before x x.
Proof. right. lia. Qed.
Lemma before_trans x y z : before x y -> before y z -> before x z.
Proof. unfold before. lia. Qed.
Lemma before_anti x y : before x y -> before y x -> x = y.
Proof. destruct x, y. unfold before. cbn. intros. f_equal; lia. Qed.
Lemma max_spec x y : before x (pos_max x y) /\ before y (pos_max x y) /\ (forall z, before x z -> before y z -> before (pos_max x y) z).
Proof. unfold pos_max. destruct (pos_le x y) eqn:E; [apply pos_le_spec in E|apply pos_le_false in E]; auto using before_refl. Qed.
Lemma min_spec x y : before (pos_min x y) x /\ before (pos_min x y) y /\ (forall z, before z x -> before z y -> before z (pos_min x y)).
Proof. unfold pos_min. destruct (pos_le x y) eqn:E; [apply pos_le_spec in E|apply pos_le_false in E]; auto using before_refl. Qed.
Lemma clamp_in u v x : before u v -> before u (pos_min (pos_max x u) v) /\ before (pos_min (pos_max x u) v) v.
Proof.
  intros H. destruct (max_spec x u) as (A & B & _). destruct (min_spec (pos_max x u) v) as (C & D & E). split; auto.
Qed.
Lemma clamp_mono u v x y : before x y -> before (pos_min (pos_max x u) v) (pos_min (pos_max y u) v).
Proof.
  intros H. destruct (max_spec x u) as (A & B & M). destruct (max_spec y u) as (A' & B' & _). destruct (min_spec (pos_max x u) v) as (C & D & _). destruct (min_spec (pos_max y u) v) as (_ & _ & E).
  apply E; [|exact D]. apply (before_trans _ (pos_max x u)); [exact C|]. apply M; [now apply (before_trans _ y)|exact B'].
Qed.
Lemma clamp_id u v x : before u x -> before x v -> pos_min (pos_max x u) v = x.
Proof.
  intros H K. destruct (max_spec x u) as (A & B & M). assert (E : pos_max x u = x) by (apply before_anti; auto using before_refl). rewrite E. destruct (min_spec x v) as (C & D & N). apply before_anti; auto using before_refl.
Qed.

(** * Positions in the text *)
Lemma off_at t p s : t = p ++ s -> exists x, resolve_off t (len8 p) = Some x /\ at_ t p x.
Proof.
  intros E. destruct (located_ex t p s E) as (pre & l & post & r & rest & L). exists (length pre, length r). unfold resolve_off. rewrite (byte_to_line_loc _ _ _ _ _ _ _ _ L), (byte_to_column_loc _ _ _ _ _ _ _ _ L).
  split; [reflexivity|]. destruct L as (H1 & H2 & H3 & H4 & H5). exists r, rest, s. cbn [fst snd]. change (split_lines is_newline t) with (tl_ t). rewrite H1, nth_error_app2, Nat.sub_diag by lia. split; [exact E|]. split; [cbn; now rewrite H3|].
  split; [|reflexivity]. now rewrite firstn_pre.
Qed.
Lemma count_mono key x y ls : x <= y -> count_le key x ls <= count_le key y ls.
Proof.
  intros H. unfold count_le. induction ls as [|l ls IH]; cbn; [lia|]. destruct (Nat.leb_spec (key l) x), (Nat.leb_spec (key l) y); cbn; lia.
Qed.
Lemma off_mono t p m s x y : t = p ++ m ++ s -> resolve_off t (len8 p) = Some x -> resolve_off t (len8 (p ++ m)) = Some y -> before x y.
Proof.
  intros E X Y. destruct (located_ex t p (m ++ s) E) as (pre & l & post & r & rest & L). assert (E2 : t = (p ++ m) ++ s) by (now rewrite <- app_assoc).
  destruct (located_ex t (p ++ m) s E2) as (pre' & l' & post' & r' & rest' & L').
  assert (B1 := byte_to_line_loc _ _ _ _ _ _ _ _ L). assert (B2 := byte_to_line_loc _ _ _ _ _ _ _ _ L').
  assert (LE : length pre <= length pre').
  { unfold byte_to_line in B1, B2. destruct (len8 p <=? len8 t); [|discriminate]. destruct (len8 (p ++ m) <=? len8 t); [|discriminate]. injection B1 as <-. injection B2 as <-. unfold search_line.
    pose proof (count_mono l_byte (len8 p) (len8 (p ++ m)) (lines t)) as C. rewrite (len8_app p m) in C. specialize (C ltac:(lia)). rewrite <- (len8_app p m) in C. lia. }
  unfold resolve_off in X, Y. rewrite B1, (byte_to_column_loc _ _ _ _ _ _ _ _ L) in X. rewrite B2, (byte_to_column_loc _ _ _ _ _ _ _ _ L') in Y. cbn in X, Y. injection X as <-. injection Y as <-. unfold before. cbn [fst snd].
  destruct (Nat.eq_dec (length pre) (length pre')) as [Q|]; [|lia]. right. split; [exact Q|].
  destruct L as (H1 & H2 & _). destruct L' as (H1' & H2' & _). rewrite H1 in H1'. assert (P : pre = pre'). { apply (f_equal (firstn (length pre))) in H1'. rewrite firstn_pre, Q, firstn_pre in H1'. exact H1'. }
  subst pre'. rewrite H2 in H2'. rewrite <- app_assoc in H2'. apply app_inv_head in H2'. rewrite <- H2', app_length. lia.
Qed.

(** * The range *)
Definition oordered (i : info) : Prop := match j_start i, j_end i with Some x, Some y => before x y | _, _ => True end.
Lemma in_order_ok i : oordered (in_order i) /\ j_path (in_order i) = j_path i.
Proof.
  unfold in_order, oordered. destruct (j_start i) as [x|] eqn:S, (j_end i) as [y|] eqn:E; cbn [zip]; rewrite ?S, ?E; auto. destruct (pos_le y x) eqn:L; cbn [j_start j_end j_path]; rewrite ?S, ?E; split; auto.
  - now apply pos_le_spec.
  - now apply pos_le_false.
Qed.
Lemma elem_spec w sp path t a b : nodes_ok w -> w sp = Some (path, t, a, b) -> exists u v, resolve_span w sp None = Some (mkInfo path (Some u) (Some v)) /\
  resolve_off t a = Some u /\ resolve_off t b = Some v /\ before u v.
Proof.
  intros OK H. destruct (OK _ _ _ _ _ H) as (p & m & s & E & -> & ->). destruct (off_at t p (m ++ s) E) as (u & U & _). destruct (off_at t (p ++ m) s) as (v & V & _); [now rewrite <- app_assoc|].
  exists u, v. unfold resolve_span. rewrite H, U, V. repeat split; auto. exact (off_mono t p m s u v E U V).
Qed.
Lemma span_some w sp off path t a b : w sp = Some (path, t, a, b) -> exists x, resolve_span w sp (Some off) = Some (mkInfo path x (resolve_off t b)) /\ x = resolve_off t (if off <? b - a then a + off else a).
Proof. intros H. unfold resolve_span. rewrite H. eauto. Qed.
Lemma combine_end st ed : exists i, combine st (Some ed) = Some i /\ j_path i = j_path ed /\ (j_end ed <> None -> or_ (j_start i) (j_end i) <> None).
Proof.
  unfold combine. destruct st as [st|]; [|exists ed; repeat split; intros H; destruct (j_start ed); [discriminate|exact H]].
  destruct (Nat.eqb_spec (j_path st) (j_path ed)) as [P|P]; cbn [andb]; [|exists ed; repeat split; intros H; destruct (j_start ed); [discriminate|exact H]].
  destruct (j_start st) as [x|] eqn:S; [|exists ed; repeat split; intros H; destruct (j_start ed); [discriminate|exact H]].
  destruct (j_end st) as [y|]; [|exists ed; repeat split; intros H; destruct (j_start ed); [discriminate|exact H]].
  destruct (pos_le x y); [|exists ed; repeat split; intros H; destruct (j_start ed); [discriminate|exact H]]. eexists. split; [reflexivity|]. cbn. now split.
Qed.
Lemma in_order_some i : or_ (j_start i) (j_end i) <> None -> or_ (j_start (in_order i)) (j_end (in_order i)) <> None.
Proof. unfold in_order. destruct (j_start i) as [x|] eqn:S, (j_end i) as [y|] eqn:E; cbn [zip]; rewrite ?S, ?E; auto. destruct (pos_le y x); cbn [j_start j_end]; rewrite ?S, ?E; cbn [or_]; intros; discriminate. Qed.
Lemma range_within w s so e eo path t a b : nodes_ok w -> w e = Some (path, t, a, b) ->
  exists i x y u v, resolve_span_range w s so e eo = Some i /\ j_path i = path /\ j_start i = Some x /\ j_end i = Some y /\
    resolve_off t a = Some u /\ resolve_off t b = Some v /\ before u x /\ before x y /\ before y v.
Proof.
  intros OK H. destruct (elem_spec w e path t a b OK H) as (u & v & EE & U & V & UV). destruct (span_some w e eo _ _ _ _ H) as (x0 & ED & _). unfold resolve_span_range. rewrite EE, ED, V.
  destruct (combine_end (resolve_span w s (Some so)) (mkInfo path x0 (Some v))) as (i & -> & P & S). cbn [option_map]. cbn [j_end j_path] in *. specialize (S ltac:(discriminate)).
  apply in_order_some in S. destruct (in_order_ok i) as [O Q]. rewrite P in Q. destruct (in_order i) as [p2 st en]. cbn [j_path j_start j_end] in *. subst p2. unfold restrict. cbn [j_path j_start j_end]. rewrite Nat.eqb_refl. cbn [or_].
  assert (X : exists iu iv, or_ st en = Some iu /\ or_ en (or_ st en) = Some iv /\ before iu iv).
  { unfold oordered in O. cbn in O. destruct st as [iu|], en as [iv|]; cbn in *; eauto using before_refl. now destruct S. }
  destruct X as (iu & iv & -> & -> & L). cbn [zip]. eexists _, _, _, u, v. split; [reflexivity|]. cbn [j_path j_start j_end]. repeat split; auto.
  - now apply clamp_in.
  - now apply clamp_mono.
  - now apply clamp_in.
Qed.
Theorem range_ordered w s so e eo i x y : nodes_ok w -> resolve_span_range w s so e eo = Some i -> j_start i = Some x -> j_end i = Some y -> before x y.
Proof.
  intros OK R X Y. destruct (w e) as [[[[path t] a] b]|] eqn:E.
  - destruct (range_within w s so e eo _ _ _ _ OK E) as (i' & x' & y' & u & v & R' & _ & X' & Y' & _ & _ & _ & L & _). congruence.
  - unfold resolve_span_range in R. replace (resolve_span w e None) with (@None info) in R by (unfold resolve_span; now rewrite E). replace (resolve_span w e (Some eo)) with (@None info) in R by (unfold resolve_span; now rewrite E).
    destruct (resolve_span w s (Some so)) as [st|]; [|discriminate]. cbn [combine option_map restrict] in R. injection R as <-. destruct (in_order_ok st) as [O _]. unfold oordered in O. rewrite X, Y in O. exact O.
Qed.
Theorem range_exact w s path t p q m z k so eo : w s = Some (path, t, len8 p, len8 (p ++ q ++ m ++ z)) -> t = p ++ q ++ m ++ z ++ k -> z <> [] -> so = len8 q -> eo = len8 (q ++ m) ->
  exists x y, resolve_span_range w s so s eo = Some (mkInfo path (Some x) (Some y)) /\ resolve_off t (len8 (p ++ q)) = Some x /\ resolve_off t (len8 (p ++ q ++ m)) = Some y.
Proof.
  intros W T Z -> ->. destruct (off_at t p (q ++ m ++ z ++ k)) as (u & U & _); [exact T|].
  destruct (off_at t (p ++ q) (m ++ z ++ k)) as (x & X & _); [now rewrite T, <- !app_assoc|]. destruct (off_at t (p ++ q ++ m) (z ++ k)) as (y & Y & _); [now rewrite T, <- !app_assoc|].
  destruct (off_at t (p ++ q ++ m ++ z) k) as (v & V & _); [now rewrite T, <- !app_assoc|]. exists x, y.
  assert (UX : before u x) by (apply (off_mono t p q (m ++ z ++ k)); auto). assert (XY : before x y) by (apply (off_mono t (p ++ q) m (z ++ k)); rewrite <- ?app_assoc; auto).
  assert (YV : before y v) by (apply (off_mono t (p ++ q ++ m) z k); rewrite <- ?app_assoc; auto).
  assert (L1 : (len8 q <? len8 (p ++ q ++ m ++ z) - len8 p) = true). { apply Nat.ltb_lt. rewrite !len8_app. destruct z; [congruence|]. cbn. pose proof (len8c_pos c). lia. }
  assert (L2 : (len8 (q ++ m) <? len8 (p ++ q ++ m ++ z) - len8 p) = true). { apply Nat.ltb_lt. rewrite !len8_app. destruct z; [congruence|]. cbn. pose proof (len8c_pos c). lia. }
  split; [|split; auto]. unfold resolve_span_range, resolve_span. rewrite W, L1, L2, <- (len8_app p q), <- (len8_app p (q ++ m)), U, X, Y, V. unfold combine. cbn [j_path j_start j_end].
  rewrite Nat.eqb_refl, (proj2 (pos_le_spec x v)) by (now apply (before_trans _ y)). cbn [andb option_map]. unfold in_order. cbn [j_path j_start j_end zip].
  assert (S : (if pos_le y x then mkInfo path (Some y) (Some x) else mkInfo path (Some x) (Some y)) = mkInfo path (Some x) (Some y)).
  { destruct (pos_le y x) eqn:E; [|reflexivity]. apply pos_le_spec in E. now rewrite (before_anti x y). }
  rewrite S. unfold restrict. cbn [j_path j_start j_end or_ zip]. rewrite Nat.eqb_refl, !clamp_id; auto; eauto using before_trans.
Qed.

(** * The client's positions *)
Lemma len16_len r : length r <= len16 r /\ (len16 r = length r <-> bmp r).
Proof.
  induction r as [|c r (A & B)]; [split; [cbn; lia|split; [intros _ c []|reflexivity]]|]. cbn [length]. change (len16 (c :: r)) with (len16c c + len16 r).
  assert (C : (1 <= len16c c)%nat /\ (len16c c = 1 <-> (c < 65536)%N)). { unfold len16c. destruct (N.ltb_spec c 65536); (split; [lia|]); split; intros; lia. }
  destruct C as [C D]. split; [lia|]. split.
  - intros H c' [<-|I]; [apply D; lia|]. apply B; [lia|exact I].
  - intros H. rewrite (proj2 D), (proj2 B); [reflexivity| |]; [intros c' I; apply H; now right|apply H; now left].
Qed.
Lemma client_located t x p s : plain t -> client_at t x p s -> exists pre l post r rest, located t p s pre l post r rest /\ length pre = p_line x /\ len16 r = p_char x.
Proof.
  intros Hp (Ht & r & rest & H1 & H2 & H3 & H4). rewrite (plain_lines t Hp) in *. destruct x as [i col]. cbn [p_line p_char] in *. subst col.
  apply nth_error_split in H1 as (pre & post & H1 & <-). rewrite H1, firstn_pre in H2. exists pre, (r ++ rest), post, r, rest. split; [|now split].
  repeat split; auto.
  - pose proof (text_pre _ _ _ _ H1) as Ht'. rewrite Ht, H2 in Ht'. rewrite <- !app_assoc in Ht'. apply app_inv_head in Ht'. apply app_inv_head in Ht'. exact Ht'.
  - destruct post as [|y post]; [auto|]. left. intros ->. destruct (nonlast_has_nl_n is_newline (length t) t (le_n _) pre _ y post H1) as (c & Hc & Hn).
    rewrite app_nil_r in Hc. specialize (H3 c Hc). rewrite Hp in H3; [congruence|]. rewrite Ht, H2. apply in_or_app; left. apply in_or_app; auto.
Qed.
Lemma suffix16 q r q' r' : q ++ r = q' ++ r' -> len16 r = len16 r' -> r = r'.
Proof.
  intros E L. assert (X : (exists d, r = d ++ r') \/ exists d, r' = d ++ r).
  { apply app_eq_app in E as (d & [[-> ->]|[-> ->]]); [right|left]; eauto. }
  assert (Z : forall d, len16 d = 0 -> d = []). { intros [|c d] H; [reflexivity|]. exfalso. cbn in H. unfold len16c in H. destruct (c <? 65536)%N; lia. }
  destruct X as [[d ->]|[d ->]]; rewrite len16_app in L; rewrite (Z d); auto; lia.
Qed.
Theorem shown_exact t x p s : plain t -> client_at t x p s -> (resolve_off t (len8 p) = Some (p_line x, p_char x) <-> bmp_line p x).
Proof.
  intros Hp C. destruct (client_located t x p s Hp C) as (pre & l & post & r & rest & L & A & B). unfold resolve_off. rewrite (byte_to_line_loc _ _ _ _ _ _ _ _ L), (byte_to_column_loc _ _ _ _ _ _ _ _ L). cbn [zip]. rewrite A, <- B.
  destruct (len16_len r) as [_ D]. destruct L as (_ & H2 & _). split.
  - intros H. injection H as H. exists (concat pre), r. repeat split; [exact H2|exact B|]. now apply D.
  - intros (q & r' & E & F & G). rewrite H2 in E. assert (r = r') by (apply (suffix16 _ _ _ _ E); congruence). subst r'. apply D in G. now rewrite G.
Qed.
Theorem cursor_exact t x p s : plain t -> client_at t x p s -> bmp_line p x -> cursor_offset t x = Some (len8 p).
Proof.
  intros Hp C (q & r' & E & F & G). destruct (client_located t x p s Hp C) as (pre & l & post & r & rest & L & A & B). destruct L as (H1 & H2 & H3 & _). rewrite H2 in E.
  assert (r = r') by (apply (suffix16 _ _ _ _ E); congruence). subst r'. apply len16_len in G. unfold cursor_offset. rewrite <- A, (line_column_to_byte_loc _ _ _ _ _ H1), <- B, G, H3, firstn_app, Nat.sub_diag, firstn_all, firstn_O, app_nil_r, H2, len8_app. reflexivity.
Qed.
Theorem selection_exact w s path t p q m z k x y : w s = Some (path, t, len8 p, len8 (p ++ q ++ m ++ z)) -> z <> [] -> plain t ->
  client_at t x (p ++ q) (m ++ z ++ k) -> client_at t y (p ++ q ++ m) (z ++ k) -> bmp_line (p ++ q) x -> bmp_line (p ++ q ++ m) y ->
  exists i, resolve_span_range w s (len8 q) s (len8 (q ++ m)) = Some i /\ j_path i = path /\ selection i = Some (mkRange x y).
Proof.
  intros W Z Hp X Y BX BY. assert (T : t = p ++ q ++ m ++ z ++ k) by (destruct X as [-> _]; now rewrite <- !app_assoc).
  destruct (range_exact w s path t p q m z k _ _ W T Z eq_refl eq_refl) as (u & v & R & U & V). apply (shown_exact _ _ _ _ Hp X) in BX. apply (shown_exact _ _ _ _ Hp Y) in BY. rewrite U in BX. rewrite V in BY. injection BX as ->. injection BY as ->.
  eexists. split; [exact R|]. split; [reflexivity|]. destruct x, y. reflexivity.
Qed.
Lemma in_order_id path x y : before x y -> in_order (mkInfo path (Some x) (Some y)) = mkInfo path (Some x) (Some y).
Proof. intros H. unfold in_order. cbn [j_path j_start j_end zip]. destruct (pos_le y x) eqn:E; [|reflexivity]. apply pos_le_spec in E. now rewrite (before_anti x y). Qed.
Lemma span_at w s path t p q m k : w s = Some (path, t, len8 p, len8 (p ++ q ++ m)) -> t = p ++ q ++ m ++ k -> m <> [] ->
  exists u x v, resolve_span w s (Some (len8 q)) = Some (mkInfo path (Some x) (Some v)) /\ resolve_span w s None = Some (mkInfo path (Some u) (Some v)) /\
    resolve_off t (len8 (p ++ q)) = Some x /\ resolve_off t (len8 (p ++ q ++ m)) = Some v /\ before u x /\ before x v.
Proof.
  intros W T Z. destruct (off_at t p (q ++ m ++ k)) as (u & U & _); [exact T|].
  destruct (off_at t (p ++ q) (m ++ k)) as (x & X & _); [now rewrite T, <- !app_assoc|]. destruct (off_at t (p ++ q ++ m) k) as (v & V & _); [now rewrite T, <- !app_assoc|]. exists u, x, v.
  assert (L1 : (len8 q <? len8 (p ++ q ++ m) - len8 p) = true). { apply Nat.ltb_lt. rewrite !len8_app. destruct m; [congruence|]. cbn. pose proof (len8c_pos c). lia. }
  unfold resolve_span. rewrite W, L1, <- (len8_app p q), X, V, U. repeat split; auto; [apply (off_mono t p q (m ++ k))|apply (off_mono t (p ++ q) m k)]; rewrite <- ?app_assoc; auto.
Qed.
Theorem range_other w s so e path t p q m k : w e = Some (path, t, len8 p, len8 (p ++ q ++ m)) -> t = p ++ q ++ m ++ k -> m <> [] -> (forall path' t' a b, w s = Some (path', t', a, b) -> path' <> path) ->
  exists x v, resolve_span_range w s so e (len8 q) = Some (mkInfo path (Some x) (Some v)) /\ resolve_off t (len8 (p ++ q)) = Some x /\ resolve_off t (len8 (p ++ q ++ m)) = Some v.
Proof.
  intros W T Z O. destruct (span_at w e path t p q m k W T Z) as (u & x & v & R1 & R2 & X & V & UX & XV). exists x, v. split; [|now split]. unfold resolve_span_range. rewrite R1, R2.
  assert (C : combine (resolve_span w s (Some so)) (Some (mkInfo path (Some x) (Some v))) = Some (mkInfo path (Some x) (Some v))).
  { unfold resolve_span. destruct (w s) as [[[[path' t'] a] b]|] eqn:E; [|reflexivity]. cbn [combine j_path]. specialize (O _ _ _ _ eq_refl). apply Nat.eqb_neq in O. now rewrite O. }
  rewrite C. cbn [option_map]. rewrite in_order_id by auto. unfold restrict. cbn [j_path j_start j_end or_ zip]. rewrite Nat.eqb_refl, !clamp_id; auto using before_refl; eauto using before_trans.
Qed.
Theorem range_lost w s e eo path t p q m k : w e = None -> w s = Some (path, t, len8 p, len8 (p ++ q ++ m)) -> t = p ++ q ++ m ++ k -> m <> [] ->
  exists x v, resolve_span_range w s (len8 q) e eo = Some (mkInfo path (Some x) (Some v)) /\ resolve_off t (len8 (p ++ q)) = Some x /\ resolve_off t (len8 (p ++ q ++ m)) = Some v.
Proof.
  intros N W T Z. destruct (span_at w s path t p q m k W T Z) as (u & x & v & R1 & R2 & X & V & UX & XV). exists x, v. split; [|now split]. unfold resolve_span_range. rewrite R1.
  replace (resolve_span w e None) with (@None info) by (unfold resolve_span; now rewrite N). replace (resolve_span w e (Some eo)) with (@None info) by (unfold resolve_span; now rewrite N). cbn [combine option_map restrict]. now rewrite in_order_id.
Qed.
