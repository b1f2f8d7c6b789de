From Coq Require Import String Ascii List Arith NArith Bool Lia Sorted.
From Verif Require Import UpModel UpSpec.
Import ListNotations.

Lemma strip_prefix_spec p : forall l r, strip_prefix p l = Some r <-> l = p ++ r.
Proof.
  induction p as [|x p IH]; intros [|y l] r; cbn; try (split; congruence).
  destruct (Nat.eqb_spec x y) as [->|N]; [rewrite IH; split; [now intros ->|intros H; now injection H]|split; [discriminate|intros H; injection H; congruence]].
Qed.
Lemma strip_prefix_none p l : strip_prefix p l = None <-> forall r, l <> p ++ r.
Proof.
  destruct (strip_prefix p l) as [r|] eqn:E; split; try congruence.
  - intros H. apply strip_prefix_spec in E. now apply H in E.
  - intros _ r ->. now rewrite (proj2 (strip_prefix_spec p (p ++ r) r) eq_refl) in E.
Qed.
Lemma replace_spec pat rep : pat <> [] -> forall fuel l, length l <= fuel -> replaced pat rep l (replace fuel pat rep l).
Proof.
  intros NE. induction fuel as [|n IH]; intros [|c r] L; try (cbn; constructor; fail); [cbn in L; lia|]. cbn in L.
  cbn [replace]. destruct (strip_prefix pat (c :: r)) as [l'|] eqn:E.
  - apply strip_prefix_spec in E. rewrite E. constructor. apply IH. apply (f_equal (@length nat)) in E. rewrite app_length in E. cbn in E. destruct pat; [congruence|]. cbn in E. lia.
  - constructor; [now apply strip_prefix_none|]. apply IH. lia.
Qed.
Lemma replaced_one pat rep : pat <> [] -> forall l o, replaced pat rep l o -> forall o', replaced pat rep l o' -> o = o'.
Proof.
  intros NE l o H. induction H as [|r o H IH|c r o N H IH]; intros o' H'.
  - inversion H' as [E|? ? ? E|]; subst; [reflexivity|]. destruct pat; [congruence|discriminate].
  - inversion H' as [E|r' o1 H1 E|c r' o1 N H1 E]; subst.
    + destruct pat; [congruence|discriminate].
    + apply app_inv_head in E. subst. f_equal. now apply IH.
    + exfalso. now apply (N r).
  - inversion H' as [|r' o1 H1 E|c' r' o1 N' H1 E]; subst.
    + exfalso. now apply (N r').
    + f_equal. now apply IH.
Qed.
Lemma until_spec c l a b : until c l = (a, b) -> l = a ++ b /\ ~ In c a /\ (b = [] \/ exists b', b = c :: b').
Proof.
  revert a b. induction l as [|x r IH]; intros a b H; cbn in H; [injection H as <- <-; auto|].
  destruct (Nat.eqb_spec x c) as [->|N]; [injection H as <- <-; split; [reflexivity|split; [intros []|right; now exists r]]|].
  destruct (until c r) as [a0 b0] eqn:E. injection H as <- <-. destruct (IH _ _ eq_refl) as (-> & NI & B). split; [reflexivity|]. split; [|exact B]. intros [H|H]; [congruence|now apply NI].
Qed.
Lemma until_here c a b : ~ In c a -> until c (a ++ c :: b) = (a, c :: b).
Proof.
  induction a as [|x a IH]; intros N; cbn; [now rewrite Nat.eqb_refl|]. destruct (Nat.eqb_spec x c) as [->|_]; [exfalso; apply N; now left|]. rewrite IH; [reflexivity|]. intros I. apply N. now right.
Qed.
Lemma until_end c a : ~ In c a -> until c a = (a, []).
Proof.
  induction a as [|x a IH]; intros N; cbn; [reflexivity|]. destruct (Nat.eqb_spec x c) as [->|_]; [exfalso; apply N; now left|]. rewrite IH; [reflexivity|]. intros I. apply N. now right.
Qed.
Lemma ends_inv (a b : nat) raw : a <> b -> a <> 0 -> b <> 0 -> ((hd 0 raw =? a) && (last raw 0 =? b) = true) <-> exists t, raw = a :: t ++ [b].
Proof.
  intros N A B. rewrite andb_true_iff, !Nat.eqb_eq. split.
  - intros [H L]. destruct raw as [|x r]; [cbn in H; congruence|]. cbn in H. subst x. destruct r as [|y r _] using rev_ind; [cbn in L; congruence|].
    exists r. f_equal. f_equal. f_equal. change (a :: r ++ [y]) with ((a :: r) ++ [y]) in L. now rewrite last_last in L.
  - intros (t & ->). split; [reflexivity|]. change (a :: t ++ [b]) with ((a :: t) ++ [b]). apply last_last.
Qed.
Lemma inside (a b : nat) t : firstn (length (a :: t ++ [b]) - 2) (tl (a :: t ++ [b])) = t.
Proof. cbn [tl length]. rewrite app_length. cbn [length]. replace (S (length t + 1) - 2) with (length t) by lia. rewrite firstn_app, Nat.sub_diag, firstn_all. cbn. apply app_nil_r. Qed.
Lemma strip_bare raw : bare raw (strip raw).
Proof.
  unfold strip. pose proof (ends_inv 123 125 raw ltac:(lia) ltac:(lia) ltac:(lia)) as E1. pose proof (ends_inv 91 93 raw ltac:(lia) ltac:(lia) ltac:(lia)) as E2.
  destruct ((hd 0 raw =? 123) && (last raw 0 =? 125)) eqn:A; cbn [orb].
  - destruct (proj1 E1 eq_refl) as (t & ->). rewrite inside. constructor.
  - destruct ((hd 0 raw =? 91) && (last raw 0 =? 93)) eqn:B.
    + destruct (proj1 E2 eq_refl) as (t & ->). rewrite inside. constructor.
    + constructor; intros t E; [assert (false = true) by (apply E1; now exists t)|assert (false = true) by (apply E2; now exists t)]; discriminate.
Qed.
Lemma bare_one raw s : bare raw s -> strip raw = s.
Proof.
  intros H. pose proof (strip_bare raw) as G. destruct H as [s|s|s N1 N2]; inversion G as [t E1 E2|t E1 E2|t M1 M2 E1 E2].
  - apply app_inv_tail in E1. congruence.
  - exfalso. now apply (M1 s).
  - apply app_inv_tail in E1. congruence.
  - exfalso. now apply (M2 s).
  - exfalso. symmetry in E1. now apply N1 in E1.
  - exfalso. symmetry in E1. now apply N2 in E1.
  - congruence.
Qed.
Section Lib.
Variable def : text -> text -> option text.
Notation T := (target def).
Lemma scan_reads : forall fuel link l, length l <= fuel -> reads T link l (scan def fuel link l).
Proof.
  induction fuel as [|n IH]; intros link [|ch r] L; try (cbn; constructor; fail); [cbn in L; lia|]. cbn [length] in L. cbn [scan].
  destruct (Nat.eqb_spec ch 96) as [->|N96].
  { destruct (until 96 r) as [raw rest] eqn:U. destruct (until_spec _ _ _ _ U) as (-> & NI & [->|(b & ->)]).
    - rewrite app_nil_r. cbn [tl]. replace (scan def n link []) with (@nil nat) by (now destruct n). rewrite app_nil_r. constructor; [assumption|apply strip_bare].
    - cbn [tl]. apply (R_raw T link raw (strip raw) b); [assumption|apply strip_bare|]. apply IH. rewrite app_length in L. cbn in L. lia. }
  destruct (Nat.eqb_spec ch 91) as [->|N91]; [constructor; apply IH; lia|].
  destruct ((ch =? 93) && link) eqn:E.
  - apply andb_true_iff in E. destruct E as [E ->]. apply Nat.eqb_eq in E. subst ch. destruct r as [|c r']; [constructor; [discriminate|discriminate|]; apply IH; cbn; lia|]. cbn [length] in L.
    destruct (Nat.eqb_spec c 40) as [->|N40]; [|destruct (Nat.eqb_spec c 91) as [->|N91']].
    + destruct (until 41 r') as [d rest] eqn:U. destruct (until_spec _ _ _ _ U) as (-> & NI & [->|(b & ->)]); cbn [tl].
      * rewrite app_nil_r. replace (scan def n false []) with (@nil nat) by (now destruct n). rewrite app_nil_r. now constructor.
      * apply (R_dest T d b); [assumption|]. apply IH. rewrite app_length in L. cbn in L. lia.
    + destruct (until 93 r') as [d rest] eqn:U. destruct (until_spec _ _ _ _ U) as (-> & NI & [->|(b & ->)]); cbn [tl firstn].
      * rewrite app_nil_r. replace (scan def n false []) with (@nil nat) by (now destruct n). rewrite !app_nil_r. now constructor.
      * apply (R_ref T d b); [assumption|]. apply IH. rewrite app_length in L. cbn in L. lia.
    + constructor; [congruence|congruence|]. apply IH. cbn [length]. lia.
  - constructor; [assumption|assumption| |apply IH; lia]. intros ->. now rewrite Nat.eqb_refl in E.
Qed.
Lemma reads_scan link l o : reads T link l o -> forall fuel, length l <= fuel -> scan def fuel link l = o.
Proof.
  induction 1 as [link|link c r o N1 N2 N3 H IH|link raw s r o NI B H IH|link raw s NI B|link r o H IH|d r o NI H IH|d NI|d r o NI H IH|d NI|r o N1 N2 H IH]; intros [|n] L;
    try reflexivity; try (exfalso; cbn in L; lia); rewrite ?app_length in L; cbn [length app] in L; rewrite ?app_length in L; cbn [length] in L.
  - cbn [scan]. rewrite (proj2 (Nat.eqb_neq c 96) N1), (proj2 (Nat.eqb_neq c 91) N2). destruct (Nat.eqb_spec c 93) as [->|]; [rewrite (N3 eq_refl) in *|]; cbn [andb]; f_equal; apply IH; lia.
  - cbn [app scan]. rewrite Nat.eqb_refl, until_here by assumption. rewrite (bare_one _ _ B). cbn [tl app]. rewrite IH by lia. reflexivity.
  - cbn [app scan]. rewrite Nat.eqb_refl, until_end by assumption. rewrite (bare_one _ _ B). cbn [tl app]. replace (scan def n link []) with (@nil nat) by (now destruct n). reflexivity.
  - cbn [scan]. change (91 =? 96) with false. rewrite Nat.eqb_refl. cbn [app]. f_equal. apply IH. lia.
  - cbn [app scan]. change (93 =? 96) with false. change (93 =? 91) with false. change (93 =? 93) with true. change (40 =? 40) with true. cbn [andb]. cbn match. rewrite until_here by assumption. cbn [tl app]. rewrite IH by lia. reflexivity.
  - cbn [app scan]. change (93 =? 96) with false. change (93 =? 91) with false. change (93 =? 93) with true. change (40 =? 40) with true. cbn [andb]. cbn match. rewrite until_end by assumption. cbn [tl app]. replace (scan def n false []) with (@nil nat) by (now destruct n). reflexivity.
  - cbn [app scan]. change (93 =? 96) with false. change (93 =? 91) with false. change (93 =? 93) with true. change (91 =? 40) with false. change (91 =? 91) with true. cbn [andb]. cbn match. rewrite until_here by assumption. cbn [tl app firstn]. rewrite IH by lia. reflexivity.
  - cbn [app scan]. change (93 =? 96) with false. change (93 =? 91) with false. change (93 =? 93) with true. change (91 =? 40) with false. change (91 =? 91) with true. cbn [andb]. cbn match. rewrite until_end by assumption. cbn [tl app firstn]. replace (scan def n false []) with (@nil nat) by (now destruct n). now rewrite app_nil_r.
  - cbn [scan]. change (93 =? 96) with false. change (93 =? 91) with false. change (93 =? 93) with true. cbn [andb]. cbn match. destruct r as [|c r'].
    + cbn [app]. f_equal. apply IH. lia.
    + destruct (Nat.eqb_spec c 40) as [->|]; [exfalso; now apply (N1 r')|]. destruct (Nat.eqb_spec c 91) as [->|]; [exfalso; now apply (N2 r')|]. cbn [app]. f_equal. apply IH. lia.
Qed.
End Lib.
(** Links. *)
Lemma text_eqb_spec a : forall b, text_eqb a b = true <-> a = b.
Proof.
  induction a as [|x a IH]; intros [|y b]; cbn; try (split; congruence). rewrite andb_true_iff, Nat.eqb_eq, IH. split; [intros [-> ->]; reflexivity|intros H; now injection H].
Qed.
Lemma drop_spec l : exists k, l = repeat 47 k ++ drop_slashes l /\ (forall t, drop_slashes l <> 47 :: t).
Proof.
  induction l as [|x r (k & E & N)]; [exists 0; split; [reflexivity|discriminate]|]. cbn. destruct (Nat.eqb_spec x 47) as [->|NE].
  - exists (S k). cbn. split; [now rewrite <- E|exact N].
  - exists 0. split; [reflexivity|congruence].
Qed.
Lemma resolve_known_spec base head r : resolve_known head base = Some r <-> known base head r.
Proof.
  unfold resolve_known. split.
  - destruct (find _ known_links) as [p|] eqn:F.
    + intros E. injection E as <-. apply find_some in F. destruct F as [I E]. apply text_eqb_spec in E. subst head. change lit with codes.
      cbn in I. repeat (destruct I as [<-|I]; [constructor|]). destruct I.
    + destruct (text_eqb head (lit "$universe")) eqn:E; [|discriminate]. apply text_eqb_spec in E. intros H. injection H as <-. subst head. constructor.
  - intros K. inversion K; reflexivity.
Qed.
Lemma absolute_spec l : match strip_prefix [35] l with Some _ => true | None => false end || match strip_prefix (lit "http") l with Some _ => true | None => false end = true <-> absolute l.
Proof.
  rewrite orb_true_iff. unfold absolute. split.
  - intros [H|H].
    + destruct (strip_prefix [35] l) as [t|] eqn:E; [|discriminate]. apply strip_prefix_spec in E. exists t. left. exact E.
    + destruct (strip_prefix (lit "http") l) as [t|] eqn:E; [|discriminate]. apply strip_prefix_spec in E. exists t. right. exact E.
  - intros (t & [E|E]).
    + left. change (codes "#") with [35] in E. now rewrite (proj2 (strip_prefix_spec [35] l t) E).
    + right. change codes with lit in E. now rewrite (proj2 (strip_prefix_spec (lit "http") l t) E).
Qed.
Lemma ended_spec r : negb (existsb (fun c => (c =? 35) || (c =? 63)) r) && negb (last r 0 =? 47) = false <-> ended r.
Proof.
  unfold ended. destruct (existsb _ r) eqn:E; cbn [negb andb].
  - split; [|reflexivity]. intros _. apply existsb_exists in E. destruct E as (c & I & E). apply orb_true_iff in E. rewrite !Nat.eqb_eq in E. destruct E as [->| ->]; auto.
  - rewrite negb_false_iff, Nat.eqb_eq. split.
    + intros L. right. right. destruct r as [|x r _] using rev_ind; [discriminate|]. rewrite last_last in L. subst x. now exists r.
    + intros [I|[I|(t & ->)]]; [| |apply last_last].
      * assert (C : existsb (fun c => (c =? 35) || (c =? 63)) r = true) by (apply existsb_exists; exists 35; split; [assumption|reflexivity]). congruence.
      * assert (C : existsb (fun c => (c =? 35) || (c =? 63)) r = true) by (apply existsb_exists; exists 63; split; [assumption|reflexivity]). congruence.
Qed.
Lemma split_spec link : exists k, link = fst (split_link link) ++ repeat 47 k ++ snd (split_link link) /\ ~ In 47 (fst (split_link link)) /\ (forall t, snd (split_link link) <> 47 :: t) /\ (k = 0 -> snd (split_link link) = []).
Proof.
  unfold split_link. destruct (until 47 link) as [a b] eqn:U. cbn [fst snd]. destruct (until_spec _ _ _ _ U) as (-> & NI & B). destruct (drop_spec b) as (k & E & N). exists k.
  split; [now rewrite <- E|]. split; [exact NI|]. split; [exact N|]. intros ->. cbn in E. destruct B as [->|(b' & ->)]; [reflexivity|]. exfalso. now apply (N b').
Qed.
Lemma split_one head k tail : ~ In 47 head -> (forall t, tail <> 47 :: t) -> (k = 0 -> tail = []) -> split_link (head ++ repeat 47 k ++ tail) = (head, tail).
Proof.
  intros NI N Z. unfold split_link. destruct k as [|k].
  - rewrite (Z eq_refl). cbn. rewrite app_nil_r, until_end by assumption. reflexivity.
  - cbn [repeat app]. rewrite until_here by assumption. f_equal. clear Z. cbn. induction k as [|k IH]; [|cbn; exact IH]. cbn. destruct tail as [|x r]; [reflexivity|]. cbn. destruct (Nat.eqb_spec x 47) as [->|]; [exfalso; now apply (N r)|reflexivity].
Qed.
Lemma resolve_spec def link base r : resolve def link base = Some r <-> leads def base link r.
Proof.
  unfold resolve. pose proof (absolute_spec link) as A. split.
  - destruct (_ || _) eqn:E in |- *.
    + intros H. injection H as <-. constructor. now apply A.
    + assert (NA : ~ absolute link) by (intros H; apply A in H; congruence). clear A E.
      destruct (split_spec link) as (k & L & NI & N & Z). destruct (split_link link) as [head tail]. cbn [fst snd] in *.
      destruct (match resolve_known head base with Some r => Some r | None => def head base end) as [route|] eqn:R; [|discriminate]. intros H. injection H as <-.
      rewrite L in NA |- *. assert (FE : match tail with [] => route | _ => route ++ 47 :: tail end = route ++ match tail with [] => [] | _ => 47 :: tail end) by (destruct tail; [now rewrite app_nil_r|reflexivity]).
      apply (L_route def base head k tail route (route ++ match tail with [] => [] | _ => 47 :: tail end)); [assumption|assumption|assumption|assumption| |reflexivity|].
      * destruct (resolve_known head base) as [x|] eqn:K.
        -- left. injection R as <-. now apply resolve_known_spec.
        -- right. split; [|exact R]. intros x KX. apply resolve_known_spec in KX. congruence.
      * rewrite <- FE. set (full := match tail with [] => route | _ => route ++ 47 :: tail end). pose proof (ended_spec full) as EN. destruct (negb _ && negb _) in EN |- *; [right|left; split; [now apply EN|reflexivity]].
        split; [intros X; apply EN in X; discriminate|reflexivity].
  - intros H. destruct H as [l AB|head k tail route full r NA NI N Z K F R].
    + apply A in AB. rewrite AB. reflexivity.
    + destruct (_ || _) eqn:E in |- *; [exfalso; apply NA; now apply A|]. rewrite split_one by assumption.
      replace (match resolve_known head base with Some r => Some r | None => def head base end) with (Some route).
      2:{ destruct K as [K|[K D]]; [apply resolve_known_spec in K; now rewrite K|]. destruct (resolve_known head base) as [x|] eqn:X; [apply resolve_known_spec in X; now apply K in X|now symmetry]. }
      assert (FE : match tail return text with [] => route | _ => route ++ 47 :: tail end = full) by (rewrite F; destruct tail; [now rewrite app_nil_r|reflexivity]). cbv beta iota zeta. rewrite FE.
      pose proof (ended_spec full) as EN. f_equal. destruct R as [[X ->]|[X ->]].
      * apply EN in X. rewrite X. reflexivity.
      * destruct (negb _ && negb _) in EN |- *; [reflexivity|]. exfalso. apply X. now apply EN.
Qed.
(** Fonts. *)
Lemma leb_spec a b : variant_leb a b = true <-> below a b.
Proof.
  unfold variant_leb, below. rewrite orb_true_iff, andb_true_iff, orb_true_iff, andb_true_iff, Nat.ltb_lt, Nat.eqb_eq, N.ltb_lt, N.eqb_eq, Nat.leb_le.
  change style_num with rank. assert (S : rank (v_style a) = rank (v_style b) <-> v_style a = v_style b) by (destruct (v_style a), (v_style b); cbn; split; congruence). rewrite S. reflexivity.
Qed.
Lemma below_refl a : below a a.
Proof. right. split; [reflexivity|]. right. split; [reflexivity|lia]. Qed.
Lemma below_total a b : below a b \/ below b a.
Proof.
  unfold below. destruct (lt_eq_lt_dec (rank (v_style a)) (rank (v_style b))) as [[|E]|]; [tauto| |tauto].
  assert (S : v_style a = v_style b) by (destruct (v_style a), (v_style b); cbn in E; congruence). rewrite S. destruct (N.lt_trichotomy (v_weight a) (v_weight b)) as [|[|]]; [tauto| |intuition congruence].
  destruct (le_lt_dec (v_stretch a) (v_stretch b)); [left; auto|right]. right. split; [reflexivity|]. right. split; [now symmetry|lia].
Qed.
Lemma below_trans a b c : below a b -> below b c -> below a c.
Proof.
  unfold below. intros [H|(E & H)] [G|(F & G)].
  - left. lia.
  - left. now rewrite <- F.
  - left. now rewrite E.
  - right. split; [congruence|]. destruct H as [H|[H H']], G as [G|[G G']]; [left; lia|left; lia|left; lia|right; split; [congruence|lia]].
Qed.
Lemma insert_in v l x : In x (insert v l) <-> x = v \/ In x l.
Proof.
  induction l as [|y r IH]; cbn; [intuition|]. destruct (variant_leb v y); cbn; [intuition|]. rewrite IH. intuition.
Qed.
Lemma sort_in l x : In x (sort l) <-> In x l.
Proof. induction l as [|y r IH]; cbn; [tauto|]. rewrite insert_in, IH. intuition. Qed.
Lemma insert_length v l : length (insert v l) = S (length l).
Proof. induction l as [|y r IH]; cbn; [reflexivity|]. destruct (variant_leb v y); cbn; [reflexivity|now rewrite IH]. Qed.
Lemma sort_length l : length (sort l) = length l.
Proof. induction l as [|y r IH]; [reflexivity|]. change (sort (y :: r)) with (insert y (sort r)). rewrite insert_length, IH. reflexivity. Qed.
Lemma insert_sorted v l : StronglySorted below l -> StronglySorted below (insert v l).
Proof.
  induction 1 as [|x r S IH F]; cbn; [repeat constructor|]. destruct (variant_leb v x) eqn:E.
  - apply leb_spec in E. constructor; [now constructor|]. constructor; [assumption|]. eapply Forall_impl; [|exact F]. intros y. now apply below_trans.
  - assert (B : below x v). { destruct (below_total x v) as [B|B]; [assumption|]. apply leb_spec in B. congruence. }
    constructor; [assumption|]. apply Forall_forall. intros y I. apply insert_in in I. destruct I as [->|I]; [assumption|]. rewrite Forall_forall in F. now apply F.
Qed.
Lemma sort_sorted l : StronglySorted below (sort l).
Proof. induction l as [|y r IH]; cbn; [constructor|now apply insert_sorted]. Qed.
Lemma sorted_last h m : StronglySorted below (h ++ [m]) -> forall x, In x (h ++ [m]) -> below x m.
Proof.
  induction h as [|y h IH]; cbn; intros S x I.
  - destruct I as [<-|[]]. apply below_refl.
  - inversion S as [|? ? S' F]; subst. destruct I as [<-|I]; [|now apply IH]. rewrite Forall_forall in F. apply F. apply in_or_app. right. now left.
Qed.
Lemma weigh_all l : forall s, let r := fold_left weigh l s in
  s_count r = s_count s /\ (s_min r <= s_min s)%N /\ (forall v, In v l -> (s_min r <= v_weight v)%N) /\ (s_min r = s_min s \/ exists v, In v l /\ s_min r = v_weight v)
  /\ (s_italic r = true <-> s_italic s = true \/ exists v, In v l /\ v_style v = Italic).
Proof.
  induction l as [|x l IH]; intros s; cbv zeta.
  - cbn. split; [reflexivity|]. split; [lia|]. split; [intros v []|]. split; [now left|]. split; [now left|intros [H|(v & [] & _)]; exact H].
  - cbn [fold_left]. destruct (IH (weigh s x)) as (C & M & A & E & T). cbn in C, M, E, T. split; [exact C|]. split; [lia|]. split; [|split].
    + intros v [<-|I]; [lia|now apply A].
    + destruct E as [E|(v & I & E)]; [|right; exists v; split; [now right|assumption]].
      destruct (N.min_spec (s_min s) (v_weight x)) as [[_ Q]|[_ Q]]; rewrite Q in E; [now left|right; exists x; split; [now left|assumption]].
    + rewrite T, orb_true_iff. split.
      * intros [[H|H]|(v & I & H)]; [now left| |right; exists v; split; [now right|assumption]]. right. exists x. split; [now left|]. now destruct (v_style x).
      * intros [H|(v & [<-|I] & H)]; [now left; left| |right; now exists v]. left. right. now rewrite H.
Qed.
Lemma weigh_max h m s : s_max (fold_left weigh (h ++ [m]) s) = v_weight m.
Proof. rewrite fold_left_app. cbn. lia. Qed.
