(** Proofs about completions. *)
From Coq Require Import List Arith NArith ZArith Bool Lia Permutation Sorted.
From Verif Require Import DigModel DigProof PageModel CompModel CompSpec.
Import ListNotations.
Local Open Scope nat_scope.

(** * Placeholders *)

Lemma capture_ok t a r : capture t = Some (a, r) <-> inner a /\ t = a ++ [125%N] ++ r.
Proof.
  revert a. induction t as [|c t IH]; intros a; cbn.
  - split; [discriminate|]. intros (_ & E). destruct a; discriminate.
  - unfold RBRACE, NEWLINE. destruct (N.eqb_spec c 125) as [->|H1].
    + split.
      * intros H. injection H as <- <-. split; [intros x []|reflexivity].
      * intros (Hi & E). destruct a as [|x a]; cbn in E; [injection E as E; subst; reflexivity|]. injection E as E1 E. subst x. destruct (Hi 125%N); [left; auto|congruence].
    + destruct (N.eqb_spec c 10) as [->|H2].
      * split; [discriminate|]. intros (Hi & E). destruct a as [|x a]; cbn in E; [injection E as E1 E; congruence|]. injection E as E1 E. subst x. destruct (Hi 10%N); [left; auto|congruence].
      * destruct (capture t) as [[a' r']|] eqn:E.
        -- split.
           ++ intros H. injection H as <- <-. destruct (proj1 (IH a') eq_refl) as (Hi & ->). split; [|reflexivity]. intros x [<-|Hx]; auto.
           ++ intros (Hi & E'). destruct a as [|x a]; cbn in E'; [injection E' as E1 E'; congruence|]. injection E' as E1 E'. subst x.
              assert (X : Some (a', r') = Some (a, r)) by (apply IH; split; [intros y Hy; apply Hi; right; auto|exact E']). injection X as -> ->. auto.
        -- split; [discriminate|]. intros (Hi & E'). destruct a as [|x a]; cbn in E'; [injection E' as E1 E'; congruence|]. injection E' as E1 E'. subst x.
           assert (X : None = Some (a, r)) by (apply IH; split; [intros y Hy; apply Hi; right; auto|exact E']). discriminate.
Qed.
Lemma hit_ok t a r : hit t = Some (a, r) <-> inner a /\ t = held a ++ r.
Proof.
  unfold hit, held, DOLLAR, LBRACE. destruct t as [|x [|y t]]; cbn; try (split; [discriminate|intros (_ & E); discriminate]).
  destruct (N.eqb_spec x 36) as [->|Hx]; cbn.
  - destruct (N.eqb_spec y 123) as [->|Hy]; cbn.
    + rewrite capture_ok, <- app_assoc. split; intros (Hi & E); split; auto; [rewrite E; reflexivity|injection E as E; exact E].
    + split; [discriminate|]. intros (_ & E). injection E as -> E. congruence.
  - split; [discriminate|]. intros (_ & E). injection E as -> E. congruence.
Qed.
Lemma hit_opens t : opens t <-> hit t <> None.
Proof.
  split.
  - intros (a & r & Hi & E). assert (X : hit t = Some (a, r)) by (apply hit_ok; auto). congruence.
  - intros H. destruct (hit t) as [[a r]|] eqn:E; [|congruence]. apply hit_ok in E. exists a, r. auto.
Qed.
Lemma hit_shorter t a r : hit t = Some (a, r) -> length r < length t.
Proof. intros H. apply hit_ok in H. destruct H as (_ & ->). unfold held. rewrite !app_length. cbn. lia. Qed.

Lemma pieces_ok : forall n t, length t <= n -> marked t (fst (pieces n t)) (snd (pieces n t)).
Proof.
  induction n as [|n IH]; intros t Hn.
  - destruct t; [|cbn in Hn; lia]. cbn. constructor. intros x y E (a & r & _ & E'). subst y. destruct x; discriminate.
  - destruct t as [|c t]; [cbn; constructor; intros x y E (a & r & _ & E'); subst y; destruct x; discriminate|].
    cbn [pieces]. destruct (hit (c :: t)) as [[a r]|] eqn:E.
    + pose proof (hit_shorter _ _ _ E) as L. specialize (IH r). destruct (pieces n r) as [ps e]. cbn in IH. cbn [length] in L, Hn. cbn [fst snd]. apply hit_ok in E. destruct E as (Hi & ->).
      apply (marked_one [] a r ps e); [exact Hi| |apply IH; lia]. intros x y E' Hy. destruct x; cbn in E'; [congruence|discriminate].
    + cbn in Hn. specialize (IH t). destruct (pieces n t) as [ps e]. cbn in IH. assert (M : marked t ps e) by (apply IH; lia). clear IH.
      assert (No : ~ opens (c :: t)) by (rewrite hit_opens; congruence).
      inversion M; subst; cbn.
      * constructor. intros x y E' Ho. destruct x as [|x0 x]; cbn in E'; [subst y; contradiction|]. injection E' as _ E'. eapply H; eauto.
      * apply (marked_one (c :: b) a r ps0 e); auto. intros x y E' Hy. destruct x as [|x0 x]; cbn in E'; [subst y; exact No|]. injection E' as _ E'. eauto.
Qed.

Lemma app_front {A} : forall (x x' y y' : list A), length x = length x' -> x ++ y = x' ++ y' -> x = x'.
Proof. induction x as [|a x IH]; intros [|b x'] y y' L E; cbn in *; try discriminate; auto. injection E as -> E. f_equal. eapply IH; eauto. Qed.
Lemma held_len a : length (held a) = length a + 3.
Proof. unfold held. rewrite !app_length. cbn. lia. Qed.

(** A text is read in one way. *)
Lemma marked_fun : forall t ps e, marked t ps e -> forall ps' e', marked t ps' e' -> ps = ps' /\ e = e'.
Proof.
  intros t ps e H. induction H as [e Hn|b a r ps e Hi Hb H IH]; intros ps' e' H'.
  - inversion H'; subst; [auto|]. exfalso. eapply Hn; [reflexivity|]. exists a, r. auto.
  - inversion H' as [e0 Hn|b' a' r' ps0 e0 Hi' Hb' H0 E]; subst.
    + exfalso. eapply Hn; [reflexivity|]. exists a, r. auto.
    + change (b' ++ held a' ++ r' = b ++ held a ++ r) in E. assert (Eb : b = b').
      { assert (L : length b = length b').
        { destruct (Nat.lt_trichotomy (length b) (length b')) as [L|[L|L]]; auto; exfalso.
          - apply (Hb' b (skipn (length b) b')).
            + rewrite <- (firstn_skipn (length b) b') at 1. f_equal. apply (f_equal (firstn (length b))) in E. rewrite !firstn_app, Nat.sub_diag, !firstn_all, firstn_O, app_nil_r in E.
              replace (length b - length b') with 0 in E by lia. rewrite firstn_O, app_nil_r in E. exact E.
            + intros X. apply (f_equal (@length _)) in X. rewrite skipn_length in X. cbn in X. lia.
            + exists a, r. split; [exact Hi|]. apply (f_equal (skipn (length b))) in E. rewrite !skipn_app, Nat.sub_diag, !skipn_all in E.
              replace (length b - length b') with 0 in E by lia. rewrite skipn_O in E. exact E.
          - apply (Hb b' (skipn (length b') b)).
            + rewrite <- (firstn_skipn (length b') b) at 1. f_equal. apply (f_equal (firstn (length b'))) in E. rewrite !firstn_app, Nat.sub_diag, !firstn_all, firstn_O, app_nil_r in E.
              replace (length b' - length b) with 0 in E by lia. rewrite firstn_O, app_nil_r in E. auto.
            + intros X. apply (f_equal (@length _)) in X. rewrite skipn_length in X. cbn in X. lia.
            + exists a', r'. split; [exact Hi'|]. apply (f_equal (skipn (length b'))) in E. rewrite !skipn_app, Nat.sub_diag, !skipn_all in E.
              replace (length b' - length b) with 0 in E by lia. rewrite skipn_O in E. auto. }
        exact (app_front _ _ _ _ L (eq_sym E)). }
      subst b'. apply app_inv_head in E.
      assert (X : hit (held a ++ r) = Some (a, r)) by (apply hit_ok; auto). assert (Y : hit (held a ++ r) = Some (a', r')) by (apply hit_ok; split; [exact Hi'|symmetry; exact E]).
      rewrite X in Y. injection Y as <- <-. destruct (IH _ _ H0) as (-> & ->). auto.
Qed.

Lemma decimal_ok k : decimal k (print_num 10 k).
Proof.
  split; [apply print_nonempty|]. assert (F : Forall (fun d => (d < 10)%N) (digits 10 (S (N.size_nat k)) k [])) by (apply digits_small; [lia|constructor]).
  split.
  - unfold print_num. apply Forall_map. eapply Forall_impl; [|exact F]. intros d Hd. cbn in *. unfold dchar. destruct (N.ltb_spec d 10); lia.
  - unfold print_num. transitivity (value 10 0 (digits 10 (S (N.size_nat k)) k [])).
    + unfold value. revert F. generalize (digits 10 (S (N.size_nat k)) k []). intros l F. generalize 0%N. induction F as [|d l Hd F IH]; intros v; cbn; auto.
      rewrite IH. f_equal. unfold dchar. destruct (N.ltb_spec d 10); lia.
    + rewrite digits_value; [reflexivity|lia|]. apply size_pow. lia.
Qed.
Lemma numbered_ok : forall ps k e, renders k ps e (numbered k ps ++ e).
Proof.
  induction ps as [|[b a] ps IH]; intros k e; cbn [numbered]; [constructor|].
  rewrite <- !app_assoc. apply (renders_one k b a ps e (print_num 10 k) (numbered (k + 1) ps ++ e)); [apply decimal_ok|apply IH].
Qed.

(** * Subsequences *)

Lemma seek_ok c t : match seek c t with Some t' => exists x, t = x ++ c :: t' /\ ~ In c x | None => ~ In c t end.
Proof.
  induction t as [|d t IH]; cbn; [auto|]. destruct (N.eqb_spec d c) as [->|H].
  - exists []. split; [reflexivity|intros []].
  - destruct (seek c t) as [t'|].
    + destruct IH as (x & -> & Hx). exists (d :: x). split; [reflexivity|]. intros [E|Hin]; [congruence|auto].
    + intros [E|Hin]; [congruence|auto].
Qed.
Lemma sub_pre x p t : subsequence p t -> subsequence p (x ++ t).
Proof. intros H. induction x; cbn; auto. constructor. auto. Qed.
Lemma sub_in c p t : subsequence (c :: p) t -> In c t.
Proof. remember (c :: p) as q. induction 1; [discriminate| |right; auto]. injection Heqq as -> ->. left. auto. Qed.
Lemma sub_first c p : forall x t, ~ In c x -> subsequence (c :: p) (x ++ c :: t) -> subsequence p t.
Proof.
  induction x as [|d x IH]; intros t Hx H; cbn in H.
  - inversion H; subst; auto. clear H. revert H2. generalize dependent p. intros p H.
    remember (c :: p) as q. clear Hx. revert p Heqq. induction H as [t|c0 p0 t H IHs|p0 c0 t H IHs]; intros p E; [discriminate| |].
    + injection E as -> ->. constructor. exact H.
    + constructor. apply IHs. exact E.
  - inversion H; subst; [destruct Hx; left; auto|]. apply IH; auto. intros Hin. apply Hx. right. auto.
Qed.
Lemma matching_ok : forall p t, matching p t = true <-> subsequence p t.
Proof.
  induction p as [|c p IH]; intros t; cbn; [split; [intros _; constructor|auto]|].
  pose proof (seek_ok c t) as S. destruct (seek c t) as [t'|].
  - destruct S as (x & -> & Hx). rewrite IH. split; intros H; [apply sub_pre; constructor; auto|apply (sub_first c p x t'); auto].
  - split; [discriminate|]. intros H. apply sub_in in H. contradiction.
Qed.

(** * Order *)

Lemma cmp_eq : forall a b, text_cmp a b = Eq <-> a = b.
Proof.
  induction a as [|x a IH]; intros [|y b]; cbn; try (split; congruence).
  destruct (N.compare_spec x y) as [->|H|H]; [rewrite IH; split; [intros ->; auto|intros E; injection E; auto]| |];
    (split; [discriminate|intros E; injection E as -> _; lia]).
Qed.
Lemma cmp_lt : forall a b, text_cmp a b = Lt <-> text_lt a b.
Proof.
  induction a as [|x a IH]; intros [|y b]; cbn.
  - split; [discriminate|inversion 1].
  - split; [constructor|auto].
  - split; [discriminate|inversion 1].
  - destruct (N.compare_spec x y) as [->|H|H].
    + rewrite IH. split; [intros; constructor 3; auto|]. inversion 1; subst; [lia|auto].
    + split; [intros _; constructor 2; auto|auto].
    + split; [discriminate|]. inversion 1; subst; lia.
Qed.
Lemma cmp_sym : forall a b, text_cmp b a = CompOpp (text_cmp a b).
Proof. induction a as [|x a IH]; intros [|y b]; cbn; auto. rewrite (N.compare_antisym x y). destruct (N.compare x y); cbn; auto. Qed.
Lemma lt_trans_t : forall a b c, text_lt a b -> text_lt b c -> text_lt a c.
Proof.
  intros a b c H. revert c. induction H as [c t|c d s t Hcd|c s t H IH]; intros z Hz; inversion Hz as [|c1 d1 s1 t1 H1|c1 s1 t1 H1]; subst.
  - apply lt_nil.
  - apply lt_nil.
  - apply lt_head. lia.
  - apply lt_head. exact Hcd.
  - apply lt_head. exact H1.
  - apply lt_tail. auto.
Qed.
Lemma item_cmp_lt a b : item_cmp a b = Lt <-> item_lt a b.
Proof.
  unfold item_cmp, item_lt. destruct (sort_text a) as [s|], (sort_text b) as [t|]; cbn.
  - destruct (text_cmp s t) eqn:E.
    + apply cmp_eq in E. subst t. rewrite cmp_lt. split; [auto|]. intros [H|(_ & H)]; auto. inversion H as [|? ? H1]; subst. apply cmp_lt in H1. rewrite (proj2 (cmp_eq s s) eq_refl) in H1. discriminate.
    + split; auto. intros _. left. constructor. apply cmp_lt. auto.
    + split; [discriminate|]. intros [H|(H & _)].
      * inversion H as [|? ? H1]; subst. apply cmp_lt in H1. congruence.
      * injection H as ->. rewrite (proj2 (cmp_eq t t) eq_refl) in E. discriminate.
  - split; [discriminate|]. intros [H|(H & _)]; [inversion H|discriminate].
  - split; auto. intros _. left. constructor.
  - rewrite cmp_lt. split; auto. intros [H|(_ & H)]; auto. inversion H.
Qed.
Lemma item_cmp_eq a b : item_cmp a b = Eq <-> same_rank a b.
Proof.
  unfold item_cmp, same_rank. destruct (sort_text a) as [s|], (sort_text b) as [t|]; cbn; try (split; [discriminate|intros (H & _); discriminate]).
  - destruct (text_cmp s t) eqn:E.
    + apply cmp_eq in E. subst t. rewrite cmp_eq. split; [auto|intros (_ & H); auto].
    + split; [discriminate|]. intros (H & _). injection H as ->. rewrite (proj2 (cmp_eq t t) eq_refl) in E. discriminate.
    + split; [discriminate|]. intros (H & _). injection H as ->. rewrite (proj2 (cmp_eq t t) eq_refl) in E. discriminate.
  - rewrite cmp_eq. split; [auto|intros (_ & H); auto].
Qed.
Lemma opt_cmp_sym a b : opt_cmp b a = CompOpp (opt_cmp a b).
Proof. destruct a, b; cbn; auto. apply cmp_sym. Qed.
Lemma item_cmp_sym a b : item_cmp b a = CompOpp (item_cmp a b).
Proof. unfold item_cmp. rewrite (opt_cmp_sym (sort_text a)). destruct (opt_cmp (sort_text a) (sort_text b)); cbn; auto. apply cmp_sym. Qed.
Lemma item_cmp_gt a b : item_cmp a b = Gt <-> item_lt b a.
Proof. rewrite <- item_cmp_lt, (item_cmp_sym a b). destruct (item_cmp a b); cbn; split; congruence. Qed.
Lemma item_lt_trans a b c : item_lt a b -> item_lt b c -> item_lt a c.
Proof.
  intros [H|(H1 & H2)] [K|(K1 & K2)].
  - left. destruct (sort_text a) as [x|], (sort_text b) as [y|], (sort_text c) as [z|]; inversion H as [|? ? H1]; inversion K as [|? ? K1]; subst; constructor. eapply lt_trans_t; eauto.
  - left. rewrite <- K1. auto.
  - left. rewrite H1. auto.
  - right. split; [congruence|]. eapply lt_trans_t; eauto.
Qed.
Lemma item_lt_irr a : ~ item_lt a a.
Proof. rewrite <- item_cmp_lt. assert (X : item_cmp a a = Eq) by (apply item_cmp_eq; split; auto). congruence. Qed.
(** Not greater is transitive. *)
Lemma item_le_trans a b c : ~ item_lt b a -> ~ item_lt c b -> ~ item_lt c a.
Proof.
  intros H1 H2 H. destruct (item_cmp a b) eqn:E.
  - apply item_cmp_eq in E. destruct E as (E1 & E2). apply H2. destruct H as [H|(H & H')]; [left; rewrite <- E1; auto|right; rewrite <- E1, <- E2; auto].
  - apply item_cmp_lt in E. apply H2. eapply item_lt_trans; eauto.
  - apply item_cmp_gt in E. auto.
Qed.

Lemma insert_perm x l : Permutation (x :: l) (insert x l).
Proof. induction l as [|y l IH]; cbn; auto. destruct (item_cmp x y); auto. rewrite perm_swap. constructor. auto. Qed.
Lemma insert_sorted x l : StronglySorted (fun a b => ~ item_lt b a) l -> StronglySorted (fun a b => ~ item_lt b a) (insert x l).
Proof.
  induction 1 as [|y l H IH HF]; cbn; [repeat constructor|]. destruct (item_cmp x y) eqn:E.
  - assert (Hxy : ~ item_lt y x) by (rewrite <- item_cmp_gt; congruence). constructor; [constructor; auto|]. constructor; auto. eapply Forall_impl; [|exact HF]. intros z Hz. cbn in *. eapply item_le_trans; eauto.
  - assert (Hxy : ~ item_lt y x) by (rewrite <- item_cmp_gt; congruence). constructor; [constructor; auto|]. constructor; auto. eapply Forall_impl; [|exact HF]. intros z Hz. cbn in *. eapply item_le_trans; eauto.
  - constructor; auto. apply item_cmp_gt in E. apply Forall_forall. intros z Hz. apply (Permutation_in _ (Permutation_sym (insert_perm x l))) in Hz. destruct Hz as [<-|Hz].
    + intros K. apply (item_lt_irr x). eapply item_lt_trans; eauto.
    + rewrite Forall_forall in HF. auto.
Qed.
Lemma insert_split x l : exists a b, l = a ++ b /\ insert x l = a ++ x :: b /\ forall z, In z a -> item_lt z x.
Proof.
  induction l as [|y l IH]; cbn; [exists [], []; split; [auto|split; [auto|intros z []]]|].
  destruct (item_cmp x y) eqn:E.
  - exists [], (y :: l). split; [auto|split; [auto|intros z []]].
  - exists [], (y :: l). split; [auto|split; [auto|intros z []]].
  - destruct IH as (a & b & -> & -> & H). exists (y :: a), b. split; [auto|split; [auto|]]. intros z [<-|Hz]; auto. apply item_cmp_gt. auto.
Qed.

(** Position of two members of a list. *)
Lemma app_two {A} : forall (a b : list A) u v x y z, a ++ b = u ++ x :: v ++ y :: z ->
  (exists v1 v2, a = u ++ x :: v1 /\ b = v2 ++ y :: z /\ v = v1 ++ v2) \/
  (exists z1, a = u ++ x :: v ++ y :: z1 /\ z = z1 ++ b) \/ (exists u2, u = a ++ u2 /\ b = u2 ++ x :: v ++ y :: z).
Proof.
  induction a as [|p a IH]; intros b u v x y z E; cbn in E.
  - right. right. exists u. auto.
  - destruct u as [|q u]; cbn in E; injection E as -> E.
    + clear IH. revert b v E. induction a as [|p a IH]; intros b v E; cbn in E.
      * left. exists [], v. auto.
      * destruct v as [|q v]; cbn in E; injection E as -> E.
        -- right. left. exists a. subst. auto.
        -- destruct (IH b v E) as [(v1 & v2 & E1 & E2 & E3)|[(z1 & E1 & E2)|(u2 & E1 & E2)]].
           ++ left. injection E1 as ->. exists (q :: v1), v2. subst. auto.
           ++ right. left. injection E1 as ->. exists z1. auto.
           ++ discriminate.
    + destruct (IH b u v x y z E) as [(v1 & v2 & -> & -> & ->)|[(z1 & -> & ->)|(u2 & -> & ->)]].
      * left. exists v1, v2. auto.
      * right. left. exists z1. auto.
      * right. right. exists u2. auto.
Qed.

Lemma sort_ok l : stably_sorted l (sort l).
Proof.
  unfold sort. induction l as [|x l (IH1 & IH2 & IH3)]; cbn [fold_right].
  - split; [constructor|]. split; [constructor|]. intros x y a b _ c E. destruct a; discriminate.
  - set (s := fold_right insert [] l) in *. split; [|split].
    + rewrite <- insert_perm. constructor. exact IH1.
    + apply insert_sorted. exact IH2.
    + intros p q a b Hr c E. destruct (insert_split x s) as (u & v & Es & Ei & Hu). rewrite Ei in E.
      assert (Hlt : forall z, In z u -> ~ same_rank z x).
      { intros z Hz K. apply Hu in Hz. apply item_cmp_lt in Hz. apply item_cmp_eq in K. congruence. }
      assert (D : (p = x /\ In q v) \/ (q = x /\ In p u) \/ exists a' b' c', s = a' ++ p :: b' ++ q :: c').
      { destruct (app_two u (x :: v) a b p q c E) as [(v1 & v2 & E1 & E2 & E3)|[(z1 & E1 & E2)|(u2 & E1 & E2)]].
        - destruct v2 as [|w v2]; cbn in E2; injection E2 as E2 E2'.
          + right. left. subst. split; [auto|]. apply in_elt.
          + right. right. exists a, (v1 ++ v2), c. rewrite Es, E1, E2'. rewrite <- ?app_assoc; cbn [app]; rewrite <- ?app_assoc; cbn [app]; reflexivity.
        - right. right. exists a, b, (z1 ++ v). rewrite Es, E1. rewrite <- ?app_assoc; cbn [app]; rewrite <- ?app_assoc; cbn [app]; reflexivity.
        - destruct u2 as [|w u2]; cbn in E2; injection E2 as E2 E2'.
          + left. subst. split; [auto|]. apply in_elt.
          + right. right. exists (u ++ u2), b, c. rewrite Es, E2'. rewrite <- ?app_assoc; cbn [app]; rewrite <- ?app_assoc; cbn [app]; reflexivity. }
      destruct D as [(-> & Hq)|[(-> & Hp)|(a' & b' & c' & E')]].
      * assert (Hin : In q l). { eapply Permutation_in; [symmetry; exact IH1|]. rewrite Es. apply in_or_app. auto. }
        apply in_split in Hin. destruct Hin as (l1 & l2 & ->). exists [], l1, l2. auto.
      * exfalso. eapply Hlt; eauto.
      * destruct (IH3 p q a' b' Hr c' E') as (a2 & b2 & c2 & ->). exists (x :: a2), b2, c2. auto.
Qed.

(** The numbers. *)
Definition low (n : N) : text := [48 + n / 100; 48 + n / 10 mod 10; 48 + n mod 10]%N.
Fixpoint all_low (n : nat) : bool :=
  match n with 0 => true | S n' => (match text_cmp (three (N.of_nat n')) (low (N.of_nat n')) with Eq => true | _ => false end) && all_low n' end.
Lemma all_low_1000 : all_low 1000 = true.
Proof. vm_compute. reflexivity. Qed.
Lemma low_ok n : (n < 1000)%N -> three n = low n.
Proof.
  intros H. assert (X : forall k m, all_low k = true -> m < k -> three (N.of_nat m) = low (N.of_nat m)).
  { induction k as [|k IH]; intros m Hk Hm; [lia|]. cbn [all_low] in Hk. apply andb_true_iff in Hk. destruct Hk as (H1 & H2).
    destruct (Nat.eq_dec m k) as [->|Hne]; [|apply IH; auto; lia]. destruct (text_cmp _ _) eqn:E; try discriminate. apply cmp_eq in E. exact E. }
  rewrite <- (N2Nat.id n). apply (X 1000); [apply all_low_1000|lia].
Qed.
Lemma three_lt n m : (n < m < 1000)%N -> text_lt (three n) (three m).
Proof.
  intros H. rewrite (low_ok n), (low_ok m) by lia. unfold low.
  assert (D : forall k, (k = 100 * (k / 100) + 10 * (k / 10 mod 10) + k mod 10 /\ k / 10 mod 10 < 10 /\ k mod 10 < 10)%N).
  { intros k. pose proof (N.div_mod k 10 ltac:(discriminate)) as E1. pose proof (N.div_mod (k / 10) 10 ltac:(discriminate)) as E2.
    rewrite N.div_div in E2 by discriminate. change (10 * 10)%N with 100%N in E2. pose proof (N.mod_lt k 10 ltac:(discriminate)). pose proof (N.mod_lt (k / 10) 10 ltac:(discriminate)). lia. }
  destruct (D n) as (En & Bn & Cn), (D m) as (Em & Bm & Cm). revert En Bn Cn Em Bm Cm.
  generalize (n / 100)%N, (n / 10 mod 10)%N, (n mod 10)%N, (m / 100)%N, (m / 10 mod 10)%N, (m mod 10)%N. intros a b c a' b' c' En Bn Cn Em Bm Cm.
  destruct (N.lt_trichotomy a a') as [L|[->|L]]; [constructor 2; lia| |lia]. constructor 3.
  destruct (N.lt_trichotomy b b') as [L|[->|L]]; [constructor 2; lia| |lia]. constructor 3. constructor 2. lia.
Qed.

Lemma number_same : forall l k, Forall2 same_item l (number k l).
Proof. induction l as [|x l IH]; intros k; cbn; constructor; auto. repeat split; auto. Qed.
Lemma number_len : forall l k, length (number k l) = length l.
Proof. induction l; intros k; cbn; auto. Qed.
Lemma number_app : forall a b k, number k (a ++ b) = number k a ++ number (k + N.of_nat (length a)) b.
Proof.
  induction a as [|x a IH]; intros b k; cbn [number app length]; [rewrite N.add_0_r; auto|]. rewrite IH. replace (k + 1 + N.of_nat (length a))%N with (k + N.of_nat (S (length a)))%N by lia. reflexivity.
Qed.
Lemma number_sorted : forall l k, (k + N.of_nat (length l) <= 1000)%N -> StronglySorted (fun a b => opt_lt (sort_text a) (sort_text b)) (number k l).
Proof.
  induction l as [|x l IH]; intros k H; cbn [number]; constructor.
  - apply IH. cbn [length] in H. lia.
  - cbn [length] in H. clear IH. assert (X : forall l j, (k < j)%N -> (j + N.of_nat (length l) <= 1000)%N -> Forall (fun b => opt_lt (Some (three k)) (sort_text b)) (number j l)).
    { clear. induction l as [|y l IH]; intros j Hj Hl; cbn [number]; constructor; cbn [length] in Hl.
      - cbn. constructor. apply three_lt. lia.
      - apply IH; lia. }
    apply X; lia.
Qed.

(** * Slices *)

Lemma boundary_cons c s i : char_bytes c -> 0 < i -> boundary (c ++ s) i = if i <? length c then false else if i =? length c then (match s with [] => true | b :: _ => negb (N.leb 128 b && N.ltb b 192) end) else boundary s (i - length c).
Proof.
  intros (x & r & -> & Hx & Hr) Hi. unfold boundary at 1. destruct (Nat.eqb_spec i 0); [lia|]. destruct (Nat.ltb_spec i (length (x :: r))) as [L|L].
  - rewrite nth_error_app1 by auto. destruct (nth_error (x :: r) i) as [b|] eqn:E; [|apply nth_error_None in E; lia].
    destruct i as [|i]; [lia|]. cbn in E. apply nth_error_In in E. rewrite Forall_forall in Hr. apply Hr in E. unfold cont in E.
    destruct (N.leb_spec 128 b), (N.ltb_spec b 192); cbn; auto; lia.
  - rewrite nth_error_app2 by auto. destruct (Nat.eqb_spec i (length (x :: r))) as [->|Hne].
    + rewrite Nat.sub_diag. destruct s as [|b s]; cbn [nth_error]; [rewrite app_nil_r, Nat.eqb_refl; auto|auto].
    + unfold boundary. destruct (Nat.eqb_spec (i - length (x :: r)) 0); [lia|]. destruct (nth_error s (i - length (x :: r))); auto.
      rewrite app_length. destruct (Nat.eqb_spec i (length (x :: r) + length s)), (Nat.eqb_spec (i - length (x :: r)) (length s)); auto; lia.
Qed.
Lemma boundary_ok : forall cs, Forall char_bytes cs -> forall i, boundary (concat cs) i = true <-> exists c1 c2, cs = c1 ++ c2 /\ i = length (concat c1).
Proof.
  intros cs H. induction H as [|c cs Hc H IH]; intros i.
  - unfold boundary. destruct (Nat.eqb_spec i 0) as [->|Hi].
    + split; auto. intros _. exists [], []. auto.
    + destruct i as [|i]; [lia|]. cbn. split; [discriminate|]. intros (c1 & c2 & E & Ei). destruct c1; [cbn in Ei; lia|discriminate].
  - destruct (Nat.eq_dec i 0) as [->|Hi].
    + split; [|auto]. intros _. exists [], (c :: cs). auto.
    + cbn [concat]. rewrite boundary_cons by (auto; lia). assert (Lc : 0 < length c) by (destruct Hc as (x & r & -> & _); cbn; lia).
      destruct (Nat.ltb_spec i (length c)) as [L|L].
      * split; [discriminate|]. intros (c1 & c2 & E & Ei). destruct c1 as [|d c1]; [cbn in Ei; lia|]. injection E as <- E. cbn in Ei. rewrite app_length in Ei. lia.
      * destruct (Nat.eqb_spec i (length c)) as [Ei|Hne].
        -- split.
           ++ intros _. exists [c], cs. split; [reflexivity|]. cbn. rewrite app_nil_r. exact Ei.
           ++ intros _. destruct cs as [|d cs]; [reflexivity|]. inversion H as [|d' cs' Hd HF]; subst. destruct Hd as (x & r & -> & Hx & _). cbn [concat app].
              unfold cont in Hx. destruct (N.leb_spec 128 x), (N.ltb_spec x 192); cbn [andb negb]; try reflexivity; lia.
        -- rewrite IH. split.
           ++ intros (c1 & c2 & -> & Ei). exists (c :: c1), c2. split; [reflexivity|]. cbn. rewrite app_length. lia.
           ++ intros (c1 & c2 & E & Ei). destruct c1 as [|d c1]; [cbn in Ei; lia|]. injection E as <- ->. exists c1, c2. split; [reflexivity|]. cbn in Ei. rewrite app_length in Ei. lia.
Qed.

Lemma up_ok s b : forall n a, b - a <= n -> a <= up n s a b /\ (a <= b -> up n s a b <= b) /\ (b <= a -> up n s a b = a) /\ (up n s a b < b -> boundary s (up n s a b) = true) /\ (forall i, a <= i < up n s a b -> boundary s i = false).
Proof.
  induction n as [|n IH]; intros a Hn; cbn [up].
  - (split; [|split; [|split; [|split]]]); intros; try (exfalso; lia); try lia; auto.
  - destruct (Nat.ltb_spec a b) as [L|L]; cbn [andb].
    + destruct (boundary s a) eqn:E; cbn [negb].
      * (split; [|split; [|split; [|split]]]); intros; try (exfalso; lia); try lia; auto.
      * destruct (IH (a + 1) ltac:(lia)) as (H1 & H2 & H3 & H4 & H5). (split; [lia|split; [lia|split; [lia|split; [exact H4|]]]]). intros i Hi. destruct (Nat.eq_dec i a) as [->|]; auto. apply H5. lia.
    + (split; [|split; [|split; [|split]]]); intros; try (exfalso; lia); try lia; auto.
Qed.
Lemma down_ok s a : forall n b, b - a <= n -> down n s a b <= b /\ (a <= b -> a <= down n s a b) /\ (b <= a -> down n s a b = b) /\ (a < down n s a b -> boundary s (down n s a b) = true) /\ (forall i, down n s a b < i <= b -> boundary s i = false).
Proof.
  induction n as [|n IH]; intros b Hn; cbn [down].
  - (split; [|split; [|split; [|split]]]); intros; try (exfalso; lia); try lia; auto.
  - destruct (Nat.ltb_spec a b) as [L|L]; cbn [andb].
    + destruct (boundary s b) eqn:E; cbn [negb].
      * (split; [|split; [|split; [|split]]]); intros; try (exfalso; lia); try lia; auto.
      * destruct (IH (b - 1) ltac:(lia)) as (H1 & H2 & H3 & H4 & H5). (split; [lia|split; [lia|split; [lia|split; [exact H4|]]]]). intros i Hi. destruct (Nat.eq_dec i b) as [->|]; auto. apply H5. lia.
    + (split; [|split; [|split; [|split]]]); intros; try (exfalso; lia); try lia; auto.
Qed.
Lemma within_app k a b : forall c1 c2, within k a b (c1 ++ c2) = within k a b c1 ++ within (k + length (concat c1)) a b c2.
Proof.
  intros c1. revert k. induction c1 as [|c c1 IH]; intros k c2; cbn [within app concat].
  - cbn. rewrite Nat.add_0_r. auto.
  - rewrite IH, app_length, <- app_assoc, Nat.add_assoc. auto.
Qed.
Lemma within_none : forall cs k a b, (forall c1 c c2, cs = c1 ++ c :: c2 -> ~ (a <= k + length (concat c1) /\ k + length (concat c1) + length c <= b)) -> within k a b cs = [].
Proof.
  induction cs as [|c cs IH]; intros k a b H; cbn; auto. rewrite IH.
  - specialize (H [] c cs eq_refl). cbn in H. destruct (Nat.leb_spec a k), (Nat.leb_spec (k + length c) b); cbn; auto. lia.
  - intros c1 d c2 ->. specialize (H (c :: c1) d c2 eq_refl). cbn in H. rewrite app_length in H. lia.
Qed.
Lemma within_all : forall cs k a b, a <= k -> k + length (concat cs) <= b -> within k a b cs = cs.
Proof.
  induction cs as [|c cs IH]; intros k a b Ha Hb; cbn in *; auto. rewrite app_length in Hb. rewrite IH by lia.
  destruct (Nat.leb_spec a k), (Nat.leb_spec (k + length c) b); cbn; auto; lia.
Qed.

Lemma front_more : forall (c1 r1 c12 c3 : list (list N)), c1 ++ r1 = c12 ++ c3 -> length (concat c1) < length (concat c12) -> exists c2, c12 = c1 ++ c2.
Proof.
  induction c1 as [|c c1 IH]; intros r1 c12 c3 E L; [exists c12; auto|]. destruct c12 as [|d c12]; [cbn in L; lia|].
  cbn [app] in E. injection E as <- E. cbn [concat] in L. rewrite !app_length in L. destruct (IH r1 c12 c3 E ltac:(lia)) as (c2 & ->). exists c2. auto.
Qed.
Lemma slice_ok cs a b : Forall char_bytes cs -> slice_at (concat cs) a b = Some (concat (within 0 a b cs)).
Proof.
  intros HF. assert (B := boundary_ok cs HF). unfold slice_at. set (a' := up (b - a) (concat cs) a b). set (b' := down (b - a') (concat cs) a' b).
  destruct (up_ok (concat cs) b (b - a) a ltac:(lia)) as (U1 & U2 & U3 & U4 & U5). fold a' in U1, U2, U3, U4, U5.
  destruct (down_ok (concat cs) a' (b - a') b ltac:(lia)) as (D1 & D2 & D3 & D4 & D5). fold b' in D1, D2, D3, D4, D5.
  assert (Lc : forall c, In c cs -> 0 < length c) by (intros c Hc; rewrite Forall_forall in HF; destruct (HF c Hc) as (x & r & -> & _); cbn; lia).
  assert (Bk : forall c1 c c2, cs = c1 ++ c :: c2 -> boundary (concat cs) (length (concat c1)) = true /\ boundary (concat cs) (length (concat c1) + length c) = true).
  { intros c1 c c2 E. split; apply B; [exists c1, (c :: c2)|exists (c1 ++ [c]), c2]; split; auto; [rewrite <- app_assoc; auto|]. rewrite concat_app, app_length. cbn. rewrite app_nil_r. auto. }
  destruct (Nat.ltb_spec a' b') as [L|L].
  - assert (Ba : boundary (concat cs) a' = true) by (apply U4; lia). assert (Bb : boundary (concat cs) b' = true) by (apply D4; lia). rewrite Ba, Bb. cbn [andb]. f_equal.
    apply B in Ba, Bb. destruct Ba as (c1 & r1 & E1 & Ea), Bb as (c12 & c3 & E2 & Eb).
    assert (X : exists c2, c12 = c1 ++ c2).
    { apply (front_more c1 r1 c12 c3); [congruence|lia]. }
    destruct X as (c2 & ->). rewrite E2. rewrite !within_app. rewrite within_none.
    + rewrite (within_all c2); [|lia|rewrite concat_app, app_length in Eb; lia]. rewrite within_none.
      * cbn [app]. rewrite app_nil_r, !concat_app. rewrite <- app_assoc. rewrite skipn_app, Ea, Nat.sub_diag, skipn_all. cbn [app skipn]. rewrite concat_app, app_length in Eb.
        rewrite firstn_app. replace (b' - length (concat c1)) with (length (concat c2)) by lia. rewrite Nat.sub_diag, firstn_all, firstn_O, app_nil_r. auto.
      * intros c4 c c5 E (K1 & K2). destruct (Bk (c1 ++ c2 ++ c4) c c5) as (_ & K); [rewrite E2, E, <- !app_assoc; auto|].
        assert (Hc : 0 < length c). { apply Lc. rewrite E2, E. apply in_or_app. right. apply in_elt. }
        rewrite D5 in K; [discriminate|]. rewrite !concat_app, !app_length in *. lia.
    + intros c4 c c5 E (K1 & K2). destruct (Bk c4 c (c5 ++ c2 ++ c3)) as (K & _); [rewrite E2, E, <- !app_assoc; auto|]. cbn in K1, K2.
      rewrite U5 in K; [discriminate|]. assert (Hc : 0 < length c). { apply Lc. rewrite E2, E, <- !app_assoc. apply in_elt. }
      rewrite E, concat_app, app_length in Ea. cbn in Ea. rewrite app_length in Ea. lia.
  - rewrite within_none; [reflexivity|]. intros c1 c c2 E (K1 & K2). cbn in K1, K2. destruct (Bk c1 c c2 E) as (Ka & Kb).
    assert (Hc : 0 < length c) by (apply Lc; rewrite E; apply in_elt).
    assert (X1 : a' <= length (concat c1)). { destruct (Nat.le_gt_cases a' (length (concat c1))); auto. rewrite U5 in Ka; [discriminate|lia]. }
    assert (X2 : length (concat c1) + length c <= b'). { destruct (Nat.le_gt_cases (length (concat c1) + length c) b'); auto. rewrite D5 in Kb; [discriminate|lia]. }
    lia.
Qed.
