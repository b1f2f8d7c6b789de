(** Proofs about texts, comments and the definitions they belong to. *)
From Coq Require Import List Arith NArith Bool Lia.
From Verif Require Import DocModel DocSpec.
Import ListNotations.

(** * Texts *)

Lemma white_ok c : white c = true <-> blank c.
Proof.
  unfold white, blank. rewrite !orb_true_iff, !andb_true_iff, !N.leb_le, !N.eqb_eq. tauto.
Qed.
Lemma white_no c : white c = false <-> ~ blank c.
Proof. rewrite <- white_ok. destruct (white c); split; congruence. Qed.

Lemma drop_while_ok p : forall s, exists a, s = a ++ drop_while p s /\ Forall (fun c => p c = true) a /\
  (forall c u, drop_while p s = c :: u -> p c = false).
Proof.
  induction s as [|c s IH]; cbn.
  - exists []. repeat split; auto. discriminate.
  - destruct (p c) eqn:E.
    + destruct IH as (a & H1 & H2 & H3). exists (c :: a). cbn. split; [f_equal; auto|]. split; auto.
    + exists []. repeat split; auto. intros x u Hx. injection Hx as -> ->. auto.
Qed.
Lemma drop_while_app p : forall a s, Forall (fun c => p c = true) a -> drop_while p (a ++ s) = drop_while p s.
Proof. induction 1; cbn; auto. rewrite H. auto. Qed.
Lemma drop_while_stop p s : (forall c u, s = c :: u -> p c = false) -> drop_while p s = s.
Proof. destruct s as [|c s]; auto. intros H. cbn. rewrite (H c s eq_refl). auto. Qed.

Lemma blanks a : Forall (fun c => white c = true) a <-> Forall blank a.
Proof. rewrite !Forall_forall. split; intros H c Hc; apply white_ok; auto. Qed.
Lemma ink_stop t : starts_ink t <-> (forall c u, t = c :: u -> white c = false).
Proof. unfold starts_ink. split; intros H c u E; apply white_no; eauto. Qed.
Lemma ends_rev t : ends_ink t <-> starts_ink (rev t).
Proof.
  unfold starts_ink, ends_ink. split.
  - intros H c u E. apply (H c (rev u)). rewrite <- (rev_involutive t), E. auto.
  - intros H c u ->. apply (H c (rev u)). rewrite rev_app_distr. auto.
Qed.

Lemma trim_start_ok s t : trim_start s = t <-> left_trimmed s t.
Proof.
  unfold trim_start, left_trimmed. split.
  - intros <-. destruct (drop_while_ok white s) as (a & H1 & H2 & H3). exists a. split; auto. split; [apply blanks; auto|apply ink_stop; auto].
  - intros (a & -> & Ha & Ht). rewrite drop_while_app by (apply blanks; auto). apply drop_while_stop. apply ink_stop. auto.
Qed.
Lemma trim_end_ok s t : trim_end s = t <-> right_trimmed s t.
Proof.
  unfold trim_end, right_trimmed. split.
  - intros <-. destruct (drop_while_ok white (rev s)) as (a & H1 & H2 & H3). exists (rev a). split.
    + rewrite <- rev_app_distr, <- H1, rev_involutive. auto.
    + split; [apply Forall_rev, blanks; auto|]. apply ends_rev. rewrite rev_involutive. apply ink_stop. auto.
  - intros (b & -> & Hb & Ht). rewrite rev_app_distr, drop_while_app by (apply blanks, Forall_rev; auto).
    rewrite drop_while_stop, rev_involutive; auto. apply ink_stop, ends_rev. auto.
Qed.
Lemma ends_app a t : t <> [] -> ends_ink (a ++ t) <-> ends_ink t.
Proof.
  intros Ht. destruct (exists_last Ht) as (u & c & ->). unfold ends_ink. split; intros H c' u' E.
  - apply app_inj_tail in E. destruct E as (-> & ->). apply (H c' (a ++ u')). rewrite app_assoc. auto.
  - rewrite app_assoc in E. apply app_inj_tail in E. destruct E as (<- & ->). apply (H c' u). auto.
Qed.
Lemma trim_ok s t : trim s = t <-> trimmed s t.
Proof.
  unfold trim, trimmed. split.
  - intros H. apply trim_end_ok in H. destruct H as (b & Hb & Hbb & Ht). pose proof (proj1 (trim_start_ok s _) eq_refl) as (a & Ha & Haa & Hs).
    exists a, b. rewrite <- Hb. repeat split; auto. rewrite Hb in Hs. intros c u ->. eapply Hs. reflexivity.
  - intros (a & b & -> & Ha & Hb & Hs & Ht). apply trim_end_ok.
    destruct t as [|c t].
    + cbn. exists []. rewrite app_nil_r. split; [|split; auto]. apply trim_start_ok. exists (a ++ b). rewrite app_nil_r. split; auto. split; [apply Forall_app; auto|].
      intros c u E. discriminate.
    + exists b. split; auto. apply trim_start_ok. exists a. split; auto. split; auto. intros x u E. injection E as <- _. eapply Hs. reflexivity.
Qed.

Lemma strip_prefix_ok : forall p s t, strip_prefix p s = Some t <-> s = p ++ t.
Proof.
  induction p as [|a p IH]; intros [|b s] t; cbn.
  - split; intros H; [injection H as <-; auto|subst; auto].
  - split; intros H; [injection H as <-; auto|subst; auto].
  - split; discriminate.
  - destruct (N.eqb_spec a b) as [->|Hn].
    + rewrite IH. split; [intros ->; auto|intros H; injection H; auto].
    + split; [discriminate|]. intros H. injection H as -> _. congruence.
Qed.
Lemma strip_suffix_ok p s t : strip_suffix p s = Some t <-> s = t ++ p.
Proof.
  unfold strip_suffix. split.
  - destruct (strip_prefix (rev p) (rev s)) as [u|] eqn:E; [|discriminate]. cbn. intros H. injection H as <-.
    apply strip_prefix_ok in E. apply (f_equal (@rev N)) in E. rewrite rev_involutive, rev_app_distr, rev_involutive in E. auto.
  - intros ->. rewrite rev_app_distr. rewrite (proj2 (strip_prefix_ok (rev p) _ (rev t)) eq_refl). cbn. rewrite rev_involutive. auto.
Qed.
Lemma strip_prefix_none p s : strip_prefix p s = None <-> forall t, s <> p ++ t.
Proof.
  split.
  - intros H t E. apply strip_prefix_ok in E. congruence.
  - intros H. destruct (strip_prefix p s) as [t|] eqn:E; auto. apply strip_prefix_ok in E. exfalso. eapply H; eauto.
Qed.
Lemma strip_suffix_none p s : strip_suffix p s = None <-> forall t, s <> t ++ p.
Proof.
  split.
  - intros H t E. apply strip_suffix_ok in E. congruence.
  - intros H. destruct (strip_suffix p s) as [t|] eqn:E; auto. apply strip_suffix_ok in E. exfalso. eapply H; eauto.
Qed.

(** * The text of comments *)

Lemma content_ok r t : content r = t <-> says r t.
Proof.
  split.
  - intros <-. destruct r as [s|s]; cbn.
    + destruct (drop_while_ok (N.eqb SLASH) s) as (a & H1 & H2 & H3).
      assert (Ea : a = repeat SLASH (length a)).
      { clear -H2. induction H2; cbn; auto. apply N.eqb_eq in H. subst x. f_equal; auto. }
      rewrite H1 at 1. rewrite Ea. apply says_line. intros u Hu. rewrite Ea in H1. specialize (H3 _ _ Hu). apply N.eqb_neq in H3. congruence.
    + unfold remove_comment. destruct (strip_prefix [SLASH; STAR] s) as [s1|] eqn:E1.
      * apply strip_prefix_ok in E1. destruct (strip_suffix [STAR; SLASH] s1) as [s2|] eqn:E2.
        -- apply strip_suffix_ok in E2. subst s1. subst s. pose proof (proj1 (trim_ok s2 _) eq_refl) as HT.
           destruct (strip_prefix [STAR] (trim s2)) as [u|] eqn:E3.
           ++ apply strip_prefix_ok in E3. rewrite E3 in HT. eapply says_starred; eauto. apply trim_ok. auto.
           ++ apply says_block; auto. intros u Hu. rewrite strip_prefix_none in E3. apply (E3 u). auto.
        -- apply says_open. intros inner ->. rewrite strip_suffix_none in E2. apply (E2 inner). cbn in E1. injection E1 as <-. auto.
      * apply says_open. intros inner ->. rewrite strip_prefix_none in E1. eapply E1. reflexivity.
  - intros H. inversion H; subst; cbn [content].
    + rewrite drop_while_app.
      * apply drop_while_stop. intros c u ->. apply N.eqb_neq. intros <-. eapply H0. reflexivity.
      * apply Forall_forall. intros c Hc. apply repeat_spec in Hc. subst. apply N.eqb_refl.
    + unfold remove_comment. rewrite (proj2 (strip_prefix_ok _ _ _) eq_refl). rewrite (proj2 (strip_suffix_ok [STAR; SLASH] _ inner) eq_refl).
      apply trim_ok in H0. rewrite H0. destruct (strip_prefix [STAR] t) as [u|] eqn:E; auto. apply strip_prefix_ok in E. exfalso. eapply H1. exact E.
    + unfold remove_comment. rewrite (proj2 (strip_prefix_ok _ _ _) eq_refl). rewrite (proj2 (strip_suffix_ok [STAR; SLASH] _ inner) eq_refl).
      apply trim_ok in H0. rewrite H0. cbn [strip_prefix]. rewrite N.eqb_refl. apply trim_ok. auto.
    + assert (E : remove_comment t = None); [|rewrite E; auto]. unfold remove_comment.
      destruct (strip_prefix [SLASH; STAR] t) as [s1|] eqn:E1; auto. destruct (strip_suffix [STAR; SLASH] s1) as [s2|] eqn:E2; auto.
      apply strip_prefix_ok in E1. apply strip_suffix_ok in E2. exfalso. match goal with h : forall inner, _ |- _ => apply (h s2) end. subst. auto.
Qed.

Lemma indent_ok s : indented (indent s) s.
Proof.
  induction s as [|c s IH]; cbn.
  - exists [], []. repeat split; auto. intros c u E. discriminate.
  - destruct (white c) eqn:E.
    + destruct IH as (w & r & -> & <- & Hw & Hr). exists (c :: w), r. repeat split; auto. constructor; auto. apply white_ok; auto.
    + exists [], (c :: s). repeat split; auto. intros x u Ex. injection Ex as -> ->. apply white_no. auto.
Qed.
Lemma indented_fun n s : indented n s -> n = indent s.
Proof.
  intros (w & r & -> & <- & Hw & Hr). induction Hw as [|c w Hc Hw IH]; cbn.
  - destruct r as [|c r]; auto. cbn. assert (E : white c = false) by (apply white_no; eapply Hr; reflexivity). rewrite E. auto.
  - apply white_ok in Hc. rewrite Hc. auto.
Qed.
Lemma dedent_le : forall l s, In s l -> dedent l <= indent s.
Proof.
  induction l as [|x l IH]; intros s Hs; [contradiction|]. cbn. destruct l as [|y l].
  - destruct Hs as [->|[]]. auto.
  - destruct Hs as [->|Hs]; [lia|]. specialize (IH s Hs). lia.
Qed.
Lemma dedent_in : forall l, l <> [] -> exists s, In s l /\ indent s = dedent l.
Proof.
  induction l as [|x l IH]; intros Hl; [congruence|]. cbn. destruct l as [|y l].
  - exists x. split; [left|]; auto.
  - destruct IH as (s & Hs & E); [discriminate|]. destruct (Nat.min_spec (indent x) (dedent (y :: l))) as [(_ & ->)|(_ & ->)].
    + exists x. split; [left|]; auto.
    + exists s. split; [right|]; auto.
Qed.
Lemma indent_len s : indent s <= length s.
Proof. induction s as [|c s IH]; cbn; auto. destruct (white c); lia. Qed.

Lemma lined_join : forall l t, lined l t <-> t = join l.
Proof.
  induction l as [|s l IH]; intros t.
  - split; [inversion 1; auto|intros ->; constructor].
  - destruct l as [|s' l].
    + split; [inversion 1; auto|intros ->; constructor].
    + change (join (s :: s' :: l)) with (s ++ NL :: join (s' :: l)). split.
      * inversion 1; subst. do 2 f_equal. apply IH. auto.
      * intros ->. constructor. apply IH. auto.
Qed.

Lemma glue_acc : forall l acc, acc <> [] ->
  fold_left (fun acc s => match acc with [] => s | _ => acc ++ NL :: s end) l acc = join (acc :: l).
Proof.
  induction l as [|s l IH]; intros acc Ha; auto. cbn [fold_left]. destruct acc as [|c acc]; [congruence|].
  rewrite IH by discriminate. destruct l as [|s' l]; cbn; auto. rewrite <- app_assoc. auto.
Qed.
Lemma glue_ok : forall l, exists es rs, l = es ++ rs /\ Forall (fun e => e = []) es /\ (forall r, rs <> [] :: r) /\ glue l = join rs.
Proof.
  unfold glue. induction l as [|s l IH].
  - exists [], []. repeat split; auto. discriminate.
  - destruct s as [|c s].
    + destruct IH as (es & rs & -> & He & Hr & Hg). exists ([] :: es), rs. repeat split; auto.
    + exists [], ((c :: s) :: l). split; auto. split; auto. split; [discriminate|]. cbn [fold_left]. apply glue_acc. discriminate.
Qed.
Lemma glue_fun : forall es rs es' rs', es ++ rs = es' ++ rs' -> Forall (fun e : text => e = []) es -> Forall (fun e => e = []) es' ->
  (forall r, rs <> [] :: r) -> (forall r, rs' <> [] :: r) -> rs = rs'.
Proof.
  induction es as [|e es IH]; intros rs es' rs' E H H' Hr Hr'; cbn in E.
  - destruct es' as [|e' es']; auto. inversion H'; subst. exfalso. eapply Hr. cbn. reflexivity.
  - inversion H; subst. destruct es' as [|e' es']; cbn in E.
    + exfalso. eapply Hr'. symmetry. exact E.
    + injection E as _ E. inversion H'; subst. eapply IH; eauto.
Qed.

Definition text_of (cs : list raw) : text :=
  let ts := map content cs in glue (map (skipn (dedent ts)) ts).
Lemma doc_text_ok cs t : cs <> [] -> (text_of cs = t <-> doc_text cs t).
Proof.
  intros Hc. unfold text_of. set (ts := map content cs).
  assert (Hts : ts <> []) by (unfold ts; destruct cs; [congruence|discriminate]).
  assert (Hs : forall ts', Forall2 says cs ts' <-> ts' = ts).
  { unfold ts. clear. induction cs as [|c cs IH]; intros ts'.
    - split; [inversion 1; auto|intros ->; constructor].
    - split.
      + inversion 1; subst. cbn. f_equal; [symmetry; apply content_ok; auto|apply IH; auto].
      + intros ->. cbn. constructor; [apply content_ok; auto|apply IH; auto]. }
  assert (Hd : forall rs, Forall2 (fun x r => exists w, x = w ++ r /\ length w = dedent ts) ts rs <-> rs = map (skipn (dedent ts)) ts).
  { assert (Hl : forall x, In x ts -> dedent ts <= length x).
    { intros x Hx. pose proof (dedent_le ts x Hx). pose proof (indent_len x). lia. }
    revert Hl. generalize (dedent ts). clear. intros k. induction ts as [|x ts IH]; intros Hl rs.
    - split; [inversion 1; auto|intros ->; constructor].
    - assert (IH' := fun rs => IH (fun x Hx => Hl x (or_intror Hx)) rs). split.
      + inversion 1 as [|? r ? rs' (w & Hw & Hk) Hr]; subst. cbn. f_equal; [|apply IH'; auto].
        rewrite skipn_app, skipn_all, Nat.sub_diag. auto.
      + intros ->. cbn. constructor; [|apply IH'; auto]. exists (firstn k x). rewrite firstn_skipn. split; auto.
        apply firstn_length_le. apply Hl. left; auto. }
  split.
  - intros <-. destruct (glue_ok (map (skipn (dedent ts)) ts)) as (es & rs & E & He & Hr & Hg).
    exists ts, (dedent ts), (map (skipn (dedent ts)) ts), es, rs. split; [apply Hs; auto|]. split; [|split; [|split; [apply Hd; auto|]]].
    + intros x Hx. exists (indent x). split; [apply indent_ok|apply dedent_le; auto].
    + destruct (dedent_in ts Hts) as (x & Hx & Ex). exists x. split; auto. rewrite <- Ex. apply indent_ok.
    + split; auto. split; auto. split; auto. rewrite Hg. apply lined_join. auto.
  - intros (ts' & k & rs & es & rs' & H1 & H2 & (x & Hx & Hxk) & H4 & E & He & Hr & Hl). apply Hs in H1. subst ts'.
    assert (k = dedent ts).
    { apply Nat.le_antisymm.
      - destruct (dedent_in ts Hts) as (y & Hy & Ey). destruct (H2 y Hy) as (n & Hn & Hk). apply indented_fun in Hn. lia.
      - apply indented_fun in Hxk. rewrite Hxk. apply dedent_le. auto. }
    subst k. apply Hd in H4. subst rs. destruct (glue_ok (map (skipn (dedent ts)) ts)) as (es' & rs2 & E' & He' & Hr' & Hg).
    rewrite Hg. assert (rs2 = rs') by (apply (glue_fun es' rs2 es rs'); auto; transitivity (map (skipn (dedent ts)) ts); [symmetry; exact E'|exact E]). subst. symmetry. apply lined_join. auto.
Qed.
Lemma collect_ok m : collect m = match comments m with [] => (None, m) | _ => (Some (text_of (comments m)), {| comments := []; newlines := newlines m; strict := strict m |}) end.
Proof. reflexivity. Qed.

(** * Groups *)

(** How many newlines are counted at the end, starting with [n]; [None] if the
    group is broken. *)
Fixpoint count (n : nat) (l : list tok) : option nat :=
  match l with
  | [] => Some n
  | TSpace s :: l' => if existsb (N.eqb NL) s then (if n =? 0 then count 1 l' else None) else count n l'
  | (THash | TLine _ | TBlock _) :: l' => count 0 l'
  | (TPar | TElse _) :: _ => None
  end.

Lemma nl_ok s : existsb (N.eqb NL) s = true <-> In NL s.
Proof.
  rewrite existsb_exists. split.
  - intros (c & Hc & E). apply N.eqb_eq in E. subst. auto.
  - intros H. exists NL. split; auto. 
Qed.
Lemma nl_no s : existsb (N.eqb NL) s = false <-> ~ In NL s.
Proof. rewrite <- nl_ok. destruct (existsb (N.eqb NL) s); split; congruence. Qed.

Lemma count_app : forall a n b, count n (a ++ b) = match count n a with Some k => count k b | None => None end.
Proof.
  induction a as [|t a IH]; intros n b; auto. cbn. destruct t; auto. destruct (existsb (N.eqb NL) s); auto. destruct (n =? 0); auto.
Qed.

(** A newline among the spaces at the end. *)
Definition newline_last (l : list tok) : Prop :=
  exists a s m, l = a ++ TSpace s :: m /\ In NL s /\ Forall (fun t => exists u, t = TSpace u /\ ~ In NL u) m.

Lemma goes_tail t l : goes_on (t :: l) -> goes_on l.
Proof.
  intros (H1 & H2). split.
  - intros x Hx. apply H1. right; auto.
  - intros a s1 m s2 c E. apply (H2 (t :: a) s1 m s2 c). cbn. f_equal. auto.
Qed.
Lemma goes_suffix a l : goes_on (a ++ l) -> goes_on l.
Proof. induction a as [|t a IH]; auto. intros H. apply IH. eapply goes_tail; eauto. Qed.
Lemma goes_prefix l t : goes_on (l ++ t) -> goes_on l.
Proof.
  intros (H1 & H2). split.
  - intros x Hx. apply H1, in_or_app. auto.
  - intros a s1 m s2 c ->. apply (H2 a s1 m s2 (c ++ t)). rewrite <- app_assoc. cbn. rewrite <- app_assoc. auto.
Qed.

(** Break-free counts from the left. *)
Lemma count_goes : forall l n, n <= 1 ->
  ((exists k, count n l = Some k) <->
   goes_on l /\ (n = 1 -> forall m s c, l = m ++ TSpace s :: c -> In NL s -> exists t, In t m /\ ~ spacing t)).
Proof.
  induction l as [|t l IH]; intros n Hn.
  - cbn. split; [|eauto]. intros _. split.
    + split; [contradiction|]. intros a s1 m s2 c E. destruct a; discriminate.
    + intros _ m s c E. destruct m; discriminate.
  - assert (Hbad : breaking t -> ((exists k, @None nat = Some k) <-> goes_on (t :: l) /\ (n = 1 -> forall m s c, t :: l = m ++ TSpace s :: c -> In NL s -> exists t0, In t0 m /\ ~ spacing t0))).
    { intros Hb. split; [intros (k & E); discriminate|]. intros ((Hg & _) & _). exfalso. apply (Hg t); auto. left; auto. }
    assert (Hink : ~ breaking t -> ~ spacing t -> ((exists k, count 0 l = Some k) <-> goes_on (t :: l) /\ (n = 1 -> forall m s c, t :: l = m ++ TSpace s :: c -> In NL s -> exists t0, In t0 m /\ ~ spacing t0))).
    { intros Hb Hs. rewrite IH by lia. split.
      - intros ((G1 & G2) & _). split.
        + split.
          * intros x [->|Hx]; auto.
          * intros a s1 m s2 c E. destruct a as [|a0 a]; cbn in E.
            -- injection E as E _. exfalso. apply Hs. exists s1. auto.
            -- injection E as _ E. eapply G2; eauto.
        + intros _ m s c E Hnl. destruct m as [|m0 m]; cbn in E.
          * injection E as E _. exfalso. apply Hs. exists s. auto.
          * injection E as -> _. exists m0. split; auto. left; auto.
      - intros (G & _). split; [eapply goes_tail; eauto|]. discriminate. }
    cbn [count]. destruct t as [|s| |s|s|b].
    + apply Hink; [intros [?|(b & ?)]; discriminate|intros (s & ?); discriminate].
    + destruct (existsb (N.eqb NL) s) eqn:Es.
      * apply nl_ok in Es. destruct (Nat.eqb_spec n 0) as [->|Hz].
        -- rewrite IH by lia. split.
           ++ intros ((G1 & G2) & G3). split; [|discriminate]. split.
              ** intros x [<-|Hx]; auto. intros [?|(b & ?)]; discriminate.
              ** intros a s1 m s2 c E Hn1 Hn2. destruct a as [|a0 a]; cbn in E.
                 --- injection E as -> ->. eapply G3; eauto.
                 --- injection E as _ E. eapply G2; eauto.
           ++ intros (G & _). split; [eapply goes_tail; eauto|]. intros _ m s2 c -> Hn2. destruct G as (_ & G). apply (G [] s m s2 c); auto.
        -- assert (n = 1) by lia. subst n. split; [intros (k & E); discriminate|]. intros (_ & G). exfalso.
           destruct (G eq_refl [] s l eq_refl Es) as (x & [] & _).
      * apply nl_no in Es. rewrite IH by lia. split.
        -- intros ((G1 & G2) & G3). split.
           ++ split.
              ** intros x [<-|Hx]; auto. intros [?|(b & ?)]; discriminate.
              ** intros a s1 m s2 c E Hn1 Hn2. destruct a as [|a0 a]; cbn in E.
                 --- injection E as -> _. contradiction.
                 --- injection E as _ E. eapply G2; eauto.
           ++ intros E1 m s2 c E Hn2. destruct m as [|m0 m]; cbn in E.
              ** injection E as -> _. contradiction.
              ** injection E as _ E. destruct (G3 E1 m s2 c E Hn2) as (x & Hx & Hs). exists x. split; auto. right; auto.
        -- intros (G & G3). split; [eapply goes_tail; eauto|]. intros E1 m s2 c -> Hn2.
           destruct (G3 E1 (TSpace s :: m) s2 c eq_refl Hn2) as (x & [<-|Hx] & Hs); eauto. exfalso. apply Hs. exists s. auto.
    + apply Hbad. left; auto.
    + apply Hink; [intros [?|(b & ?)]; discriminate|intros (u & ?); discriminate].
    + apply Hink; [intros [?|(b & ?)]; discriminate|intros (u & ?); discriminate].
    + apply Hbad. right. eauto.
Qed.
Lemma count_ok l : (exists k, count 0 l = Some k) <-> goes_on l.
Proof. rewrite count_goes by lia. split; [tauto|]. intros H. split; auto. discriminate. Qed.
Lemma count_le : forall l n k, n <= 1 -> count n l = Some k -> k <= 1.
Proof.
  induction l as [|t l IH]; intros n k Hn E; cbn in E.
  - injection E as <-. auto.
  - destruct t; try discriminate; eauto. destruct (existsb (N.eqb NL) s); eauto. destruct (n =? 0); [|discriminate]. eauto.
Qed.
Lemma count_one : forall l, count 0 l = Some 1 -> newline_last l.
Proof.
  induction l as [|t l IH] using rev_ind; intros E; [discriminate|]. rewrite count_app in E. destruct (count 0 l) as [n|] eqn:E0; [|discriminate].
  cbn in E. destruct t; try discriminate. destruct (existsb (N.eqb NL) s) eqn:Es.
  - exists l, s, []. split; auto. split; [apply nl_ok; auto|constructor].
  - injection E as ->. destruct (IH eq_refl) as (a & u & m & -> & Hu & Hm). exists a, u, (m ++ [TSpace s]). rewrite <- app_assoc. split; auto. split; auto.
    apply Forall_app. split; auto. constructor; auto. exists s. split; auto. apply nl_no. auto.
Qed.
Lemma count_spaces m : Forall (fun t => exists u, t = TSpace u /\ ~ In NL u) m -> forall n, count n m = Some n.
Proof.
  induction 1 as [|t m (u & -> & Hu) Hm IH]; intros n; auto. cbn. apply nl_no in Hu. rewrite Hu. auto.
Qed.

Lemma notes_app : forall a ca b cb, notes a ca -> notes b cb -> notes (a ++ b) (ca ++ cb).
Proof. induction 1; intros Hb; cbn; [auto|constructor; auto..]. Qed.
Lemma notes_spaces m : Forall (fun t => exists u, t = TSpace u /\ ~ In NL u) m -> notes m [].
Proof. induction 1 as [|t m (u & -> & Hu) Hm IH]; [constructor|]. constructor; auto; discriminate. Qed.
Lemma notes_fun : forall l cs, notes l cs -> forall cs', notes l cs' -> cs = cs'.
Proof.
  induction 1; intros cs' H'; inversion H'; subst; auto; try (f_equal; auto; fail);
    exfalso; match goal with h : forall s, _ <> _ |- _ => solve [eapply h; reflexivity] end.
Qed.

Definition kept_at (a : list (tok + ex)) (g : list tok) (cs : list raw) : Prop :=
  goes_on g /\ notes g cs /\ (a = [] \/ exists a' i, a = a' ++ [i] /\ match i with inr _ => True | inl t => ~ goes_on (t :: g) end).

Lemma kept_fun l cs cs' : kept l cs -> kept l cs' -> cs = cs'.
Proof.
  intros (a & g & E & Hg & Hn & Ha) (a' & g' & E' & Hg' & Hn' & Ha').
  assert (W : forall (a : list (tok + ex)) g a' g', a ++ map inl g = a' ++ map inl g' -> goes_on g' ->
    (a = [] \/ exists a' i, a = a' ++ [i] /\ match i with inr _ => True | inl t => ~ goes_on (t :: g) end) -> length g' <= length g).
  { clear. intros a g a' g' E Hg Ha. destruct (le_lt_dec (length g') (length g)) as [|Hlt]; auto. exfalso.
    destruct (skipn (length g' - S (length g)) g') as [|t r] eqn:Es.
    { assert (X := skipn_length (length g' - S (length g)) g'). rewrite Es in X. cbn in X. lia. }
    assert (X := skipn_length (length g' - S (length g)) g'). rewrite Es in X. cbn in X.
    rewrite <- (firstn_skipn (length g' - S (length g)) g'), Es in E, Hg. rewrite map_app in E. cbn in E.
    replace (a' ++ map inl (firstn (length g' - S (length g)) g') ++ inl t :: map inl r) with ((a' ++ map inl (firstn (length g' - S (length g)) g') ++ [inl t]) ++ map (@inl tok ex) r) in E by (rewrite <- !app_assoc; auto).
    assert (Er : map (@inl tok ex) g = map inl r /\ a = a' ++ map inl (firstn (length g' - S (length g)) g') ++ [inl t]).
    { assert (L : length (map (@inl tok ex) g) = length (map (@inl tok ex) r)) by (rewrite !map_length; lia).
      revert E L. generalize (map (@inl tok ex) g) (map (@inl tok ex) r) (a' ++ map inl (firstn (length g' - S (length g)) g') ++ [inl t]). clear.
      induction a as [|x a IH]; intros l1 l2 b E L.
      - destruct b; auto. apply (f_equal (@length _)) in E. rewrite !app_length in E. cbn in E. lia.
      - destruct b as [|y b].
        + apply (f_equal (@length _)) in E. rewrite !app_length in E. cbn in E. lia.
        + cbn in E. injection E as -> E. destruct (IH _ _ _ E L) as (-> & ->). auto. }
    destruct Er as (Er & Ea). apply goes_suffix in Hg.
    assert (r = g). { clear -Er. revert r Er. induction g as [|x g IH]; intros [|y r] E; try discriminate; auto. cbn in E. injection E as -> E. f_equal. auto. }
    subst r. destruct Ha as [->|(a2 & i & -> & Hi)].
    - destruct a'; try discriminate. cbn in Ea. destruct (map inl (firstn (length g' - S (length g)) g')); discriminate.
    - rewrite app_assoc in Ea. apply app_inj_tail in Ea. destruct Ea as (_ & ->). auto. }
  assert (L : length g = length g').
  { apply Nat.le_antisymm; [apply (W a' g' a g)|apply (W a g a' g')]; auto; congruence. }
  assert (E2 : map (@inl tok ex) g = map inl g').
  { assert (L2 : length (map (@inl tok ex) g) = length (map (@inl tok ex) g')) by (rewrite !map_length; auto).
    rewrite E in E'. clear -E' L2. revert E' L2. generalize (map (@inl tok ex) g) (map (@inl tok ex) g') a'. clear.
    induction a as [|x a IH]; intros l1 l2 b E L.
    - destruct b; auto. apply (f_equal (@length _)) in E. rewrite !app_length in E. cbn in E. lia.
    - destruct b as [|y b].
      + apply (f_equal (@length _)) in E. rewrite !app_length in E. cbn in E. lia.
      + cbn in E. injection E as -> E. eauto. }
  assert (g = g'). { clear -E2. revert g' E2. induction g as [|x g IH]; intros [|y r] E; try discriminate; auto. cbn in E. injection E as -> E. f_equal. auto. }
  subst. eapply notes_fun; eauto.
Qed.

(** The matcher after a part of a sequence. *)
Definition held (l : list (tok + ex)) (cs : list raw) (n : nat) : Prop :=
  exists a g k, l = a ++ map inl g /\ kept_at a g cs /\ count 0 g = Some k /\ (k = n \/ (cs = [] /\ n = 0)).
Lemma held_kept l cs n : held l cs n -> kept l cs.
Proof. intros (a & g & k & E & (H1 & H2 & H3) & _). exists a, g. auto. Qed.
Lemma held_nil : held [] [] 0.
Proof. exists [], [], 0. split; auto. split; [|split; auto]. split; [apply count_ok; cbn; eauto|]. split; [constructor|auto]. Qed.
Lemma held_ex l x : held (l ++ [inr x]) [] 0.
Proof.
  exists (l ++ [inr x]), [], 0. rewrite app_nil_r. split; auto. split; [|split; auto]. split; [apply count_ok; cbn; eauto|]. split; [constructor|]. right. exists l, (inr x). auto.
Qed.

Definition noted (t : tok) : list raw := match t with TLine s => [RLine s] | TBlock s => [RBlock s] | _ => [] end.
Lemma noted_ok t : notes [t] (noted t).
Proof. destruct t; cbn; constructor; try constructor; discriminate. Qed.
Lemma more_bad t g u : ~ goes_on (t :: g) -> ~ goes_on (t :: g ++ u).
Proof. intros H G. apply H. apply (goes_prefix (t :: g) u). auto. Qed.

Lemma held_tok l m t : strict m = false -> held l (comments m) (newlines m) ->
  let '(m', b) := process t m in let m2 := if b then reset m' else m' in
  strict m2 = false /\ held (l ++ [inl t]) (comments m2) (newlines m2).
Proof.
  intros Hs (a & g & k & -> & (Hg & Hn & Ha) & Hk & Hc).
  assert (Hgo : forall k', count 0 (g ++ [t]) = Some k' -> forall n', (k' = n' \/ (comments m ++ noted t = [] /\ n' = 0)) ->
    held ((a ++ map inl g) ++ [inl t]) (comments m ++ noted t) n').
  { intros k' Ek' n' Hn'. exists a, (g ++ [t]), k'. rewrite map_app, <- app_assoc. split; auto. split; [|split; auto].
    split; [apply count_ok; eauto|]. split; [apply notes_app; auto; apply noted_ok|].
    destruct Ha as [->|(a' & i & -> & Hi)]; auto. right. exists a', i. split; auto. destruct i; auto. apply more_bad. auto. }
  assert (Hbr : ~ goes_on [t] -> held ((a ++ map inl g) ++ [inl t]) [] 0).
  { intros Hb. exists ((a ++ map inl g) ++ [inl t]), [], 0. rewrite app_nil_r. split; auto. split; [|split; auto].
    split; [apply count_ok; cbn; eauto|]. split; [constructor|]. right. exists (a ++ map inl g), (inl t). auto. }
  destruct t as [|s| |s|s|b]; cbn.
  - split; auto. rewrite <- (app_nil_r (comments m)). apply (Hgo 0); auto. rewrite count_app, Hk. auto.
  - destruct (existsb (N.eqb NL) s) eqn:Es.
    + assert (Hk1 : k <= 1) by (eapply count_le; [|exact Hk]; lia).
      destruct (Nat.eq_dec k 1) as [->|Hk0].
      * destruct (count_one g Hk) as (a1 & u & sp & -> & Hu & Hsp).
        assert (HH : forall n', held ((a ++ map inl (a1 ++ TSpace u :: sp)) ++ [inl (TSpace s)]) [] n' \/ n' <> 1 /\ n' <> 0).
        { intros n'. destruct (Nat.eq_dec n' 1); [|destruct (Nat.eq_dec n' 0); [|auto]]; left.
          all: exists (a ++ map inl a1 ++ [inl (TSpace u)]), (sp ++ [TSpace s]), 1; split; [rewrite !map_app; cbn; repeat (rewrite <- app_assoc; cbn); auto|].
          all: assert (C : count 0 (sp ++ [TSpace s]) = Some 1) by (rewrite count_app, count_spaces by auto; cbn; rewrite Es; auto).
          all: split; [|split; [auto|auto]]; split; [apply count_ok; eauto|]; split.
          all: try (change (@nil raw) with (@nil raw ++ []); apply notes_app; [apply notes_spaces; auto|apply (noted_ok (TSpace s))]).
          all: right; exists (a ++ map inl a1), (inl (TSpace u)); rewrite app_assoc; split; auto.
          all: intros (_ & G); destruct (G [] u sp s [] eq_refl Hu (proj1 (nl_ok s) Es)) as (x & Hx & Hxs); rewrite Forall_forall in Hsp; destruct (Hsp x Hx) as (w & -> & _); apply Hxs; exists w; auto. }
        destruct Hc as [<-|(Hc & Hc')].
        -- cbn. split; auto. destruct (HH 0) as [|(? & ?)]; auto; lia.
        -- rewrite Hc'. cbn. split; auto. rewrite Hc. destruct (HH 1) as [|(? & ?)]; auto; lia.
      * assert (k = 0) by lia. subst k. assert (En : newlines m = 0) by (destruct Hc as [<-|(_ & ?)]; auto). rewrite En. cbn. split; auto.
        rewrite <- (app_nil_r (comments m)). apply (Hgo 1); auto. rewrite count_app, Hk. cbn. rewrite Es. auto.
    + assert (Hk1 : k <= 1) by (eapply count_le; [|exact Hk]; lia).
      assert (Hle : newlines m <= 1) by (destruct Hc as [<-|(_ & ->)]; lia).
      destruct (newlines m) as [|[|n]] eqn:En; cbn; [| |lia].
      * split; auto. rewrite <- (app_nil_r (comments m)). apply (Hgo k).
        -- rewrite count_app, Hk. cbn. rewrite Es. auto.
        -- rewrite app_nil_r. auto.
      * split; auto. rewrite <- (app_nil_r (comments m)). apply (Hgo k).
        -- rewrite count_app, Hk. cbn. rewrite Es. auto.
        -- rewrite app_nil_r. auto.
  - split; auto. apply Hbr. intros (G & _). apply (G TPar); [left; auto|left; auto].
  - rewrite Hs. cbn. split; auto. apply (Hgo 0); auto. rewrite count_app, Hk. auto.
  - rewrite Hs. cbn. split; auto. apply (Hgo 0); auto. rewrite count_app, Hk. auto.
  - split; auto. apply Hbr. intros (G & _). apply (G (TElse b)); [left; auto|right; eauto].
Qed.
