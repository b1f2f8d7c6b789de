(** Proofs about the way from a cursor to the document. *)
From Coq Require Import List ZArith NArith Bool Lia.
From Verif Require Import ClickModel ClickSpec ClickProof.
Import ListNotations.
Open Scope Z_scope.

(** The search over a list of glyphs. *)
Fixpoint scan (s : span) (l : list (span * point * point)) (b : best) : option point * best :=
  match l with
  | [] => (None, b)
  | (g, q, p) :: l' =>
      if N.eqb g s then (Some p, b)
      else scan s l' (if id_eqb (id g) (id s) && N.ltb (abs_diff g s) (dis b) then {| dis := abs_diff g s; place := q |} else b)
  end.
Lemma scan_app s l1 l2 b : scan s (l1 ++ l2) b = match scan s l1 b with (Some p, b') => (Some p, b') | (None, b') => scan s l2 b' end.
Proof. revert b. induction l1 as [|[[g q] p] l1 IH]; intros b; cbn; auto. destruct (N.eqb g s); auto. Qed.
Lemma scan_text s : forall gs pos b, find_text s pos gs b = scan s (line pos gs) b.
Proof. induction gs as [|g gs IH]; intros pos b; cbn; auto. destruct (N.eqb (gspan g) s); auto. Qed.
Lemma scan_shift s (h : point -> point) : forall l b,
  scan s (map (fun g => (fst (fst g), snd (fst g), h (snd g))) l) b = (option_map h (fst (scan s l b)), snd (scan s l b)).
Proof. induction l as [|[[g q] p] l IH]; intros b; cbn; auto. destruct (N.eqb g s); cbn; auto. Qed.

Lemma find_scan s : forall f b, find_frame s f b = scan s (glyphs_of f) b.
Proof.
  induction f as [l IH] using frame_rec'. cbn.
  induction l as [|[pos i] l IHl]; intros b; cbn; auto.
  rewrite scan_app. destruct i as [t f|size gs|size x|size x|size|]; cbn.
  - rewrite (scan_shift s (fun p => (fst p + fst pos, snd p + snd pos))). rewrite (IH pos t f (or_introl eq_refl)).
    destruct (scan s (glyphs_of f) b) as [[p|] b']; cbn; [reflexivity|]. apply IHl. intros; eapply IH; right; eauto.
  - rewrite scan_text. destruct (scan s (line pos gs) b) as [[p|] b']; [reflexivity|]. apply IHl. intros; eapply IH; right; eauto.
  - apply IHl. intros; eapply IH; right; eauto.
  - apply IHl. intros; eapply IH; right; eauto.
  - apply IHl. intros; eapply IH; right; eauto.
  - apply IHl. intros; eapply IH; right; eauto.
Qed.

Lemma scan_hit s : forall l b p, fst (scan s l b) = Some p <-> exists a r q, l = a ++ (s, q, p) :: r /\ forall x, In x a -> fst (fst x) <> s.
Proof.
  induction l as [|[[g q] p0] l IH]; intros b p; cbn.
  - split; [discriminate|]. intros ([|? ?] & r & q & E & _); discriminate.
  - destruct (N.eqb_spec g s) as [->|Hn]; cbn.
    + split.
      * intros H. injection H as ->. exists [], l, q. split; [reflexivity|intros x []].
      * intros ([|x a] & r & q' & E & Ha); cbn in E; [congruence|]. injection E as <- E. destruct (Ha (s, q, p0)); [left; auto|auto].
    + rewrite IH. split.
      * intros (a & r & q' & -> & Ha). exists ((g, q, p0) :: a), r, q'. split; [reflexivity|]. intros x [<-|Hx]; auto.
      * intros ([|x a] & r & q' & E & Ha); cbn in E; [congruence|]. injection E as <- E. exists a, r, q'. split; [exact E|]. intros x Hx. apply Ha. right. exact Hx.
Qed.
Lemma scan_miss s : forall l b, fst (scan s l b) = None <-> forall x, In x l -> fst (fst x) <> s.
Proof.
  induction l as [|[[g q] p0] l IH]; intros b; cbn.
  - split; [intros _ x []|auto].
  - destruct (N.eqb_spec g s) as [->|Hn]; cbn.
    + split; [discriminate|]. intros H. destruct (H (s, q, p0)); auto.
    + rewrite IH. split; intros H x; [intros [<-|Hx]; auto|intros Hx; apply H; auto].
Qed.

Lemma pages_hits s : forall ps idx pg b, hits s (S idx) ps (snd (pages s idx ps pg b)).
Proof.
  induction ps as [|f ps IH]; intros idx pg b; cbn; [constructor|].
  rewrite find_scan. destruct (scan s (glyphs_of f) b) as [r b'] eqn:E. set (pg' := if N.eqb (dis b') (dis b) then pg else idx).
  specialize (IH (S idx) pg' b'). destruct (pages s (S idx) ps pg' b') as [[pg'' b''] l]. cbn in *. destruct r as [p|].
  - constructor; auto. apply (scan_hit s (glyphs_of f) b p). rewrite E. auto.
  - apply hits_skip; auto. unfold lacks. apply (scan_miss s (glyphs_of f) b). rewrite E. auto.
Qed.
Lemma hits_fun s : forall ps n l1 l2, hits s n ps l1 -> hits s n ps l2 -> l1 = l2.
Proof.
  assert (X : forall f p, shows s f p -> lacks s f -> False).
  { intros f p (a & b & q & E & _) H. apply (H (s, q, p)); auto. rewrite E. apply in_elt. }
  assert (Y : forall f p p', shows s f p -> shows s f p' -> p = p').
  { intros f p p' H H'. apply (scan_hit s (glyphs_of f) {| dis := 0; place := (0, 0) |}) in H, H'. congruence. }
  induction ps as [|f ps IH]; intros n l1 l2 H1 H2; inversion H1; subst; inversion H2; subst; auto.
  - f_equal; [f_equal; eauto|eauto].
  - exfalso. eauto.
  - exfalso. eauto.
  - eauto.
Qed.

(** The closest. *)
Lemma abs_gap a b : abs_diff a b = gap a b.
Proof. unfold abs_diff, gap. destruct (N.leb_spec a b); lia. Qed.
Lemma id_ok a b : id_eqb (id a) (id b) = true <-> same_file a b.
Proof.
  assert (D : forall n x, (n * 2 ^ 48 <= x < (n + 1) * 2 ^ 48)%N <-> N.div x (2 ^ 48) = n).
  { intros n x. split.
    - intros H. symmetry. apply (N.div_unique x (2 ^ 48) n (x - n * 2 ^ 48)); lia.
    - intros E. pose proof (N.div_mod x (2 ^ 48) ltac:(discriminate)) as H1. pose proof (N.mod_lt x (2 ^ 48) ltac:(discriminate)) as H2. rewrite E in H1.
      revert H1 H2. generalize (x mod 2 ^ 48)%N. intros r H1 H2. change (2 ^ 48)%N with 281474976710656%N in *. lia. }
  unfold id, same_file. transitivity (N.div a (2 ^ 48) = N.div b (2 ^ 48)).
  - set (u := (a / 2 ^ 48)%N). set (v := (b / 2 ^ 48)%N). cbv zeta. destruct (N.eqb_spec u 0) as [->|Hu], (N.eqb_spec v 0) as [->|Hv]; cbn; rewrite ?N.eqb_eq; split; congruence.
  - split.
    + intros E. exists (a / 2 ^ 48)%N. rewrite !D. auto.
    + intros (n & H1 & H2). apply D in H1, H2. congruence.
Qed.

(** What is known after a list of glyphs. *)
Definition known (s : span) (l : list (nat * (span * point * point))) (pg : nat) (b : best) : Prop :=
  (dis b = MAX /\ forall n g q p, In (n, (g, q, p)) l -> ~ same_file g s) \/
  ((dis b < MAX)%N /\ exists a r g p, l = a ++ (pg, (g, place b, p)) :: r /\ same_file g s /\ gap g s = dis b /\
    (forall m g' q' p', In (m, (g', q', p')) a -> same_file g' s -> (gap g s < gap g' s)%N) /\
    (forall m g' q' p', In (m, (g', q', p')) r -> same_file g' s -> (gap g s <= gap g' s)%N)).

Lemma known_snoc s l pg b idx g q p : known s l pg b -> (gap g s < MAX)%N ->
  let b' := if id_eqb (id g) (id s) && N.ltb (abs_diff g s) (dis b) then {| dis := abs_diff g s; place := q |} else b in
  known s (l ++ [(idx, (g, q, p))]) (if N.eqb (dis b') (dis b) then pg else idx) b' /\ (dis b' <= dis b)%N.
Proof.
  intros H HM b'. subst b'. rewrite abs_gap. destruct (id_eqb (id g) (id s)) eqn:Ei; cbn [andb].
  - apply id_ok in Ei. destruct (N.ltb_spec (gap g s) (dis b)) as [L|L].
    + split; [|cbn; lia]. cbn [dis]. destruct (N.eqb_spec (gap g s) (dis b)); [lia|]. right. cbn [dis place]. split; [exact HM|].
      exists l, [], g, p. split; [reflexivity|]. split; [exact Ei|]. split; [reflexivity|]. split; [|intros m g' q' p' []].
      intros m g' q' p' Hin Hs. destruct H as [(_ & H)|(_ & a & r & g0 & p0 & -> & Hs0 & Hd & Ha & Hr)].
      * destruct (H _ _ _ _ Hin Hs).
      * apply in_app_or in Hin. destruct Hin as [Hin|[E|Hin]].
        -- specialize (Ha _ _ _ _ Hin Hs). lia.
        -- injection E as <- <- <- <-. lia.
        -- specialize (Hr _ _ _ _ Hin Hs). lia.
    + split; [|lia]. rewrite N.eqb_refl. destruct H as [(HX & _)|(HM' & a & r & g0 & p0 & -> & Hs0 & Hd & Ha & Hr)]; [lia|].
      right. split; [exact HM'|]. exists a, (r ++ [(idx, (g, q, p))]), g0, p0. split; [rewrite <- app_assoc; reflexivity|]. split; [exact Hs0|]. split; [exact Hd|]. split; [exact Ha|].
      intros m g' q' p' Hin Hs. apply in_app_or in Hin. destruct Hin as [Hin|[E|[]]]; [eapply Hr; eauto|]. injection E as <- <- <- <-. lia.
  - assert (Hn : ~ same_file g s) by (rewrite <- id_ok; congruence). split; [|lia]. rewrite N.eqb_refl.
    destruct H as [(HX & H)|(HM' & a & r & g0 & p0 & -> & Hs0 & Hd & Ha & Hr)].
    + left. split; [exact HX|]. intros n g' q' p' Hin. apply in_app_or in Hin. destruct Hin as [Hin|[E|[]]]; [eauto|]. injection E as <- <- <- <-. exact Hn.
    + right. split; [exact HM'|]. exists a, (r ++ [(idx, (g, q, p))]), g0, p0. split; [rewrite <- app_assoc; reflexivity|]. split; [exact Hs0|]. split; [exact Hd|]. split; [exact Ha|].
      intros m g' q' p' Hin Hs. apply in_app_or in Hin. destruct Hin as [Hin|[E|[]]]; [eapply Hr; eauto|]. injection E as <- <- <- <-. contradiction.
Qed.

Notation sane := valid_span (only parsing).
Lemma sane_gap g s : sane g -> sane s -> (gap g s < MAX)%N.
Proof. unfold valid_span, gap, MAX. lia. Qed.

Lemma scan_known s idx pg b0 : sane s -> forall l, (forall x, In x l -> sane (fst (fst x))) -> (forall x, In x l -> fst (fst x) <> s) ->
  forall L b, (dis b <= dis b0)%N -> known s L (if N.eqb (dis b) (dis b0) then pg else idx) b ->
  let b' := snd (scan s l b) in known s (L ++ map (pair idx) l) (if N.eqb (dis b') (dis b0) then pg else idx) b' /\ (dis b' <= dis b0)%N.
Proof.
  intros Hs. induction l as [|[[g q] p] l IH]; intros Hv Hn L b Hb HK; cbn.
  - rewrite app_nil_r. auto.
  - destruct (N.eqb_spec g s) as [->|_]; [destruct (Hn (s, q, p)); [left; auto|auto]|].
    destruct (known_snoc s L _ b idx g q p HK) as (HK' & Hd); [apply sane_gap; auto; apply (Hv (g, q, p)); left; auto|].
    set (b' := if id_eqb (id g) (id s) && N.ltb (abs_diff g s) (dis b) then {| dis := abs_diff g s; place := q |} else b) in *.
    replace (L ++ (idx, (g, q, p)) :: map (pair idx) l) with ((L ++ [(idx, (g, q, p))]) ++ map (pair idx) l) by (rewrite <- app_assoc; reflexivity).
    apply IH; [intros; apply Hv; right; auto|intros; apply Hn; right; auto|lia|].
    destruct (N.eqb_spec (dis b') (dis b)) as [E|E].
    + rewrite E. exact HK'.
    + destruct (N.eqb_spec (dis b') (dis b0)); [lia|exact HK'].
Qed.

Lemma pages_known s : sane s -> forall ps idx, (forall n x, In (n, x) (paged (S idx) ps) -> sane (fst (fst x)) /\ fst (fst x) <> s) ->
  forall L pg b, known s L (S pg) b ->
  let '(pg', b', _) := pages s idx ps pg b in known s (L ++ paged (S idx) ps) (S pg') b'.
Proof.
  intros Hs. induction ps as [|f ps IH]; intros idx Hv L pg b HK; cbn.
  - rewrite app_nil_r. auto.
  - cbn in Hv. rewrite find_scan.
    assert (V1 : forall x, In x (glyphs_of f) -> sane (fst (fst x))) by (intros x Hx; apply (Hv (S idx) x); apply in_or_app; left; apply in_map; auto).
    assert (V2 : forall x, In x (glyphs_of f) -> fst (fst x) <> s) by (intros x Hx; apply (Hv (S idx) x); apply in_or_app; left; apply in_map; auto).
    destruct (scan_known s (S idx) (S pg) b Hs (glyphs_of f) V1 V2 L b) as (HK' & _); [lia|rewrite N.eqb_refl; auto|].
    destruct (scan s (glyphs_of f) b) as [r b'] eqn:E. cbn in HK'.
    specialize (IH (S idx)). assert (V3 : forall n x, In (n, x) (paged (S (S idx)) ps) -> sane (fst (fst x)) /\ fst (fst x) <> s) by (intros n x Hx; apply (Hv n x); apply in_or_app; auto).
    specialize (IH V3 (L ++ map (pair (S idx)) (glyphs_of f)) (if N.eqb (dis b') (dis b) then pg else idx) b').
    assert (Es : S (if N.eqb (dis b') (dis b) then pg else idx) = if N.eqb (dis b') (dis b) then S pg else S idx) by (destruct (N.eqb (dis b') (dis b)); auto).
    rewrite Es in IH. specialize (IH HK'). destruct (pages s (S idx) ps (if N.eqb (dis b') (dis b) then pg else idx) b') as [[pg'' b''] l]. rewrite app_assoc. exact IH.
Qed.

Lemma hits_none s : forall ps n, hits s n ps [] -> forall m x, In (m, x) (paged n ps) -> fst (fst x) <> s.
Proof.
  induction ps as [|f ps IH]; intros n H m x Hin; [destruct Hin|]. inversion H; subst. cbn in Hin. apply in_app_or in Hin. destruct Hin as [Hin|Hin]; [|eapply IH; eauto].
  apply in_map_iff in Hin. destruct Hin as (y & E & Hy). injection E as <- <-. auto.
Qed.
