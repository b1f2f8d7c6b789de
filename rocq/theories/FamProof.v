From Coq Require Import String Ascii List Arith Bool Lia.
From Verif Require Import FamModel FamSpec.
Import ListNotations.
Local Open Scope list_scope.

Lemma strip_prefix_spec p : forall t r, strip_prefix p t = Some r <-> t = p ++ r.
Proof.
  induction p as [|x p IH]; intros t r; cbn [strip_prefix app].
  - split; [now intros [= ->]|now intros ->].
  - destruct t as [|y t]; [split; discriminate|].
    destruct (Nat.eqb_spec x y) as [->|N].
    + rewrite IH. split; [now intros ->|now intros [= ->]].
    + split; [discriminate|]. intros [= E _]. now symmetry in E.
Qed.
Lemma strip_suffix_spec s t r : strip_suffix s t = Some r <-> t = r ++ s.
Proof.
  unfold strip_suffix. destruct (strip_prefix (rev s) (rev t)) as [q|] eqn:E.
  - apply strip_prefix_spec in E. assert (T : t = rev q ++ s) by (rewrite <- (rev_involutive t), E, rev_app_distr, rev_involutive; reflexivity).
    split; [now intros [= <-]|]. intros T'. rewrite T in T'. apply app_inv_tail in T'. now subst.
  - split; [discriminate|]. intros ->. assert (strip_prefix (rev s) (rev (r ++ s)) = Some (rev r)) by (apply strip_prefix_spec; apply rev_app_distr). congruence.
Qed.
Lemma strip_first_some ss t r : strip_first ss t = Some r -> exists s, In s ss /\ t = r ++ s.
Proof.
  induction ss as [|s ss IH]; [discriminate|]. cbn. destruct (strip_suffix s t) as [q|] eqn:E.
  - intros [= ->]. exists s. split; [now left|]. now apply strip_suffix_spec.
  - intros H. destruct (IH H) as (w & W & T). exists w. split; [now right|assumption].
Qed.
Lemma strip_first_none ss t : strip_first ss t = None -> ~ ends_in ss t.
Proof.
  induction ss as [|s ss IH]; [intros _ (b & w & [] & _)|]. cbn. destruct (strip_suffix s t) as [q|] eqn:E; [discriminate|].
  intros H (b & w & [<-|W] & T).
  - apply strip_suffix_spec in T. congruence.
  - apply (IH H). now exists b, w.
Qed.
Lemma strip_sep_spec t r : strip_sep t = Some r <-> exists c, sep c /\ t = r ++ [c].
Proof.
  split.
  - intros H. apply strip_first_some in H. destruct H as (s & S & T). apply in_map_iff in S. destruct S as (c & <- & C). exists c. split; [|assumption].
    cbv in C. unfold sep. intuition congruence.
  - intros (c & C & T). destruct (strip_sep t) as [q|] eqn:E.
    + apply strip_first_some in E. destruct E as (s & S & T'). apply in_map_iff in S. destruct S as (d & <- & _). rewrite T in T'. apply app_inj_tail in T'. now destruct T' as [-> _].
    + exfalso. apply strip_first_none in E. apply E. exists r, [c]. split; [|assumption].
      apply in_map_iff. exists c. split; [reflexivity|]. cbv. unfold sep in C. intuition congruence.
Qed.

(** Words none of which ends in another one. *)
Definition code (ws : list name) : Prop := forall u v b b', In u ws -> In v ws -> b ++ u = b' ++ v -> u = v.
Definition codeb (ws : list name) : bool := forallb (fun u => forallb (fun v => same u v || match strip_suffix u v with None => true | Some _ => false end) ws) ws.
Lemma same_spec a b : same a b = true <-> a = b.
Proof. unfold same. destruct (list_eq_dec Nat.eq_dec a b); intuition congruence. Qed.
Lemma codeb_code ws : codeb ws = true -> code ws.
Proof.
  intros H. unfold codeb in H. rewrite forallb_forall in H.
  assert (P : forall u v x, In u ws -> In v ws -> v = x ++ u -> u = v).
  { intros u v x U V X. specialize (H u U). rewrite forallb_forall in H. specialize (H v V). apply orb_prop in H. destruct H as [H|H]; [now apply same_spec|].
    apply strip_suffix_spec in X. now rewrite X in H. }
  intros u v b b' U V E. apply app_eq_app in E. destruct E as (l & [(_ & E)|(_ & E)]).
  - now apply (P u v l).
  - symmetry. now apply (P v u l).
Qed.
Lemma bare_det ws l t t' : code ws -> bare ws l t -> bare ws l t' -> t = t'.
Proof.
  intros C (us & _ & F & E & N) (vs & _ & G & E' & N'). rewrite E in E'. clear E. revert vs G E'.
  induction us as [|u us IH] using rev_ind; intros vs G E'.
  - destruct vs as [|v vs _] using rev_ind; [cbn in E'; now rewrite !app_nil_r in E'|]. exfalso. apply N.
    apply Forall_app in G. destruct G as (G1 & G2). apply Forall_inv in G2. cbn in E'. rewrite concat_app in E'. cbn in E'. rewrite !app_nil_r, app_assoc in E'.
    exists (t' ++ concat vs), v. split; assumption.
  - apply Forall_app in F. destruct F as (F1 & F2). apply Forall_inv in F2. specialize (IH F1).
    destruct vs as [|v vs _] using rev_ind.
    + exfalso. apply N'. rewrite concat_app in E'. cbn in E'. rewrite !app_nil_r, app_assoc in E'. exists (t ++ concat us), u. split; [assumption|now symmetry].
    + apply Forall_app in G. destruct G as (G1 & G2). apply Forall_inv in G2.
      rewrite !concat_app in E'. cbn in E'. rewrite !app_nil_r, !app_assoc in E'.
      assert (u = v) by (eapply (C u v); eassumption). subst v. apply app_inv_tail in E'. exact (IH vs G1 E').
Qed.
Lemma words_ne (ws : list name) : forallb (fun w => match w with [] => false | _ => true end) ws = true -> forall w, In w ws -> 0 < length w.
Proof. rewrite forallb_forall. intros H w W. specialize (H w W). destruct w; [discriminate|cbn; lia]. Qed.
Lemma shorten_spec ws (NE : forall w, In w ws -> 0 < length w) : forall fuel t b, length t <= fuel ->
  exists us, Forall (fun u => In u ws) us /\ t = fst (shorten fuel ws t b) ++ concat us /\ ~ ends_in ws (fst (shorten fuel ws t b))
    /\ snd (shorten fuel ws t b) = (b || match us with [] => false | _ => true end).
Proof.
  induction fuel as [|n IH]; intros t b L; cbn [shorten].
  - exists []. cbn [fst snd concat]. rewrite app_nil_r, orb_false_r. repeat split; auto.
    intros (x & w & W & T). apply NE in W. subst t. rewrite app_length in L. lia.
  - destruct (strip_first ws t) as [s|] eqn:E.
    + apply strip_first_some in E. destruct E as (w & W & T). assert (length s <= n) by (subst t; rewrite app_length in L; apply NE in W; lia).
      destruct (IH s true H) as (us & F & S & N & B). exists (us ++ [w]). repeat split.
      * apply Forall_app. split; [assumption|]. now constructor.
      * rewrite concat_app. cbn. rewrite app_nil_r, app_assoc, <- S. exact T.
      * exact N.
      * rewrite B. destruct us; cbn; now rewrite orb_true_r.
    + exists []. cbn [fst snd concat]. rewrite app_nil_r, orb_false_r. repeat split; auto. now apply strip_first_none.
Qed.

(** Modifiers have no separators. *)
Lemma last_sep (c c' : nat) (m m' b b' : list nat) : sep c -> sep c' -> Forall (fun x => ~ sep x) m -> Forall (fun x => ~ sep x) m' -> b ++ [c] ++ m = b' ++ [c'] ++ m' -> b = b' /\ c = c' /\ m = m'.
Proof.
  intros C C'. revert m'. induction m as [|x m IH] using rev_ind; intros m' F F' E.
  - destruct m' as [|y m' _] using rev_ind.
    + rewrite !app_nil_r in E. apply app_inj_tail in E. intuition.
    + rewrite app_nil_r in E. rewrite !app_assoc in E. apply app_inj_tail in E. destruct E as [_ ->]. apply Forall_app in F'. destruct F' as [_ F']. apply Forall_inv in F'. contradiction.
  - destruct m' as [|y m' _] using rev_ind.
    + rewrite app_nil_r in E. rewrite !app_assoc in E. apply app_inj_tail in E. destruct E as [_ <-]. apply Forall_app in F. destruct F as [_ F]. apply Forall_inv in F. contradiction.
    + rewrite !app_assoc in E. apply app_inj_tail in E. destruct E as [E ->]. rewrite <- !app_assoc in E.
      apply Forall_app in F. apply Forall_app in F'. destruct (IH m' (proj1 F) (proj1 F') E) as (-> & -> & ->). repeat split.
Qed.
Lemma mods_sepless m : In m mods -> Forall (fun x => ~ sep x) m /\ m <> [].
Proof.
  assert (H : forallb (fun m => forallb (fun x => negb ((x =? 32) || (x =? 45) || (x =? 95))) m && match m with [] => false | _ => true end) mods = true) by (vm_compute; reflexivity).
  rewrite forallb_forall in H. intros M. specialize (H m M). apply andb_prop in H. destruct H as [H H0]. split; [|now destruct m].
  rewrite forallb_forall in H. apply Forall_forall. intros x X S. specialize (H x X). destruct S as [->|[->| ->]]; discriminate.
Qed.
Lemma strip_suffix_past w b c m : sep c -> Forall (fun x => ~ sep x) w -> strip_suffix w (b ++ c :: m) = match strip_suffix w m with Some q => Some (b ++ c :: q) | None => None end.
Proof.
  intros C F. destruct (strip_suffix w m) as [q|] eqn:E.
  - apply strip_suffix_spec in E. apply strip_suffix_spec. subst m. now rewrite <- app_assoc.
  - destruct (strip_suffix w (b ++ c :: m)) as [q|] eqn:E'; [|reflexivity]. exfalso. apply strip_suffix_spec in E'.
    apply app_eq_app in E'. destruct E' as (l & [(-> & E')|(-> & E')]).
    + rewrite E' in F. apply Forall_app in F. destruct F as [_ F]. apply Forall_inv in F. contradiction.
    + destruct l as [|d l].
      * cbn in E'. subst w. apply Forall_inv in F. contradiction.
      * injection E' as <- E'. apply strip_suffix_spec in E'. congruence.
Qed.
Lemma modifiers_mods : modifiers = mods.
Proof. reflexivity. Qed.
Lemma strip_mod b c m : sep c -> In m mods -> strip_first modifiers (b ++ c :: m) = Some (b ++ [c]).
Proof.
  intros C M.
  assert (H : forall ws q, Forall (fun w => Forall (fun x => ~ sep x) w) ws -> strip_first ws m = Some q -> strip_first ws (b ++ c :: m) = Some (b ++ c :: q)).
  { induction ws as [|w ws IH]; intros q F; [discriminate|]. cbn. rewrite (strip_suffix_past w b c m C (Forall_inv F)). destruct (strip_suffix w m); [now intros [= ->]|]. apply IH. exact (Forall_inv_tail F). }
  apply H.
  - apply Forall_forall. intros w W. apply mods_sepless. now rewrite <- modifiers_mods.
  - assert (G : forallb (fun m => match strip_first modifiers m with Some [] => true | _ => false end) mods = true) by (vm_compute; reflexivity).
    rewrite forallb_forall in G. specialize (G m M). destruct (strip_first modifiers m) as [[|]|]; congruence.
Qed.
Lemma modified_det t b b' : modified t b -> modified t b' -> b = b'.
Proof.
  intros (c & m & o & C & M & T & O) (c' & m' & o' & C' & M' & T' & O'). rewrite T in T'. clear T.
  destruct (mods_sepless m M) as [F N]. destruct (mods_sepless m' M') as [F' N'].
  assert (A : forall m, Forall (fun x => ~ sep x) m -> m <> [] -> forall b d q, sep d -> b ++ m <> q ++ [d]).
  { clear. intros m F N b d q D E. destruct m as [|x m _] using rev_ind; [congruence|]. rewrite app_assoc in E. apply app_inj_tail in E. destruct E as [_ ->].
    apply Forall_app in F. destruct F as [_ F]. apply Forall_inv in F. contradiction. }
  destruct O as [->|(d & D & ->)], O' as [->|(d' & D' & ->)].
  - rewrite !app_nil_r in T'. now apply last_sep in T'.
  - rewrite app_nil_r in T'. exfalso. apply (A m F N (b ++ [c]) d' (b' ++ [c'] ++ m') D'). now rewrite <- !app_assoc.
  - rewrite app_nil_r in T'. exfalso. apply (A m' F' N' (b' ++ [c']) d (b ++ [c] ++ m) D). now rewrite <- !app_assoc.
  - rewrite !app_assoc in T'. apply app_inj_tail in T'. destruct T' as [T' _]. rewrite <- !app_assoc in T'. now apply last_sep in T'.
Qed.
Lemma cut_spec l t : (modified t (cut l t)) \/ ((forall b, ~ modified t b) /\ ((exists c, sep c /\ t = cut l t ++ [c]) \/ ((forall c q, sep c -> t <> q ++ [c]) /\ cut l t = l))).
Proof.
  unfold cut. destruct (strip_sep t) as [s|] eqn:E.
  - apply strip_sep_spec in E. destruct E as (d & D & T).
    destruct (strip_first modifiers s) as [u|] eqn:M.
    + destruct (strip_sep u) as [v|] eqn:V.
      * left. apply strip_sep_spec in V. destruct V as (c & C & U). apply strip_first_some in M. destruct M as (m & M & S). exists c, m, [d].
        subst u s t. rewrite <- !app_assoc. repeat split; [assumption|exact M|]. right. now exists d.
      * right. split; [|left; now exists d]. intros b (c & m & o & C & I & T' & O). rewrite T in T'. destruct O as [->|(d' & D' & ->)].
        { destruct (mods_sepless m I) as [F N]. rewrite app_nil_r in T'. destruct m as [|x m _] using rev_ind; [congruence|]. rewrite !app_assoc in T'. apply app_inj_tail in T'. destruct T' as [_ <-].
          apply Forall_app in F. destruct F as [_ F]. apply Forall_inv in F. contradiction. }
        rewrite !app_assoc in T'. apply app_inj_tail in T'. destruct T' as [T' _]. rewrite <- !app_assoc in T'. subst s. cbn [app] in M. rewrite (strip_mod b c m C I) in M. injection M as <-.
        assert (strip_sep (b ++ [c]) = Some b) by (apply strip_sep_spec; now exists c). congruence.
    + right. split; [|left; now exists d]. intros b (c & m & o & C & I & T' & O). rewrite T in T'. destruct O as [->|(d' & D' & ->)].
      { destruct (mods_sepless m I) as [F N]. rewrite app_nil_r in T'. destruct m as [|x m _] using rev_ind; [congruence|]. rewrite !app_assoc in T'. apply app_inj_tail in T'. destruct T' as [_ <-].
        apply Forall_app in F. destruct F as [_ F]. apply Forall_inv in F. contradiction. }
      rewrite !app_assoc in T'. apply app_inj_tail in T'. destruct T' as [T' _]. rewrite <- !app_assoc in T'. subst s. cbn [app] in M. rewrite (strip_mod b c m C I) in M. discriminate.
  - assert (NS : forall c q, sep c -> t <> q ++ [c]). { intros c q C T. assert (strip_sep t = Some q) by (apply strip_sep_spec; now exists c). congruence. }
    assert (NM : strip_first modifiers t = None \/ exists u, strip_first modifiers t = Some u) by (destruct (strip_first modifiers t); eauto).
    assert (OO : forall b c m o, sep c -> In m mods -> t = b ++ [c] ++ m ++ o -> (o = [] \/ (exists d, sep d /\ o = [d])) -> strip_first modifiers t = Some (b ++ [c])).
    { intros b c m o C I T [->|(d & D & ->)]; [rewrite T, app_nil_r; now apply strip_mod|]. exfalso. apply (NS d (b ++ [c] ++ m) D). now rewrite T, <- !app_assoc. }
    destruct (strip_first modifiers t) as [u|] eqn:M.
    + destruct (strip_sep u) as [v|] eqn:V.
      * left. apply strip_sep_spec in V. destruct V as (c & C & U). apply strip_first_some in M. destruct M as (m & M & S). exists c, m, [].
        subst u. rewrite S, app_nil_r, <- app_assoc. repeat split; [assumption|exact M|]. now left.
      * right. split; [|now right]. intros b (c & m & o & C & I & T & O). specialize (OO b c m o C I T O). injection OO as ->.
        assert (strip_sep (b ++ [c]) = Some b) by (apply strip_sep_spec; now exists c). congruence.
    + right. split; [|now right]. intros b (c & m & o & C & I & T & O). specialize (OO b c m o C I T O). discriminate.
Qed.
Lemma style_det ws l a b : code ws -> style ws l a -> style ws l b -> a = b.
Proof.
  intros C (t & B & S) (t' & B' & S'). assert (t' = t) by (eapply bare_det; eassumption). subst t'.
  destruct S as [S|(N & c & D & S)], S' as [S'|(N' & c' & D' & S')].
  - eapply modified_det; eassumption.
  - exfalso. now apply (N' a).
  - exfalso. now apply (N b).
  - rewrite S in S'. apply app_inj_tail in S'. apply S'.
Qed.
Lemma plain_det ws l a b : code ws -> plain ws l a -> plain ws l b -> a = b.
Proof.
  intros C P. revert b. induction P as [l N|l l1 l2 S P IH]; intros b Q; destruct Q as [l N'|l k1 k2 S' Q].
  - reflexivity.
  - exfalso. exact (N _ S').
  - exfalso. exact (N' _ S).
  - assert (k1 = l1) by (eapply style_det; eassumption). subst k1. now apply IH.
Qed.
Lemma modified_shorter t b : modified t b -> exists q, t = b ++ q /\ 0 < length q.
Proof. intros (c & m & o & _ & _ & -> & _). exists ([c] ++ m ++ o). split; [reflexivity|cbn; lia]. Qed.
Lemma style_shorter ws l a : (forall w, In w ws -> 0 < length w) -> style ws l a -> exists q, l = a ++ q /\ 0 < length q.
Proof.
  intros NE (t & (us & _ & _ & -> & _) & [M|(_ & c & _ & ->)]).
  - apply modified_shorter in M. destruct M as (q & -> & L). exists (q ++ concat us). rewrite app_assoc. split; [reflexivity|]. rewrite app_length. lia.
  - exists ([c] ++ concat us). rewrite app_assoc. split; [reflexivity|cbn; lia].
Qed.
Lemma rounds_spec ws (CO : code ws) (NE : forall w, In w ws -> 0 < length w) : forall fuel l len, length l < fuel -> match len with None => True | Some k => length l < k end ->
  exists a q, plain ws l a /\ l = a ++ q /\ rounds (S fuel) ws l len = Some (length a).
Proof.
  induction fuel as [|n IH]; intros l len L K; [lia|]. cbn [rounds].
  replace (match len with None => true | Some k => length l <? k end) with true by (destruct len; [symmetry; now apply Nat.ltb_lt|reflexivity]).
  destruct (shorten_spec ws NE (length l) l false (le_n _)) as (us & F & E & N & B).
  destruct (shorten (length l) ws l false) as [t sh] eqn:SH. cbn [fst snd] in *. subst sh. cbn [orb].
  destruct us as [|u us].
  - cbn [negb]. cbn [concat] in E. rewrite app_nil_r in E. subst t. exists l, []. rewrite app_nil_r. repeat split. apply plain_none.
    intros l' (t & (vs & V & G & E & _) & _). apply N. destruct vs as [|v vs _] using rev_ind; [congruence|]. apply Forall_app in G. destruct G as [_ G]. apply Forall_inv in G.
    rewrite concat_app in E. cbn in E. rewrite app_nil_r, app_assoc in E. exists (t ++ concat vs), v. now split.
  - cbn [negb]. assert (BR : bare ws l t) by (exists (u :: us); repeat split; [discriminate|assumption|assumption|assumption]).
    assert (ST : style ws l (cut l t) \/ ((forall l', ~ style ws l l') -> True) /\ cut l t = l /\ (forall b, ~ modified t b) /\ (forall c q, sep c -> t <> q ++ [c])).
    { destruct (cut_spec l t) as [M|(NM & [S|(NS & C)])].
      - left. exists t. split; [assumption|now left].
      - left. exists t. split; [assumption|]. right. now split.
      - right. repeat split; auto. }
    destruct ST as [ST|(_ & C & NM & NS)].
    + destruct (style_shorter ws l _ NE ST) as (q & Q & LQ). assert (LL : length (cut l t) < length l) by (apply (f_equal (@length nat)) in Q; rewrite app_length in Q; lia).
      destruct (IH (cut l t) (Some (length l)) ltac:(lia) LL) as (a & q' & P & E' & R). exists a, (q' ++ q). repeat split.
      * eapply plain_one; eassumption.
      * now rewrite app_assoc, <- E'.
      * exact R.
    + rewrite C. exists l, []. rewrite app_nil_r. repeat split.
      * apply plain_none. intros l' (t' & B' & S). assert (t' = t) by (eapply bare_det; eassumption). subst t'.
        destruct S as [S|(_ & c & D & S)]; [exact (NM _ S)|exact (NS c l' D S)].
      * cbn [rounds]. now rewrite Nat.ltb_irrefl.
Qed.

(** Trimming. *)
Lemma white_blank wide c : white wide c = true <-> blank wide c.
Proof.
  unfold white, blank. rewrite !orb_true_iff, !andb_true_iff, !Nat.leb_le, Nat.eqb_eq. intuition lia.
Qed.
Lemma trim_start_spec f t : exists w, t = w ++ trim_start f t /\ Forall (fun c => f c = true) w /\ (forall c r, trim_start f t = c :: r -> f c = false).
Proof.
  induction t as [|c t IH]; cbn [trim_start].
  - exists []. repeat split; [constructor|discriminate].
  - destruct (f c) eqn:E.
    + destruct IH as (w & W & F & N). exists (c :: w). cbn. rewrite <- W. repeat split; [now constructor|assumption].
    + exists []. repeat split; [constructor|]. now intros d r [= <- <-].
Qed.
Lemma trim_spec wide t : exists w1 w2, t = w1 ++ trim wide t ++ w2 /\ Forall (blank wide) w1 /\ Forall (blank wide) w2 /\ tight wide (trim wide t).
Proof.
  unfold trim. destruct (trim_start_spec (white wide) t) as (w1 & E1 & F1 & N1). set (u := trim_start (white wide) t) in *.
  destruct (trim_start_spec (white wide) (rev u)) as (w2 & E2 & F2 & N2). set (v := trim_start (white wide) (rev u)) in *.
  assert (U : u = rev v ++ rev w2) by (rewrite <- rev_app_distr, <- E2; now rewrite rev_involutive).
  exists w1, (rev w2). repeat split.
  - now rewrite <- U.
  - eapply Forall_impl; [|exact F1]. intros a. apply white_blank.
  - apply Forall_rev. eapply Forall_impl; [|exact F2]. intros a. apply white_blank.
  - intros c r E B. apply white_blank in B. rewrite (N1 c (r ++ rev w2)) in B; [discriminate|]. now rewrite U, E.
  - intros c r E B. apply white_blank in B. rewrite (N2 c (rev r)) in B; [discriminate|]. apply (f_equal (@rev nat)) in E. rewrite rev_involutive, rev_app_distr in E. exact E.
Qed.
(** What is between white characters is unique. *)
Lemma start_det (P : nat -> Prop) (w w' t t' : list nat) : Forall P w -> Forall P w' -> (forall c r, t = c :: r -> ~ P c) -> (forall c r, t' = c :: r -> ~ P c) -> w ++ t = w' ++ t' -> t = t'.
Proof.
  revert w'. induction w as [|x w IH]; intros w' F F' N N' E.
  - destruct w' as [|y w']; [exact E|]. exfalso. apply (N y (w' ++ t')); [exact E|]. exact (Forall_inv F').
  - destruct w' as [|y w'].
    + exfalso. apply (N' x (w ++ t)); [now symmetry|]. exact (Forall_inv F).
    + injection E as _ E. exact (IH w' (Forall_inv_tail F) (Forall_inv_tail F') N N' E).
Qed.
Lemma tight_det wide w1 w2 t v1 v2 u : Forall (blank wide) w1 -> Forall (blank wide) w2 -> tight wide t -> Forall (blank wide) v1 -> Forall (blank wide) v2 -> tight wide u ->
  w1 ++ t ++ w2 = v1 ++ u ++ v2 -> t = u.
Proof.
  assert (Z : forall w1 w2 v1 u v2, Forall (blank wide) w1 -> Forall (blank wide) w2 -> w1 ++ [] ++ w2 = v1 ++ u ++ v2 -> tight wide u -> u = []).
  { clear. intros w1 w2 v1 u v2 W1 W2 E T. destruct u as [|c u]; [reflexivity|]. exfalso. apply (proj1 T c u eq_refl).
    assert (A : Forall (blank wide) (v1 ++ (c :: u) ++ v2)) by (rewrite <- E; apply Forall_app; now split).
    apply Forall_app in A. destruct A as [_ A]. exact (Forall_inv A). }
  intros W1 W2 T V1 V2 U E. destruct t as [|c t].
  { symmetry. eapply (Z w1 w2 v1 u v2); eassumption. }
  destruct u as [|d u].
  { eapply (Z v1 v2 w1 (c :: t) w2); [assumption..|now symmetry|assumption]. }
  assert (E1 : (c :: t) ++ w2 = (d :: u) ++ v2).
  { apply (start_det (blank wide) w1 v1); [assumption..| | |assumption].
    - intros x r [= <- _]. exact (proj1 T c t eq_refl).
    - intros x r [= <- _]. exact (proj1 U d u eq_refl). }
  apply (f_equal (@rev nat)) in E1. rewrite !rev_app_distr in E1.
  rewrite <- (rev_involutive (c :: t)), <- (rev_involutive (d :: u)). f_equal.
  apply (start_det (blank wide) (rev w2) (rev v2)); [now apply Forall_rev..| | |assumption].
  - intros x r R. apply (proj2 T x (rev r)). rewrite <- (rev_involutive (c :: t)), R. reflexivity.
  - intros x r R. apply (proj2 U x (rev r)). rewrite <- (rev_involutive (d :: u)), R. reflexivity.
Qed.
Lemma lower_low t : lower t = map low t.
Proof. reflexivity. Qed.
Lemma lit_codes s : lit s = codes s.
Proof. reflexivity. Qed.
Lemma trim_ten_spec : forall fuel t, length t <= fuel -> exists k, t = trim_ten fuel t ++ concat (repeat (codes "10") k) /\ (forall q, trim_ten fuel t <> q ++ codes "10").
Proof.
  induction fuel as [|n IH]; intros t L; cbn [trim_ten].
  - exists 0. cbn. rewrite app_nil_r. split; [reflexivity|]. intros q E. apply (f_equal (@length nat)) in E. rewrite app_length in E. cbn in E. lia.
  - rewrite lit_codes. destruct (strip_suffix (codes "10") t) as [u|] eqn:E.
    + apply strip_suffix_spec in E. assert (length u <= n) by (subst t; rewrite app_length in L; cbn in L; lia).
      destruct (IH u H) as (k & K & N). exists (k + 1). rewrite repeat_app, concat_app. split; [|exact N].
      cbn [repeat concat]. rewrite app_nil_r, app_assoc, <- K. exact E.
    + exists 0. cbn [repeat concat]. rewrite app_nil_r. split; [reflexivity|]. intros q T. apply strip_suffix_spec in T. congruence.
Qed.
Lemma ten_det : forall k b b' k', b ++ concat (repeat (codes "10") k) = b' ++ concat (repeat (codes "10") k') -> (forall q, b <> q ++ codes "10") -> (forall q, b' <> q ++ codes "10") -> b = b'.
Proof.
  assert (S : forall k, repeat (codes "10") (S k) = repeat (codes "10") k ++ [codes "10"]). { intros k. rewrite <- Nat.add_1_r, repeat_app. reflexivity. }
  induction k as [|k IH]; intros b b' k' E N N'; destruct k' as [|k'].
  - cbn in E. now rewrite !app_nil_r in E.
  - exfalso. rewrite S, concat_app in E. cbn [repeat concat] in E. rewrite !app_nil_r, app_assoc in E. exact (N _ E).
  - exfalso. rewrite S, concat_app in E. cbn [repeat concat] in E. rewrite !app_nil_r, app_assoc in E. symmetry in E. exact (N' _ E).
  - rewrite !S, !concat_app in E. cbn [concat] in E. rewrite !app_nil_r, !app_assoc in E. apply app_inv_tail in E. exact (IH b b' k' E N N').
Qed.
Lemma is_newcm_spec f : is_newcm f = true <-> newcm f.
Proof.
  unfold is_newcm, newcm. destruct (strip_prefix (lit "NewCM") f) as [r|] eqn:E.
  - apply strip_prefix_spec in E. split; [|reflexivity]. intros _. exists r. left. exact E.
  - destruct (strip_prefix (lit "NewComputerModern") f) as [r|] eqn:E'.
    + apply strip_prefix_spec in E'. split; [|reflexivity]. intros _. exists r. right. exact E'.
    + split; [discriminate|]. intros (r & [T|T]).
      * assert (X : strip_prefix (lit "NewCM") f = Some r) by (apply strip_prefix_spec; exact T). congruence.
      * assert (X : strip_prefix (lit "NewComputerModern") f = Some r) by (apply strip_prefix_spec; exact T). congruence.
Qed.
Lemma renamed_det b r r' : In (b, r) renamed -> In (b, r') renamed -> r = r'.
Proof.
  assert (H : forallb (fun p => forallb (fun q => negb (same (fst p) (fst q)) || same (snd p) (snd q)) renamed) renamed = true) by (vm_compute; reflexivity).
  rewrite forallb_forall in H. intros A B. specialize (H _ A). rewrite forallb_forall in H. specialize (H _ B). cbn [fst snd] in H.
  apply orb_prop in H. destruct H as [H|H]; [|now apply same_spec]. rewrite (proj2 (same_spec b b) eq_refl) in H. discriminate.
Qed.
Lemma written_det b r r' : written b r -> written b r' -> r = r'.
Proof.
  intros [A|(A & ->)] [B|(B & ->)].
  - eapply renamed_det; eassumption.
  - now apply B in A.
  - now apply A in B.
  - reflexivity.
Qed.
Lemma fix_name_written b : written b (fix_name b).
Proof.
  unfold fix_name. change lit with codes.
  repeat match goal with
  | |- context [same b (codes ?s)] => let E := fresh "E" in destruct (same b (codes s)) eqn:E; [apply same_spec in E; cbn [orb]; left; rewrite E; unfold renamed; cbn [map fst snd In]; repeat (first [left; reflexivity | right]) |]
  end.
  cbn [orb]. right. split; [|reflexivity]. intros r' I. unfold renamed in I. cbn [map fst snd In] in I.
  repeat match goal with
  | H : _ \/ _ |- _ => destruct H as [H|H]
  | H : (codes ?s, _) = (b, _) |- _ => injection H as H _; assert (same b (codes s) = true) by (apply same_spec; now symmetry); congruence
  | H : False |- _ => destruct H
  end.
Qed.
Definition words (n : bool) : list name := if n then suffixes ++ book else suffixes.
Lemma words_code n : code (words n).
Proof. apply codeb_code. destruct n; vm_compute; reflexivity. Qed.
Lemma words_nonempty n : forall w, In w (words n) -> 0 < length w.
Proof. apply words_ne. destruct n; vm_compute; reflexivity. Qed.
Lemma family_Family wide f : exists r, family wide f = Some r /\ Family wide f r.
Proof.
  unfold family. destruct (trim_spec wide f) as (w1 & w2 & EF & W1 & W2 & T).
  set (g := trim wide f) in *. destruct (trim_start_spec (fun c => c =? 46) g) as (ds & ED & D & ND). set (core := trim_start (fun c => c =? 46) g) in *.
  fold (words (is_newcm f)). set (n := is_newcm f) in *.
  destruct (rounds_spec (words n) (words_code n) (words_nonempty n) (S (length core)) (lower core) None) as (a & q & P & A & R); [unfold lower; rewrite map_length; lia|exact I|].
  cbn [length] in R. rewrite R.
  assert (LA : length a <= length core) by (apply (f_equal (@length nat)) in A; unfold lower in A; rewrite map_length, app_length in A; lia).
  replace (length core <? length a) with false by (symmetry; now apply Nat.ltb_ge).
  set (base := firstn (length a) core).
  assert (BA : map low base = a).
  { unfold base. rewrite <- firstn_map. change (map low core) with (lower core). rewrite A, firstn_app, Nat.sub_diag, firstn_all. cbn. now rewrite app_nil_r. }
  assert (COMMON : forall r, ((newcm f /\ plain (styles ++ [codes "book"]) (map low core) (map low base)
         /\ exists b k, base = b ++ concat (repeat (codes "10") k) /\ (forall q, b <> q ++ codes "10") /\ written b r)
        \/ (~ newcm f /\ plain styles (map low core) (map low base) /\ written base r)) -> Family wide f r).
  { intros r H. exists w1, w2, ds, core, base, (skipn (length a) core). repeat split; try assumption.
    - now rewrite <- ED.
    - rewrite <- ED. apply T.
    - rewrite <- ED. apply T.
    - eapply Forall_impl; [|exact D]. cbn. intros c C. apply Nat.eqb_eq in C. now symmetry.
    - intros q' Q'. specialize (ND _ _ Q'). now rewrite Nat.eqb_refl in ND.
    - symmetry. apply firstn_skipn. }
  destruct n eqn:N.
  - destruct (trim_ten_spec (length base) base (le_n _)) as (k & K & NK).
    exists (fix_name (trim_ten (length base) base)). split; [reflexivity|]. apply COMMON. left.
    split; [now apply is_newcm_spec|]. split; [rewrite BA; exact P|]. exists (trim_ten (length base) base), k. repeat split; [assumption|assumption|]. apply fix_name_written.
  - exists (fix_name base). split; [reflexivity|]. apply COMMON. right.
    split; [intros M; apply is_newcm_spec in M; fold n in M; congruence|]. split; [rewrite BA; exact P|]. apply fix_name_written.
Qed.
Lemma Family_det wide f r r' : Family wide f r -> Family wide f r' -> r = r'.
Proof.
  intros (w1 & w2 & ds & core & base & tail & E & W1 & W2 & T & D & ND & C & H) (v1 & v2 & ds' & core' & base' & tail' & E' & V1 & V2 & T' & D' & ND' & C' & H').
  assert (G : ds ++ core = ds' ++ core') by (eapply (tight_det wide w1 w2 _ v1 v2); eauto; congruence).
  assert (EC : core' = core).
  { symmetry. apply (start_det (eq 46) ds ds'); try assumption.
    - intros c q Q <-. exact (ND q Q).
    - intros c q Q <-. exact (ND' q Q). }
  rewrite EC in C', H'. clear EC.
  assert (BB : forall ws, code ws -> plain ws (map low core) (map low base) -> plain ws (map low core) (map low base') -> base = base').
  { intros ws CW P P'. assert (M : map low base = map low base') by (eapply plain_det; eassumption). apply (f_equal (@length nat)) in M. rewrite !map_length in M.
    rewrite C in C'. apply (f_equal (firstn (length base))) in C'. rewrite firstn_app, Nat.sub_diag, firstn_all in C'. rewrite M, firstn_app, Nat.sub_diag, firstn_all in C'. cbn in C'. now rewrite !app_nil_r in C'. }
  destruct H as [(N & P & b & k & B & NB & WR)|(N & P & WR)], H' as [(N' & P' & b' & k' & B' & NB' & WR')|(N' & P' & WR')]; try contradiction.
  - pose proof (BB _ (words_code true) P P') as EB. assert (EQ : b = b') by (apply (ten_det k b b' k'); [rewrite <- B, <- B'; exact EB|assumption|assumption]). subst b'. eapply written_det; eassumption.
  - pose proof (BB _ (words_code false) P P') as EB. rewrite <- EB in WR'. eapply written_det; eassumption.
Qed.

(** Names that differ in a style. *)
Lemma Family_plain wide f g r : Family wide f r -> Family wide g r -> family wide f = family wide g.
Proof.
  intros F G. destruct (family_Family wide f) as (a & A & FA). destruct (family_Family wide g) as (b & B & FB).
  rewrite A, B. f_equal. transitivity r; [eapply Family_det; eassumption|eapply Family_det; eassumption].
Qed.
Lemma style_variant ws l c s (CO : code ws) : (forall w, In w ws -> Forall (fun x => ~ sep x) w /\ w <> []) -> sep c -> In s ws -> (forall b d m, sep d -> In m mods -> l <> b ++ [d] ++ m) -> style ws (l ++ [c] ++ s) l.
Proof.
  intros NS C S NM. exists (l ++ [c]). split.
  - exists [s]. split; [discriminate|]. split; [now constructor|]. split; [cbn; now rewrite app_nil_r, <- app_assoc|].
    intros (b & w & W & E). destruct (NS w W) as [F N]. destruct w as [|x w _] using rev_ind; [congruence|]. rewrite app_assoc in E. apply app_inj_tail in E. destruct E as [_ <-].
    apply Forall_app in F. destruct F as [_ F]. exact (Forall_inv F C).
  - right. split; [|now exists c]. intros b (d & m & o & D & M & E & O). destruct (mods_sepless m M) as [F N]. destruct O as [->|(e & E' & ->)].
    + rewrite app_nil_r in E. destruct m as [|x m _] using rev_ind; [congruence|]. rewrite !app_assoc in E. apply app_inj_tail in E. destruct E as [_ <-].
      apply Forall_app in F. destruct F as [_ F]. exact (Forall_inv F C).
    + rewrite !app_assoc in E. apply app_inj_tail in E. destruct E as [E _]. rewrite <- !app_assoc in E. exact (NM b d m D M E).
Qed.
Lemma words_sepless n w : In w (words n) -> Forall (fun x => ~ sep x) w /\ w <> [].
Proof.
  assert (H : forallb (fun m => forallb (fun x => negb ((x =? 32) || (x =? 45) || (x =? 95))) m && match m with [] => false | _ => true end) (words n) = true) by (destruct n; vm_compute; reflexivity).
  rewrite forallb_forall in H. intros M. specialize (H w M). apply andb_prop in H. destruct H as [H H0]. split; [|now destruct w].
  rewrite forallb_forall in H. apply Forall_forall. intros x X S. specialize (H x X). destruct S as [->|[->| ->]]; discriminate.
Qed.
Lemma words_letters n w x : In w (words n) -> In x w -> 97 <= x <= 122.
Proof.
  assert (H : forallb (fun m => forallb (fun x => (97 <=? x) && (x <=? 122)) m) (words n) = true) by (destruct n; vm_compute; reflexivity).
  rewrite forallb_forall in H. intros M X. specialize (H w M). rewrite forallb_forall in H. specialize (H x X). apply andb_prop in H. now rewrite !Nat.leb_le in H.
Qed.
Lemma prefix_sep (p b r : list nat) c : ~ In c p -> (exists q, b ++ c :: r = p ++ q) -> exists q, b = p ++ q.
Proof.
  intros N (q & E). apply app_eq_app in E. destruct E as (l & [(-> & E)|(-> & E)]).
  - now exists l.
  - destruct l as [|x l]; [exists []; now rewrite !app_nil_r|]. exfalso. injection E as <- _. apply N. apply in_or_app. right. now left.
Qed.
Lemma newcm_variant b c r : sep c -> newcm (b ++ c :: r) <-> newcm b.
Proof.
  intros C. unfold newcm. split.
  - intros (q & [E|E]).
    + destruct (prefix_sep (codes "NewCM") b r c) as (x & X); [|now exists q|exists x; now left]. cbv -[Nat.add]. destruct C as [->|[->| ->]]; intuition discriminate.
    + destruct (prefix_sep (codes "NewComputerModern") b r c) as (x & X); [|now exists q|exists x; now right]. cbv -[Nat.add]. destruct C as [->|[->| ->]]; intuition discriminate.
  - intros (q & [->| ->]); exists (q ++ c :: r); rewrite <- app_assoc; auto.
Qed.
Lemma low_range x : 97 <= low x <= 122 -> 65 <= x <= 122.
Proof. unfold low. destruct (65 <=? x) eqn:A, (x <=? 90) eqn:B; cbn; try apply Nat.leb_le in A; try apply Nat.leb_gt in A; try apply Nat.leb_le in B; try apply Nat.leb_gt in B; lia. Qed.
Lemma low_sep x : sep x -> low x = x.
Proof. now intros [->|[->| ->]]. Qed.
Lemma variant wide b c s :
  b <> [] -> tight wide b -> sep c -> In (map low s) styles -> (forall d m q, sep d -> In m mods -> map low b <> q ++ [d] ++ m) ->
  family wide (b ++ [c] ++ s) = family wide b.
Proof.
  intros NB T C S NM. destruct (family_Family wide b) as (r & _ & FB). apply (Family_plain wide _ _ r); [|exact FB].
  destruct FB as (w1 & w2 & ds & core & base & tail & E & W1 & W2 & T' & D & ND & CB & H).
  assert (E0 : b = ds ++ core). { apply (tight_det wide [] [] b w1 w2 (ds ++ core)); try assumption; try constructor. cbn. now rewrite app_nil_r. }
  assert (SN : s <> []) by (intros ->; cbn in S; now apply (words_sepless false) in S).
  assert (SW : forall x, In x s -> 65 <= x <= 122). { intros x X. apply low_range. apply (words_letters false (map low s) (low x) S). now apply in_map. }
  destruct core as [|c0 core0].
  - (* nothing but dots *)
    rewrite app_nil_r in E0. symmetry in CB. apply app_eq_nil in CB. destruct CB as [-> ->].
    assert (NC : newcm b <-> newcm (b ++ [c] ++ s)) by (symmetry; now apply newcm_variant).
    exists [], [], ds, ([c] ++ s), [], ([c] ++ s). cbn [app map]. repeat split; try apply Forall_nil.
    + rewrite app_nil_r, <- E0. reflexivity.
    + intros x q Q. apply (proj1 T x (firstn (length b - 1) (tl b))). rewrite E0. destruct ds as [|d ds]; [now rewrite E0 in NB|]. cbn in Q. injection Q as -> _. cbn. rewrite Nat.sub_0_r, firstn_all. reflexivity.
    + intros x q Q B. destruct s as [|y s _] using rev_ind; [congruence|]. change (ds ++ c :: s ++ [y] = q ++ [x]) in Q. rewrite app_comm_cons, app_assoc in Q. apply app_inj_tail in Q. destruct Q as [_ ->].
      specialize (SW x ltac:(apply in_or_app; right; now left)). destruct B as [B|[B|[B _]]]; lia.
    + assumption.
    + intros q [= -> _]. destruct C as [C|[C|C]]; discriminate.
    + assert (ST : forall n, In (map low s) (words n) -> style (words n) (map low (c :: s)) []).
      { intros n I. cbn [map]. rewrite (low_sep c C). apply (style_variant (words n) [] c (map low s) (words_code n) (words_sepless n) C I). intros q d m _ _ Q. destruct q; discriminate. }
      destruct H as [(N & P & b0 & k & B & NB' & WR)|(N & P & WR)].
      * left. split; [now apply NC|]. split; [|now exists b0, k]. apply (plain_one _ _ []); [|exact P]. apply (ST true). apply in_or_app. now left.
      * right. split; [intros M; apply N; now apply NC|]. split; [|assumption]. apply (plain_one _ _ []); [|exact P]. now apply (ST false).
  - set (core := c0 :: core0) in *.
    assert (NC : newcm b <-> newcm (b ++ [c] ++ s)) by (symmetry; now apply newcm_variant).
    exists [], [], ds, (core ++ [c] ++ s), base, (tail ++ [c] ++ s). repeat split; try apply Forall_nil.
    + cbn [app]. rewrite app_nil_r, app_assoc, <- E0. reflexivity.
    + intros x q Q. destruct b as [|b0 b1]; [congruence|]. rewrite app_assoc, <- E0 in Q. cbn in Q. injection Q as <- _. exact (proj1 T b0 b1 eq_refl).
    + intros x q Q B. destruct s as [|y s _] using rev_ind; [congruence|]. rewrite !app_assoc in Q. apply app_inj_tail in Q. destruct Q as [_ ->].
      specialize (SW x ltac:(apply in_or_app; right; now left)). destruct B as [B|[B|[B _]]]; lia.
    + assumption.
    + intros q Q. unfold core in Q. cbn in Q. injection Q as -> _. exact (ND core0 eq_refl).
    + now rewrite CB, <- app_assoc.
    + assert (ST : forall n, In (map low s) (words n) -> style (words n) (map low (core ++ [c] ++ s)) (map low core)).
      { intros n I. rewrite !map_app. cbn [map]. rewrite (low_sep c C). apply (style_variant (words n) _ c (map low s) (words_code n) (words_sepless n) C I).
        intros q d m SD M Q. apply (NM d m (map low ds ++ q) SD M). now rewrite E0, map_app, Q, <- app_assoc. }
      destruct H as [(N & P & b0 & k & B & NB' & WR)|(N & P & WR)].
      * left. split; [now apply NC|]. split; [|now exists b0, k]. apply (plain_one _ _ (map low core)); [|exact P]. apply (ST true). apply in_or_app. now left.
      * right. split; [intros M; apply N; now apply NC|]. split; [|assumption]. apply (plain_one _ _ (map low core)); [|exact P]. now apply (ST false).
Qed.
