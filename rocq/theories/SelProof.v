(** Proofs about the ranges to select (C177). *)
From Coq Require Import List Arith Bool Lia.
From Verif Require Import SelModel SelSpec.
Import ListNotations.

Scheme ends_mut := Induction for ends Sort Prop with ends_all_mut := Induction for ends_all Sort Prop.
Fixpoint lens (cs : list node) : nat := match cs with [] => 0 | c :: r => len c + lens r end.
Lemma len_inner cs : len (Inner cs) = lens cs.
Proof. cbn. induction cs as [|c r IH]; cbn; [reflexivity|]. now rewrite IH. Qed.
Lemma node_ind2 (P : node -> Prop) : (forall l, P (Leaf l)) -> (forall cs, Forall P cs -> P (Inner cs)) -> forall n, P n.
Proof.
  intros HL HI. fix F 1. intros [l|cs]; [apply HL|]. apply HI. induction cs as [|c r IH]; constructor; [apply F|exact IH].
Qed.
Lemma ends_len o n e : ends o n e -> e = o + len n.
Proof.
  intros H. induction H using ends_mut with (P0 := fun o cs e _ => e = o + lens cs); cbn [lens]; try lia; [reflexivity|].
  rewrite len_inner. exact IHends.
Qed.
Lemma ends_all_lens o cs e : ends_all o cs e -> e = o + lens cs.
Proof. induction 1 as [|o c m cs e H _ IH]; cbn; [lia|]. apply ends_len in H. lia. Qed.
Lemma len_ends n : forall o, ends o n (o + len n).
Proof.
  induction n as [l|cs IH] using node_ind2; intros o; [constructor|]. constructor. rewrite len_inner.
  revert o. induction IH as [|c r Hc _ IH]; intros o; cbn; [rewrite Nat.add_0_r; constructor|].
  econstructor; [apply Hc|]. rewrite Nat.add_assoc. apply IH.
Qed.
Lemma lens_ends cs o : ends_all o cs (o + lens cs).
Proof. pose proof (len_ends (Inner cs) o) as H. rewrite len_inner in H. inversion H; subst. assumption. Qed.
Lemma lens_app a b : lens (a ++ b) = lens a + lens b.
Proof. induction a as [|x r IH]; cbn; lia. Qed.
Lemma tower_in o n a b rs : tower o n a b rs -> o <= a /\ a <= b /\ b <= o + len n.
Proof.
  induction 1 as [o l|o|o pre c post m e a b rs Hp He _ IH]; cbn [len]; try lia.
  rewrite (ends_all_lens _ _ _ Hp) in *. change (len (Inner (pre ++ c :: post))) with (len (Inner (pre ++ c :: post))).
  change ((fix sum (cs : list node) : nat := match cs with [] => 0 | c :: r => len c + sum r end) (pre ++ c :: post)) with (len (Inner (pre ++ c :: post))).
  rewrite len_inner, lens_app. cbn [lens]. lia.
Qed.
(** The search among the children. *)
Fixpoint go (cursor o : nat) (cs : list node) : option (list (nat * nat)) :=
  match cs with
  | [] => None
  | c :: r =>
      if ((o <? cursor) && (cursor <=? o + len c)) || ((o =? cursor) && match r with [] => true | _ => false end)
      then ranges_before o c cursor else go cursor (o + len c) r
  end.
Lemma before_inner o c r cursor : ranges_before o (Inner (c :: r)) cursor =
  match go cursor o (c :: r) with None => None | Some l => Some (l ++ [(o, o + len (Inner (c :: r)))]) end.
Proof.
  cbn [ranges_before].
  assert (G : forall cs o, (fix go o cs := match cs with [] => None | c :: r =>
    if ((o <? cursor) && (cursor <=? o + len c)) || ((o =? cursor) && match r with [] => true | _ => false end)
    then ranges_before o c cursor else go (o + len c) r end) o cs = go cursor o cs).
  { induction cs as [|x xs IH]; intros o'; [reflexivity|]. cbn [go]. destruct (_ || _); [reflexivity|]. apply IH. }
  pose proof (G (c :: r) o) as E. cbn [go] in E |- *. rewrite <- G. reflexivity.
Qed.
(** What is found is a tower, and the cursor is in it. *)
Lemma found n : forall o cursor l, o < cursor -> ranges_before o n cursor = Some l -> exists a b, tower o n a b l /\ a < cursor <= b.
Proof.
  induction n as [k|cs IH] using node_ind2; intros o cursor l L H.
  - cbn in H. destruct (Nat.leb_spec cursor (o + k)); [|discriminate]. injection H as <-. exists o, (o + k). split; [constructor|lia].
  - destruct cs as [|c r]; [cbn in H; destruct (Nat.leb_spec cursor o); [lia|discriminate]|].
    rewrite before_inner in H. destruct (go cursor o (c :: r)) as [l'|] eqn:G; [|discriminate]. injection H as <-.
    enough (E : forall pre m, o + lens pre = m -> m < cursor -> forall cs, Forall (fun n => forall o cursor l, o < cursor -> ranges_before o n cursor = Some l -> exists a b, tower o n a b l /\ a < cursor <= b) cs ->
      go cursor m cs = Some l' -> exists a b, tower o (Inner (pre ++ cs)) a b (l' ++ [(o, o + len (Inner (pre ++ cs)))]) /\ a < cursor <= b)
      by (apply (E [] o); [cbn; lia|exact L|exact IH|exact G]).
    clear. intros pre m E L cs F. revert pre m E L. induction F as [|x xs Hx _ IH]; intros pre m E L H; [discriminate|]. cbn [go] in H.
    destruct (Nat.ltb_spec m cursor); [|lia]. destruct (Nat.eqb_spec m cursor); [lia|]. cbn [andb orb] in H. rewrite orb_false_r in H.
    destruct (Nat.leb_spec cursor (m + len x)).
    + destruct (Hx _ _ _ L H) as (a & b & T & B). exists a, b. split; [|exact B]. eapply T_child; [|apply len_ends|exact T].
      rewrite <- E. apply lens_ends.
    + destruct (IH (pre ++ [x]) (m + len x)) as (a & b & T & B); [rewrite lens_app; cbn; lia|lia|exact H|].
      rewrite <- app_assoc in T. exists a, b. split; [exact T|exact B].
Qed.
(** A tower that has the cursor is found. *)
Lemma finds o n a b rs cursor : tower o n a b rs -> a < cursor <= b -> ranges_before o n cursor = Some rs.
Proof.
  induction 1 as [o l|o|o pre c post m e a b rs Hp He T IH]; intros B.
  - cbn. destruct (Nat.leb_spec cursor (o + l)); [reflexivity|lia].
  - lia.
  - specialize (IH B). pose proof (tower_in _ _ _ _ _ T) as I. apply ends_len in He. subst e. apply ends_all_lens in Hp. subst m.
    destruct (pre ++ c :: post) as [|x xs] eqn:E; [destruct pre; discriminate|]. rewrite before_inner, <- E.
    assert (G : go cursor o (pre ++ c :: post) = Some rs); [|now rewrite G].
    clear E x xs. revert o T IH I. induction pre as [|p ps IHp]; intros o T IH I; cbn [lens app go] in *.
    + rewrite Nat.add_0_r in *. destruct (Nat.ltb_spec o cursor); [|lia]. destruct (Nat.leb_spec cursor (o + len c)); [|lia]. exact IH.
    + rewrite Nat.add_assoc in *. destruct (Nat.leb_spec cursor (o + len p)); [lia|]. rewrite andb_false_r.
      destruct (Nat.eqb_spec o cursor); [lia|]. cbn [orb andb]. apply IHp; assumption.
Qed.
Lemma exists_tower n : forall o cursor, o < cursor <= o + len n -> exists l, ranges_before o n cursor = Some l.
Proof.
  induction n as [k|cs IH] using node_ind2; intros o cursor B.
  - cbn in *. destruct (Nat.leb_spec cursor (o + k)); [eauto|lia].
  - destruct cs as [|c r]; [cbn in B; lia|]. rewrite before_inner. rewrite len_inner in B.
    enough (E : forall o, o < cursor <= o + lens (c :: r) -> exists l, go cursor o (c :: r) = Some l) by (destruct (E o B) as [l ->]; eauto).
    clear o B. induction IH as [|x xs Hx _ IH]; intros o B; cbn [lens go] in *; [lia|].
    destruct (Nat.ltb_spec o cursor); [|lia]. destruct (Nat.eqb_spec o cursor); [lia|]. cbn [andb orb]. rewrite orb_false_r.
    destruct (Nat.leb_spec cursor (o + len x)); [apply Hx; lia|apply IH; lia].
Qed.
Lemma before_end o n cursor : o + len n < cursor -> ranges_before o n cursor = None.
Proof.
  intros L. destruct (ranges_before o n cursor) as [l|] eqn:E; [|reflexivity].
  apply found in E as (a & b & T & B); [|lia]. apply tower_in in T. lia.
Qed.
Lemma each root ps ls : selection_ranges root ps = Some ls <->
  Forall2 (fun p l => exists x a b, p = Some x /\ tower 0 root a b l /\ a <= x < b) ps ls.
Proof.
  revert ls. induction ps as [|p r IH]; cbn [selection_ranges]; intros ls.
  - split; [intros H; injection H as <-; constructor|intros H; inversion H; reflexivity].
  - split.
    + intros H. destruct p as [x|]; [|discriminate]. destruct (ranges_before 0 root (x + 1)) as [l|] eqn:E; [|discriminate].
      destruct (selection_ranges root r) as [ls'|]; [|discriminate]. injection H as <-. constructor; [|apply IH; reflexivity].
      apply found in E as (a & b & T & B); [|lia]. exists x, a, b. split; [reflexivity|]. split; [exact T|lia].
    + intros H. inversion H as [|? l ? ls' (x & a & b & -> & T & B) F]; subst. rewrite (finds _ _ _ _ _ _ T) by lia. apply IH in F. now rewrite F.
Qed.
Lemma none root ps : selection_ranges root ps = None <-> exists p, In p ps /\ forall x, p = Some x -> len root <= x.
Proof.
  induction ps as [|p r IH]; cbn [selection_ranges]; [split; [discriminate|intros (p & [] & _)]|].
  destruct p as [x|].
  - destruct (le_lt_dec (len root) x) as [L|L].
    + rewrite before_end by (cbn; lia). split; [|reflexivity]. intros _. exists (Some x). split; [now left|]. intros y E. injection E as <-. exact L.
    + destruct (exists_tower root 0 (x + 1)) as [l ->]; [lia|]. destruct (selection_ranges root r) as [ls|].
      * split; [discriminate|]. intros (p & [<-|I] & H); [specialize (H x eq_refl); lia|].
        assert (D : Some ls = None) by (apply IH; eauto). discriminate.
      * split; [|reflexivity]. intros _. destruct (proj1 IH eq_refl) as (p & I & H). exists p. split; [now right|exact H].
  - split; [|reflexivity]. intros _. exists None. split; [now left|discriminate].
Qed.
Lemma tower_shape o n a b rs : tower o n a b rs -> hd_error rs = Some (a, b) /\ (exists r, rs = r ++ [(o, o + len n)]) /\ nested rs.
Proof.
  induction 1 as [o l|o|o pre c post m e a b rs Hp He T IH].
  - split; [reflexivity|]. split; [exists []; reflexivity|exact I].
  - split; [reflexivity|]. split; [exists []; cbn; now rewrite Nat.add_0_r|exact I].
  - destruct IH as (Hh & (r & ->) & Hn). apply ends_len in He. subst e. apply ends_all_lens in Hp. subst m. split.
    + destruct r as [|p r]; cbn in *; exact Hh.
    + split; [eexists; reflexivity|]. rewrite <- app_assoc. cbn [app].
      assert (B : o <= o + lens pre /\ o + lens pre + len c <= o + len (Inner (pre ++ c :: post))) by (rewrite len_inner, lens_app; cbn; lia).
      clear Hh T. revert Hn B. generalize (o + lens pre) as m. intros m. induction r as [|[u v] r IHr]; intros Hn B; [cbn in *; repeat split; lia|].
      assert (N : nested (r ++ [(m, m + len c); (o, o + len (Inner (pre ++ c :: post)))])).
      { apply IHr; [|exact B]. destruct r as [|[u' v'] r]; [exact I|]. cbn [app nested] in Hn. apply Hn. }
      destruct r as [|[u' v'] r]; cbn [app nested] in Hn, N |- *; (split; [apply Hn|]; split; [apply Hn|exact N]).
Qed.
