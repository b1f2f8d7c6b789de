(** Proofs about the word count (C44). *)
From Coq Require Import List Arith NArith Bool Lia.
From Verif Require Import WordModel WordSpec.
Import ListNotations.

(** * Export *)
Lemma frame_reads : forall f, reads_frame f (export_frame f).
Proof.
  fix IH 1. intros [items hint]. cbn [export_frame]. constructor. induction items as [|[f|t|] r IHr]; [constructor| | |].
  - constructor; [apply IH|exact IHr].
  - now constructor.
  - now constructor.
Qed.
Lemma html_reads : forall n r u, reads_html r u -> reads_html (n :: r) (export_html n ++ u).
Proof.
  fix IH 1. intros [|cs|t|f] r u H; cbn [export_html app]; constructor; auto using frame_reads.
  induction cs as [|c cs IHc]; [constructor|]. cbn [flat_map]. now apply IH.
Qed.
Theorem doc_reads d : reads d (export_doc d).
Proof.
  destruct d as [ps|cs]; cbn [export_doc].
  - rewrite flat_map_concat_map. constructor. induction ps; constructor; auto using frame_reads.
  - constructor. induction cs as [|c cs IH]; [constructor|]. cbn [flat_map]. now apply html_reads.
Qed.
Scheme reads_frame_mut := Induction for reads_frame Sort Prop with reads_items_mut := Induction for reads_items Sort Prop.
Lemma frame_only f t : reads_frame f t -> t = export_frame f.
Proof.
  intros H. induction H using reads_frame_mut with (P0 := fun items t _ => t = (fix go l := match l with [] => [] | i :: r => export_item i ++ go r end) items); cbn [export_frame export_item app]; congruence.
Qed.
Lemma html_only cs t : reads_html cs t -> t = flat_map export_html cs.
Proof. intros H. induction H; cbn [flat_map export_html app]; try match goal with K : reads_frame _ _ |- _ => apply frame_only in K end; congruence. Qed.
Theorem doc_only d t : reads d t -> t = export_doc d.
Proof.
  intros [ps ts H|cs u H]; cbn [export_doc]; [|now apply html_only]. rewrite flat_map_concat_map. f_equal. induction H; cbn; [reflexivity|]. f_equal; [now apply frame_only|assumption].
Qed.

(** * Counting *)
Section Count.
Variables ws cjk : N -> bool.
Let kd := kind_of ws cjk.
Let step := cstep ws cjk.
Let run s t := fold_left step t s.
Definition of_kind (k : kind) : cstate := match k with KSpace => InSpace | KCjk => InCJK | KWord => InNonCJK end.
Lemma run_app s a b : run s (a ++ b) = run (run s a) b.
Proof. apply fold_left_app. Qed.
(** What a piece of one kind adds. *)
Lemma run_piece k p : p <> [] -> Forall (fun c => kd c = k) p -> forall st w c s j, run (st, mkCounts w c s j) p =
  (of_kind k, mkCounts (w + match k with KSpace => 0 | KCjk => length p | KWord => if cs_eqb st InNonCJK then 0 else 1 end) (c + length p)
    (s + match k with KSpace => if cs_eqb st InSpace then 0 else 1 | _ => 0 end) (j + match k with KCjk => length p | _ => 0 end)).
Proof.
  intros N F. induction p as [|x p IH]; [congruence|]. intros st w c s j. cbn [run fold_left]. change (fold_left step p ?a) with (run a p).
  pose proof (Forall_inv F) as X. cbn in X. unfold kd, kind_of in X.
  assert (E : step (st, mkCounts w c s j) x = (of_kind k, mkCounts (w + match k with KSpace => 0 | KCjk => 1 | KWord => if cs_eqb st InNonCJK then 0 else 1 end) (c + 1)
    (s + match k with KSpace => if cs_eqb st InSpace then 0 else 1 | _ => 0 end) (j + match k with KCjk => 1 | _ => 0 end))).
  { unfold step, cstep. cbn [words chars spaces cjk_chars]. destruct (ws x); [|destruct (cjk x)]; subst k; cbn [of_kind]; f_equal; destruct st; cbn [cs_eqb negb]; f_equal; lia. }
  rewrite E. destruct p as [|y p]; [cbn [run fold_left length]; f_equal; f_equal; destruct k; lia|]. rewrite IH; [|discriminate|exact (Forall_inv_tail F)]. f_equal.
  cbn [length]. destruct k; cbn [of_kind cs_eqb]; f_equal; destruct st; cbn [cs_eqb]; lia.
Qed.
Definition cjks (gs : list (kind * str)) : nat := list_sum (map (fun g => match fst g with KCjk => length (snd g) | _ => 0 end) gs).
(** What the first piece joins on to. *)
Definition joins (k : kind) (st : cstate) (gs : list (kind * str)) : nat := if cs_eqb st (of_kind k) then begins k gs else 0.
Lemma begins_le k gs : begins k gs <= pieces k gs.
Proof. unfold pieces. destruct gs as [|[k2 p] gs]; cbn; [lia|]. destruct (is_kind k k2); cbn; lia. Qed.
Lemma pieces_cons k k2 p gs : pieces k ((k2, p) :: gs) = (if is_kind k k2 then 1 else 0) + pieces k gs.
Proof. unfold pieces. cbn [filter fst]. now destruct (is_kind k k2). Qed.
Lemma cjks_cons k p gs : cjks ((k, p) :: gs) = match k with KCjk => length p | _ => 0 end + cjks gs.
Proof. reflexivity. Qed.
Lemma run_segs gs : forall t st w c s j, segs kd t gs -> exists st', run (st, mkCounts w c s j) t =
  (st', mkCounts (w + cjks gs + pieces KWord gs - joins KWord st gs) (c + length t) (s + pieces KSpace gs - joins KSpace st gs) (j + cjks gs)).
Proof.
  induction gs as [|[k p] gs IH]; intros t st w c s j (-> & F & A).
  - exists st. cbn. unfold joins. cbn. f_equal. f_equal; destruct st; cbn; lia.
  - cbn [map concat snd]. rewrite run_app. destruct (Forall_inv F) as [N FK]. cbn [fst snd] in *. rewrite (run_piece k p N FK).
    edestruct (IH (concat (map snd gs))) as (st' & E). { split; [reflexivity|]. split; [exact (Forall_inv_tail F)|]. intros a x y b ->. apply (A ((k, p) :: a) x y b eq_refl). }
    exists st'. unfold run in *. rewrite E. f_equal. rewrite !pieces_cons, cjks_cons, app_length. unfold joins. change (begins ?k' ((k, p) :: gs)) with (if is_kind k' k then 1 else 0).
    assert (B : begins k gs = 0). { destruct gs as [|[k2 p2] gs]; [reflexivity|]. specialize (A [] (k, p) (k2, p2) gs eq_refl). cbn in *. destruct k, k2; cbn; congruence. }
    pose proof (begins_le KWord gs) as G1. pose proof (begins_le KSpace gs) as G2. 
    destruct k; cbn [is_kind of_kind cs_eqb] in *; rewrite ?B; destruct st; cbn [cs_eqb]; f_equal; lia.
Qed.
Lemma cjks_number t gs : segs kd t gs -> cjks gs = number (fun c => negb (ws c) && cjk c) t.
Proof.
  intros (-> & F & _). unfold number. induction F as [|[k p] gs (N & FK) F IH]; [reflexivity|]. cbn [map concat fst snd] in *. rewrite filter_app, app_length, <- IH. unfold cjks. cbn [map list_sum fold_right fst snd].
  f_equal. clear - FK. induction p as [|x p IHp]; [now destruct k|]. pose proof (Forall_inv FK) as X. specialize (IHp (Forall_inv_tail FK)). unfold kd, kind_of in X. cbn [filter].
  destruct (ws x); [|destruct (cjk x)]; subst k; cbn [negb andb length] in *; lia.
Qed.
Theorem count_right t gs : segs kd t gs -> count_text ws cjk t =
  mkCounts (number (fun c => negb (ws c) && cjk c) t + pieces KWord gs) (length t) (pieces KSpace gs - begins KSpace gs) (number (fun c => negb (ws c) && cjk c) t).
Proof.
  intros S. unfold count_text. destruct (run_segs gs t InSpace 0 0 0 0 S) as (st & E). unfold run in E. fold step. rewrite E. cbn [snd]. rewrite <- (cjks_number t gs S). unfold joins. cbn [cs_eqb of_kind]. f_equal; lia.
Qed.
Theorem segs_ex t : exists gs, segs kd t gs.
Proof.
  induction t as [|c t (gs & -> & F & A)]; [exists []; repeat split; [constructor|intros [|? ?] ? ? ? ?; discriminate]|].
  assert (K : {gs' & {g & gs = g :: gs' /\ fst g = kd c}} + {forall g gs', gs = g :: gs' -> fst g <> kd c}).
  { destruct gs as [|g gs']; [right; discriminate|]. assert (D : {fst g = kd c} + {fst g <> kd c}) by decide equality. destruct D as [D|D]; [left; eauto|right]. intros ? ? E. now injection E as <- <-. }
  destruct K as [(gs' & [k p] & -> & K)|K].
  - cbn in K. subst k. exists ((kd c, c :: p) :: gs'). split; [reflexivity|]. split.
    + constructor; [|exact (Forall_inv_tail F)]. cbn. split; [discriminate|]. constructor; [reflexivity|]. apply (Forall_inv F).
    + intros [|g a] x y b E; injection E as E1 E2.
      * subst x gs'. exact (A [] (kd c, p) y b eq_refl).
      * subst g gs'. apply (A ((kd c, p) :: a) x y b eq_refl).
  - exists ((kd c, [c]) :: gs). split; [reflexivity|]. split; [constructor; [|exact F]; cbn; split; [discriminate|repeat constructor]|].
    intros [|g a] x y b E; injection E as E1 E2; [|subst gs; apply (A a x y b eq_refl)]. subst x. cbn. intros E. symmetry in E. revert E. exact (K _ _ E2).
Qed.
(** Texts with a space between. *)
Theorem count_split a c b : ws c = true -> words (count_text ws cjk (a ++ c :: b)) = words (count_text ws cjk a) + words (count_text ws cjk b).
Proof.
  intros W. unfold count_text. rewrite fold_left_app. cbn [fold_left]. destruct (fold_left (cstep ws cjk) a (InSpace, mkCounts 0 0 0 0)) as [st [w n s j]]. cbn [snd words].
  unfold cstep at 2. rewrite W. cbn [words chars spaces cjk_chars]. set (m := if negb (cs_eqb st InSpace) then _ else _). assert (M : words m = w) by (unfold m; destruct st; reflexivity).
  rewrite <- M. clearbody m. destruct (segs_ex b) as (gs & S). destruct m as [w0 c0 s0 j0]. destruct (run_segs gs b InSpace w0 c0 s0 j0 S) as (s1 & E1). destruct (run_segs gs b InSpace 0 0 0 0 S) as (s2 & E2).
  unfold run, step in E1, E2. rewrite E1, E2. cbn [snd words]. unfold joins. cbn [cs_eqb of_kind]. lia.
Qed.
End Count.
