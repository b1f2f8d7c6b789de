(** Proofs about tooltips (C180). *)
From Coq Require Import List Arith Bool Lia.
From Verif Require Import TipModel TipSpec.
Import ListNotations.

Section Tip.
Variables (is_func has_docs is_len : val -> bool).
Notation values := (values is_func).

Lemma runs_snoc vs rs v : runs vs rs -> (forall r m, rs <> r ++ [(v, m)]) -> runs (vs ++ [v]) (rs ++ [(v, 1)]).
Proof.
  induction 1 as [|w n vs rs N D R IH]; intros H.
  - apply (R_cons v 1 [] []); [lia|discriminate|constructor].
  - rewrite <- app_assoc. cbn [app]. constructor; [exact N| |apply IH; intros r m E; subst; exact (H ((w, n) :: r) m eq_refl)].
    intros m r E. destruct rs as [|x rs']; cbn in E; [injection E as -> _ _; exact (H [] n eq_refl)|]. injection E as -> _. exact (D m rs' eq_refl).
Qed.
Lemma runs_more vs rs v n : runs vs (rs ++ [(v, n)]) -> runs (vs ++ [v]) (rs ++ [(v, n + 1)]).
Proof.
  revert vs. induction rs as [|[w k] rs IH]; cbn [app]; intros vs R.
  - inversion R as [|? ? vs' ? N D R']; subst. inversion R'; subst. rewrite app_nil_r.
    replace (repeat v n ++ [v]) with (repeat v (n + 1) ++ []) by (rewrite app_nil_r, repeat_app; reflexivity). constructor; [lia|discriminate|constructor].
  - inversion R as [|? ? vs' ? N D R']; subst. rewrite <- app_assoc. constructor; [exact N| |now apply IH].
    intros m r E. destruct rs as [|x rs']; cbn in E; [injection E as -> _ _; exact (D n [] eq_refl)|injection E as -> _; exact (D m _ eq_refl)].
Qed.
(** Neither the order of values nor the runs leave a choice of what the last one is. *)
Definition inv (vs : list val) (s : loop) : Prop :=
  match l_last s with
  | None => vs = [] /\ l_pieces s = [] /\ l_func s = None /\ l_unique s = true
  | Some (v, n) => exists rs ps, runs vs (rs ++ [(v, n)]) /\ Forall2 shown_as rs ps /\ rev (l_pieces s) = ps ++ [mkPiece v None] /\
      ((match l_func s with Some _ => true | None => false end) && l_unique s = true <-> one_function is_func vs) /\
      (l_func s = None -> l_unique s = false) /\ (l_unique s = true -> forall f, l_func s = Some f -> exists k, vs = repeat f k /\ is_func f = true)
  end.
Lemma repeat_snoc {A} (x : A) n : repeat x n ++ [x] = repeat x (n + 1).
Proof. now rewrite repeat_app. Qed.
Lemma repeat_last {A} (vs : list A) v f k : vs ++ [v] = repeat f k -> v = f /\ vs = repeat f (pred k).
Proof.
  intros E. destruct k as [|k]; [destruct vs; discriminate|]. cbn [pred]. replace (S k) with (k + 1) in E by lia. rewrite <- repeat_snoc in E.
  apply app_inj_tail in E as [E1 E2]. now split.
Qed.
Lemma runs_last vs rs v n : runs vs (rs ++ [(v, n)]) -> exists ws, vs = ws ++ [v].
Proof.
  revert vs. induction rs as [|[w k] rs IH]; cbn [app]; intros vs R; inversion R as [|? ? vs' ? N D R']; subst.
  - inversion R'; subst. rewrite app_nil_r. destruct n as [|n]; [lia|]. exists (repeat v n). replace (S n) with (n + 1) by lia. now rewrite <- repeat_snoc.
  - destruct (IH _ R') as [ws ->]. exists (repeat w k ++ ws). now rewrite app_assoc.
Qed.
Lemma runs_pos vs rs v n : runs vs (rs ++ [(v, n)]) -> 0 < n.
Proof. revert vs. induction rs as [|[w k] rs IH]; cbn [app]; intros vs R; inversion R; subst; [assumption|eauto]. Qed.
Lemma forall2_snoc {A B} (P : A -> B -> Prop) l m x y : Forall2 P l m -> P x y -> Forall2 P (l ++ [x]) (m ++ [y]).
Proof. intros F H. apply Forall2_app; [exact F|repeat constructor; exact H]. Qed.
Lemma differs_inv vs s v rs ps : runs vs rs -> Forall2 shown_as rs (rev ps) -> (forall r m, rs <> r ++ [(v, m)]) ->
  (vs = [] -> l_func s = None /\ l_unique s = true) -> (vs <> [] -> l_func s = None -> l_unique s = false) ->
  (vs <> [] -> l_unique s = true -> forall f, l_func s = Some f -> exists k, vs = repeat f k /\ is_func f = true) ->
  (vs <> [] -> exists w ws, vs = ws ++ [w] /\ w <> v) -> inv (vs ++ [v]) (differs is_func v s ps).
Proof.
  intros R F D V0 V1 V2 L.
  assert (P : exists rs0 ps0, runs (vs ++ [v]) (rs0 ++ [(v, 1)]) /\ Forall2 shown_as rs0 ps0 /\ rev (mkPiece v None :: ps) = ps0 ++ [mkPiece v None]).
  { exists rs, (rev ps). split; [now apply runs_snoc|]. split; [exact F|reflexivity]. }
  destruct P as (rs0 & ps0 & P1 & P2 & P3). unfold inv, differs.
  destruct vs as [|x xs].
  - destruct (V0 eq_refl) as [E1 E2]. rewrite E1, E2. destruct (is_func v) eqn:I; cbn; exists rs0, ps0; (split; [exact P1|]; split; [exact P2|]; split; [exact P3|]).
    + split; [|split; [discriminate|]]. * split; [intros _; exists v, 1; repeat split; [exact I|lia]|reflexivity].
      * intros _ f E. injection E as <-. exists 1. now split.
    + split; [|split; [reflexivity|discriminate]]. split; [discriminate|]. intros (f & n & If & _ & E). exfalso. destruct n as [|n]; [discriminate|]. injection E as -> _. congruence.
  - assert (X : x :: xs <> []) by discriminate. specialize (V1 X). specialize (V2 X). destruct (L X) as (w & ws & E & W).
    assert (NO : ~ one_function is_func ((x :: xs) ++ [v])).
    { rewrite E. intros (f & n & _ & _ & H). apply repeat_last in H as [-> H]. destruct (pred n) as [|k]; [destruct ws; discriminate|].
      replace (S k) with (k + 1) in H by lia. rewrite <- repeat_snoc in H. apply app_inj_tail in H as [_ ->]. now apply W. }
    destruct (is_func v) eqn:I.
    + destruct (l_func s) as [f|] eqn:FF; cbn.
      * assert (U : (if l_unique s then f =? v else l_unique s) = false).
        { destruct (l_unique s) eqn:U; [|reflexivity]. destruct (V2 eq_refl f eq_refl) as (k & H & _). apply Nat.eqb_neq. intros ->. apply W. rewrite E in H. now apply repeat_last in H. }
        exists rs0, ps0. split; [exact P1|]. split; [exact P2|]. split; [exact P3|]. rewrite U. split; [split; [discriminate|intros O; now apply NO in O]|]. split; [discriminate|discriminate].
      * rewrite (V1 eq_refl). exists rs0, ps0. split; [exact P1|]. split; [exact P2|]. split; [exact P3|]. split; [split; [discriminate|intros O; now apply NO in O]|]. split; [discriminate|discriminate].
    + cbn. exists rs0, ps0. split; [exact P1|]. split; [exact P2|]. split; [exact P3|]. rewrite andb_false_r. split; [split; [discriminate|intros O; now apply NO in O]|]. split; [reflexivity|discriminate].
Qed.
Lemma value_inv vs s v : inv vs s -> exists s', value is_func s v = Some s' /\ inv (vs ++ [v]) s'.
Proof.
  intros I. unfold value. destruct (l_last s) as [[w n]|] eqn:L.
  - unfold inv in I. rewrite L in I. destruct I as (rs & ps & R & F & P & O & U & V). pose proof (runs_pos _ _ _ _ R) as N.
    destruct (Nat.eqb_spec w v) as [->|D].
    + eexists. split; [reflexivity|]. unfold inv. cbn. exists rs, ps. split; [now apply runs_more|]. split; [exact F|]. split; [exact P|].
      assert (OO : one_function is_func (vs ++ [v]) <-> one_function is_func vs).
      { destruct (runs_last _ _ _ _ R) as [ws ->]. split.
        - intros (f & k & If & K & E). apply repeat_last in E as [_ E]. exists f, (pred k). split; [exact If|]. split; [|exact E]. destruct (pred k); [destruct ws; discriminate|lia].
        - intros (f & k & If & K & E). exists f, (k + 1). split; [exact If|]. split; [lia|]. rewrite E, <- repeat_snoc. f_equal. apply repeat_last in E as [-> _]. reflexivity. }
      rewrite OO. split; [exact O|]. split; [exact U|]. intros UU f FF. destruct (V UU f FF) as (k & E & If). exists (k + 1). split; [|exact If].
      destruct (runs_last _ _ _ _ R) as [ws W]. rewrite W in E. pose proof (repeat_last _ _ _ _ E) as [EE _]. rewrite W, E, EE. now rewrite repeat_snoc.
    + assert (LST : vs <> [] -> exists w0 ws, vs = ws ++ [w0] /\ w0 <> v) by (intros _; destruct (runs_last _ _ _ _ R) as [ws W]; exists w, ws; split; [exact W|exact D]).
      assert (NE : vs <> []) by (destruct (runs_last _ _ _ _ R) as [ws ->]; destruct ws; discriminate).
      assert (DD : forall r m, rs ++ [(w, n)] <> r ++ [(v, m)]) by (intros r m E; apply app_inj_tail in E as [_ E]; injection E as -> _; now apply D).
      destruct (l_pieces s) as [|p pr] eqn:PP; [destruct ps; discriminate|]. cbn [rev] in P. apply app_inj_tail in P as [P1 P2]. subst p.
      destruct (Nat.ltb_spec 1 n).
      * cbn [times p_val]. eexists. split; [reflexivity|]. eapply differs_inv; [exact R| |exact DD|intros ->; now destruct NE|intros _; exact U|intros _; exact V|exact LST].
        cbn [rev]. rewrite P1. apply forall2_snoc; [exact F|]. split; [reflexivity|]. right. split; [exact H|reflexivity].
      * eexists. split; [reflexivity|]. eapply differs_inv; [exact R| |exact DD|intros ->; now destruct NE|intros _; exact U|intros _; exact V|exact LST].
        cbn [rev]. rewrite P1. apply forall2_snoc; [exact F|]. split; [reflexivity|]. left. split; [cbn; lia|reflexivity].
  - unfold inv in I. rewrite L in I. destruct I as (-> & P & Fn & Un). eexists. split; [reflexivity|]. rewrite P.
    eapply (differs_inv [] s v [] []); [constructor|constructor|intros [|? ?] m; discriminate|auto|intros E; now destruct E|intros E; now destruct E|intros E; now destruct E].
Qed.
Lemma values_inv vs : forall us s, inv us s -> exists s', values s vs = Some s' /\ inv (us ++ vs) s'.
Proof.
  induction vs as [|v r IH]; cbn [TipModel.values]; intros us s I; [exists s; rewrite app_nil_r; auto|].
  destruct (value_inv us s v I) as (s' & E & I'). rewrite E. destruct (IH _ _ I') as (s'' & E' & I''). exists s''. split; [exact E'|].
  now rewrite <- app_assoc in I''.
Qed.
Lemma pieces vs : exists t, pieces_tip is_func vs = Some t /\
  (t = None <-> vs = [] \/ one_function is_func (firstn 9 vs)) /\
  (t <> None -> exists ps rs, t = Some (Values ps (9 <? length vs)) /\ runs (firstn 9 vs) rs /\ Forall2 shown_as rs ps).
Proof.
  unfold pieces_tip. destruct (values_inv (firstn 9 vs) [] (mkLoop None [] None true)) as (s & E & I); [cbn; auto|]. rewrite E. cbn [app] in I.
  assert (M : match skipn 9 vs with [] => false | _ => true end = (9 <? length vs)).
  { pose proof (skipn_length 9 vs) as S. destruct (skipn 9 vs); cbn [length] in S; symmetry; [apply Nat.ltb_ge; lia|apply Nat.ltb_lt; lia]. }
  rewrite M. unfold inv in I. destruct (l_last s) as [[v n]|] eqn:L.
  - destruct I as (rs & ps & R & F & P & O & _ & _). assert (NE : vs <> []) by (intros ->; destruct (runs_last _ _ _ _ R) as [ws W]; cbn in W; destruct ws; discriminate).
    destruct (_ && _) eqn:B.
    + exists None. split; [reflexivity|]. split; [|intros H; now destruct H]. split; [intros _; right; now apply O|reflexivity].
    + assert (NO : ~ one_function is_func (firstn 9 vs)) by (intros H; apply O in H; congruence).
      destruct (l_pieces s) as [|p pr]; [destruct ps; discriminate|]. cbn [rev] in P. apply app_inj_tail in P as [P1 P2]. subst p.
      set (q := mkPiece v (if 1 <? n then Some n else None)).
      assert (Q : (if 1 <? n then times n (mkPiece v None :: pr) else Some (mkPiece v None :: pr)) = Some (q :: pr)) by (unfold q; destruct (1 <? n); reflexivity).
      rewrite Q. cbn [rev]. rewrite P1.
      exists (Some (Values (ps ++ [q]) (9 <? length vs))). split; [destruct ps; reflexivity|]. split.
      * split; [discriminate|]. intros [H|H]; [now apply NE in H|now apply NO in H].
      * intros _. exists (ps ++ [q]), (rs ++ [(v, n)]). split; [reflexivity|]. split; [exact R|]. apply forall2_snoc; [exact F|]. split; [reflexivity|].
        unfold q. cbn [p_times fst snd]. pose proof (runs_pos _ _ _ _ R). destruct (1 <? n) eqn:LT; [right; split; [now apply Nat.ltb_lt|reflexivity]|left; apply Nat.ltb_ge in LT; split; [lia|reflexivity]].
  - destruct I as (Z & P & Fn & Un). rewrite Fn, P. cbn. assert (vs = []) by (destruct vs; [reflexivity|discriminate]). subst vs. cbn.
    exists None. split; [reflexivity|]. split; [split; [auto|reflexivity]|intros H; now destruct H].
Qed.
End Tip.
Lemma cast_ind2 (P : cast -> Prop) : (forall s d, P (CStr s d)) -> (forall os, Forall P os -> P (CUnion os)) -> P COther -> forall c, P c.
Proof. intros A B C. fix F 1. intros [s d|os|]; [apply A| |exact C]. apply B. induction os; constructor; [apply F|assumption]. Qed.
Lemma doc_of c : forall s l, strings c l -> find_string_doc c s = option_map snd (find (fun x => fst x =? s) l).
Proof.
  induction c as [s' d|os IH|] using cast_ind2; intros s l H; inversion H as [| |? ls F]; subst; cbn.
  - destruct (s' =? s); reflexivity.
  - clear H. induction F as [|o l os ls H F IHF]; [reflexivity|]. inversion IH as [|? ? Ho IH']; subst. rewrite (Ho s l H). cbn [concat].
    assert (FA : forall a b : list (nat * nat), find (fun x => fst x =? s) (a ++ b) = match find (fun x => fst x =? s) a with Some x => Some x | None => find (fun x => fst x =? s) b end).
    { clear. induction a as [|x a IHa]; intros b; [reflexivity|]. cbn. destruct (fst x =? s); [reflexivity|apply IHa]. }
    rewrite FA. destruct (find (fun x => fst x =? s) l) as [x|]; [reflexivity|]. cbn. apply (IHF IH').
  - reflexivity.
Qed.
