(** Theorems about tooltips (C180). *)
From Coq Require Import List Arith Bool Lia.
From Verif Require Import TipModel TipSpec TipProof.
Import ListNotations.

Section Tip.
Variables (is_func has_docs is_len : val -> bool).
Notation expr_tooltip := (expr_tooltip is_func has_docs is_len).

(** C180: nothing panics. *)
Theorem C180_calm : forall ns, exists t, expr_tooltip ns = Some t.
Proof.
  induction ns as [|n r [t IH]]; cbn [TipModel.expr_tooltip]; [eauto|]. destruct (a_expr n); cbn [negb]; [|eauto]. destruct (a_shown n); cbn [negb]; [|eauto].
  destruct (pieces is_func (a_values n)) as (t' & E & _). rewrite E.
  destruct (a_values n) as [|v [|w vs]]; destruct (a_literal n); try (now eauto); destruct (has_docs v), (is_len v); eauto.
Qed.
(** C180: only the innermost expression counts, and only if it may be shown. *)
Theorem C180_innermost : forall below n up, Forall (fun x => a_expr x = false) below -> a_expr n = true ->
  expr_tooltip (below ++ n :: up) = (if a_shown n then expr_tooltip [n] else Some None) /\ expr_tooltip below = Some None.
Proof.
  intros below n up F E. induction F as [|x below H F IH]; cbn [app TipModel.expr_tooltip].
  - rewrite E. cbn [negb]. destruct (a_shown n); split; reflexivity.
  - rewrite H. cbn [negb]. exact IH.
Qed.
(** C180: the documentation of the only value, or its length in several units. *)
Theorem C180_single : forall n v t, a_expr n = true -> a_shown n = true -> a_values n = [v] -> expr_tooltip [n] = Some (Some t) ->
  (t = Docs v <-> has_docs v = true) /\ (t = Len v <-> has_docs v = false /\ is_len v = true) /\ (forall w, t = Docs w \/ t = Len w -> w = v).
Proof.
  intros n v t E S V. cbn [TipModel.expr_tooltip]. rewrite E, S, V. cbn [negb]. destruct (has_docs v) eqn:D.
  - intros H. injection H as <-. repeat split; try congruence; try (intros [? ?]; congruence). intros w [H|H]; congruence.
  - destruct (is_len v) eqn:L.
    + intros H. injection H as <-. repeat split; try congruence. intros w [H|H]; congruence.
    + destruct (a_literal n); [discriminate|]. destruct (pieces is_func [v]) as (t' & -> & _ & P). intros H. injection H as ->.
      destruct P as (ps & rs & Q & _); [discriminate|]. injection Q as ->. repeat split; try congruence; try discriminate; try (intros [? ?]; congruence). intros w [H|H]; discriminate.
Qed.
(** C180, in part: else the first nine values are shown, each run of equal ones once with its length, and then an ellipsis if there are more; nothing is shown for literals, without values, or if the first nine are the same function.  (Missing: all values, see [C180_ninth_refuted].) *)
Theorem C180_values_partial : forall n, a_expr n = true -> a_shown n = true -> (forall v, a_values n = [v] -> has_docs v = false /\ is_len v = false) ->
  (expr_tooltip [n] = Some None <-> a_literal n = true \/ a_values n = [] \/ one_function is_func (firstn 9 (a_values n))) /\
  forall t, expr_tooltip [n] = Some (Some t) -> exists ps rs, t = Values ps (9 <? length (a_values n)) /\ runs (firstn 9 (a_values n)) rs /\ Forall2 shown_as rs ps.
Proof.
  intros n E S V. assert (X : expr_tooltip [n] = if a_literal n then Some None else pieces_tip is_func (a_values n)).
  { cbn [TipModel.expr_tooltip]. rewrite E, S. cbn [negb]. destruct (a_values n) as [|v [|w vs]]; try reflexivity. destruct (V v eq_refl) as [-> ->]. reflexivity. }
  rewrite X. destruct (a_literal n); [split; [split; [auto|reflexivity]|discriminate]|]. destruct (pieces is_func (a_values n)) as (t & -> & N & P). split.
  - split; [intros H; right; apply N; congruence|]. intros [H|H]; [discriminate|]. f_equal. now apply N.
  - intros t' H. injection H as ->. destruct P as (ps & rs & Q & R); [discriminate|]. exists ps, rs. split; [congruence|exact R].
Qed.
End Tip.
Print Assumptions C180_calm.
Print Assumptions C180_innermost.
Print Assumptions C180_single.
Print Assumptions C180_values_partial.
(** C180: runs are determined by the values. *)
Theorem C180_runs : forall vs rs rs', runs vs rs -> runs vs rs' -> rs = rs'.
Proof.
  intros vs rs rs' H. revert rs'. induction H as [|v n vs rs N D R IH]; intros rs' H.
  - remember (@nil val) as vs0 eqn:E0. destruct H as [|v n vs rs N D R]; [reflexivity|]. destruct n; [lia|discriminate].
  - remember (repeat v n ++ vs) as vs0 eqn:E. destruct H as [|w k us qs K G Q].
    + destruct n; [lia|discriminate].
    + assert (w = v) by (destruct n, k; try lia; cbn in E; now injection E). subst w.
      assert (X : forall n k vs us rs qs, (forall m r, rs <> (v, m) :: r) -> runs vs rs -> (forall m r, qs <> (v, m) :: r) -> runs us qs -> repeat v k ++ us = repeat v n ++ vs -> k = n /\ us = vs).
      { clear. induction n as [|n IHn]; intros [|k] vs us rs qs D R G Q E; cbn in E; [auto| | |].
        - exfalso. destruct R as [|w m ws os M O P]; [discriminate|]. destruct m; [lia|]. cbn in E. injection E as E _. subst w. exact (D _ _ eq_refl).
        - exfalso. destruct Q as [|w m ws os M O P]; [discriminate|]. destruct m; [lia|]. cbn in E. injection E as E _. subst w. exact (G _ _ eq_refl).
        - injection E as E. destruct (IHn _ _ _ _ _ D R G Q E) as [-> ->]. auto. }
      destruct (X _ _ _ _ _ _ D R G Q E) as [-> ->]. f_equal. now apply IH.
Qed.
Print Assumptions C180_runs.
(** C180: the documentation of a string is that of the first alternative that is this string. *)
Theorem C180_string : forall c s l, strings c l ->
  (forall d, find_string_doc c s = Some d <-> exists a b, l = a ++ (s, d) :: b /\ Forall (fun x => fst x <> s) a) /\
  (find_string_doc c s = None <-> Forall (fun x => fst x <> s) l).
Proof.
  intros c s l H. rewrite (doc_of c s l H). clear H. induction l as [|[k e] l [IH1 IH2]]; cbn [find fst].
  - split; [|split; [constructor|reflexivity]]. intros d. split; [discriminate|]. intros ([|? ?] & b & E & _); discriminate.
  - destruct (Nat.eqb_spec k s) as [->|N]; cbn [option_map snd].
    + split.
      * intros d. split; [intros E; injection E as ->; exists [], l; split; [reflexivity|constructor]|].
        intros ([|x a] & b & E & F); [now injection E as ->|]. injection E as <- _. inversion F as [|? ? X]; subst. now destruct X.
      * split; [discriminate|]. intros F. inversion F as [|? ? X]; subst. now destruct X.
    + split.
      * intros d. rewrite IH1. split.
        -- intros (a & b & -> & F). exists ((k, e) :: a), b. split; [reflexivity|]. now constructor.
        -- intros ([|x a] & b & E & F); [injection E as -> -> _; now destruct N|]. injection E as <- ->. inversion F; subst. eauto.
      * rewrite IH2. split; [now constructor|]. intros F. now inversion F.
Qed.
Print Assumptions C180_string.

(** Four values of which two neighbours are equal; values above 100 are functions. *)
Definition func (v : val) : bool := 100 <? v.
Definition no (v : val) : bool := false.
Definition an_expr : above := mkAbove true true false [1; 2; 2; 1; 101].
Example C180_nonvacuous : expr_tooltip func no no [mkAbove false true true []; an_expr; an_expr] =
    Some (Some (Values [mkPiece 1 None; mkPiece 2 (Some 2); mkPiece 1 None; mkPiece 101 None] false)) /\
  runs [1; 2; 2; 1; 101] [(1, 1); (2, 2); (1, 1); (101, 1)] /\
  expr_tooltip func no (fun v => v =? 7) [mkAbove true true true [7]] = Some (Some (Len 7)) /\
  strings (CUnion [COther; CUnion [CStr 4 40; CStr 5 50]; CStr 5 51]) [(4, 40); (5, 50); (5, 51)] /\
  find_string_doc (CUnion [COther; CUnion [CStr 4 40; CStr 5 50]; CStr 5 51]) 5 = Some 50.
Proof.
  split; [reflexivity|]. split.
  - apply (R_cons 1 1 [2; 2; 1; 101]); [lia|discriminate|]. apply (R_cons 2 2 [1; 101]); [lia|discriminate|]. apply (R_cons 1 1 [101]); [lia|discriminate|].
    apply (R_cons 101 1 []); [lia|discriminate|constructor].
  - split; [reflexivity|]. split; [|reflexivity]. apply (S_union _ [[]; [(4, 40); (5, 50)]; [(5, 51)]]). constructor; [constructor|]. constructor; [|constructor; constructor].
    apply (S_union _ [[(4, 40)]; [(5, 50)]]). repeat constructor.
Qed.
(** C180 fails: nine times a function and then another value show nothing, though the values differ. *)
Theorem C180_ninth_refuted : exists is_func n, a_expr n = true /\ a_shown n = true /\ a_literal n = false /\
  ~ one_function is_func (a_values n) /\ a_values n <> [] /\ expr_tooltip is_func no no [n] = Some None.
Proof.
  exists func, (mkAbove true true false (repeat 101 9 ++ [3])). split; [reflexivity|]. split; [reflexivity|]. split; [reflexivity|]. split; [|split; [discriminate|reflexivity]].
  intros (f & k & F & _ & E). cbn [a_values] in E. apply repeat_last in E as [<- _]. discriminate.
Qed.
Print Assumptions C180_ninth_refuted.
