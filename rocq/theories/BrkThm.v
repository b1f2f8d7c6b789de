(** * Theorems about the text the debugger runs *)

From Coq Require Import String Ascii List Arith Bool Lia.
From Verif Require Import CovModel CovSpec CovProof BrkModel BrkSpec.
Import ListNotations.
Local Open Scope nat_scope.
Local Open Scope list_scope.

(** ** The walk, case by case *)
Definition fallback (n : node) (i : nat) : list piece * list nat :=
  (own n ++ fst (seq_with (visit Visit) (children n) i), snd (seq_with (visit Visit) (children n) i)).
Definition block (n : node) (i : nat) : list piece * list nat :=
  ([Added (codes "{" ++ [10]); Test BlockStart i] ++ fst (fallback n (S i))
     ++ [Added [10]; Test BlockEnd (S i + length (snd (fallback n (S i)))); Added (codes "}" ++ [10])],
   first_span (children n) :: snd (fallback n (S i)) ++ [last_span (children n)]).
Definition special (k : kind) : bool :=
  match k with KWhile | KFor | KIf | KClosure | KShow => true | _ => false end.

Lemma visit_eq : forall md n i,
  visit md n i =
  match md with
  | Visit => if special (nkind n) then seq_with (fun c i => visit (child_mode (nkind n) (children n) c) c i) (children n) i
             else match nkind n with KBlock => block n i | _ => fallback n i end
  | Block => block n i
  | Functor =>
      ([Added (codes "{" ++ 10 :: codes "let __bp_functor = ")] ++ fst (fallback n i)
         ++ [Added (10 :: codes "__it => {"); Test ShowStart (i + length (snd (fallback n i)));
             Added (codes "__bp_functor(__it); } }" ++ [10])],
       snd (fallback n i) ++ [nspan n])
  end.
Proof.
  intros md [k sp t cs] i. unfold block, fallback.
  destruct md; [destruct k|..]; cbn [visit special nkind children fst snd]; try reflexivity;
    match goal with |- context [seq_with (visit Visit) cs ?j] => destruct (seq_with (visit Visit) cs j) end; reflexivity.
Qed.

Lemma seq_eq : forall A (f : A -> nat -> list piece * list nat) l i,
  seq_with f l i =
  match l with
  | [] => ([], [])
  | c :: l' =>
      (fst (f c i) ++ fst (seq_with f l' (i + length (snd (f c i)))),
       snd (f c i) ++ snd (seq_with f l' (i + length (snd (f c i)))))
  end.
Proof.
  intros A f [|c l] i; [reflexivity|]. cbn [seq_with]. destruct (f c i) as [p m]. cbn [fst snd].
  fold (seq_with f). destruct (seq_with f l (i + length m)). reflexivity.
Qed.

(** ** What is woven *)
Definition part_of (p : piece) : part :=
  match p with Orig t => Kept t | Added t => New t | Test k i => New (text_of_piece (Test k i)) end.

Lemma codes_app : forall a b, codes (a ++ b)%string = codes a ++ codes b.
Proof. induction a as [|c a IH]; intro b; [reflexivity|]. cbn. rewrite IH. reflexivity. Qed.

Lemma test_ok : forall k i, test (to_str k) i (text_of_piece (Test k i)).
Proof.
  intros k i. exists (dec (S i) i). split; [apply dec_step; lia|].
  rewrite !codes_app. cbn [text_of_piece]. rewrite <- !app_assoc.
  change (codes ") {__breakpoint_") with (codes ") {" ++ codes "__breakpoint_").
  change (codes ", (:)); };") with (codes ", (:)); " ++ codes "};").
  rewrite <- !app_assoc. reflexivity.
Qed.

Lemma wovens_seq : forall (f : node -> nat -> list piece * list nat) l i,
  (forall c i, In c l -> woven c i (map part_of (fst (f c i))) (snd (f c i))) ->
  wovens l i (map part_of (fst (seq_with f l i))) (snd (seq_with f l i)).
Proof.
  intros f l. induction l as [|c l IH]; intros i H; rewrite seq_eq; cbn [fst snd].
  - constructor.
  - rewrite map_app. constructor; [apply H; left; reflexivity|apply IH; intros; apply H; right; assumption].
Qed.

Lemma first_ok : forall cs, first_span cs = hd 0 (map nspan cs).
Proof. intros [|c cs]; reflexivity. Qed.

Lemma rev_last : forall (l : list node), span_opt (nth_error (rev l) 0) = last (map nspan l) 0.
Proof.
  intro l. destruct l as [|c l] using rev_ind; [reflexivity|].
  rewrite rev_app_distr, map_app. cbn. rewrite last_last. reflexivity.
Qed.

Lemma last_ok : forall cs, last_span cs = last (map nspan (tl cs)) 0.
Proof. intros [|c cs]; [reflexivity|]. apply rev_last. Qed.

Lemma visit_woven : forall n, parsed n -> forall md i, woven n i (map part_of (fst (visit md n i))) (snd (visit md n i)).
Proof.
  induction n as [k sp t cs IH] using node_ind2. intros P md i. set (n := Node k sp t cs) in *.
  assert (C : forall c, In c cs -> parsed c) by (inversion P; subst; [intros c []|assumption]).
  rewrite Forall_forall in IH.
  assert (HF : forall i, woven n i (map part_of (fst (fallback n i))) (snd (fallback n i))).
  { intro j. unfold fallback. change (children n) with cs. cbn [fst snd]. rewrite map_app.
    assert (W : wovens cs j (map part_of (fst (seq_with (visit Visit) cs j))) (snd (seq_with (visit Visit) cs j))).
    { apply wovens_seq. intros c i' Hc. apply IH; auto. }
    destruct cs as [|c cs'].
    - cbn. rewrite app_nil_r. unfold n, own. cbn [ntext]. destruct t as [|x t]; [apply w_inner; constructor|apply w_leaf].
    - assert (t = []) as -> by (inversion P; reflexivity). apply w_inner. exact W. }
  assert (HB : forall i, woven n i (map part_of (fst (block n i))) (snd (block n i))).
  { intro j. unfold block. cbn [fst snd]. rewrite !map_app, first_ok, last_ok.
    apply (w_block n j _ (map part_of (fst (fallback n (S j)))) (snd (fallback n (S j)))); [apply (test_ok BlockStart)|apply HF|apply (test_ok BlockEnd)]. }
  rewrite visit_eq. destruct md.
  - destruct (special (nkind n)) eqn:S.
    + change (nkind n) with k. change (children n) with cs. unfold n.
      assert (t = []) as ->.
      { inversion P; subst; [|reflexivity]. exfalso. match goal with H : ~ In k _ |- _ => apply H end.
        cbn in S. destruct k; try discriminate; cbn; auto 10. }
      apply w_inner. apply wovens_seq. intros c i' Hc. apply IH; auto.
    + destruct (nkind n); first [apply HB|apply HF].
  - apply HB.
  - cbn [fst snd]. rewrite !map_app.
    apply (w_show n i (map part_of (fst (fallback n i))) (snd (fallback n i))); [apply HF|apply (test_ok ShowStart)].
Qed.

Scheme woven_mut := Induction for woven Sort Prop
  with wovens_mut := Induction for wovens Sort Prop.

Lemma woven_kept : forall n i ps ms, woven n i ps ms -> flat_map kept_text ps = src n.
Proof.
  apply (woven_mut (fun n i ps ms _ => flat_map kept_text ps = src n)
                   (fun cs i ps ms _ => flat_map kept_text ps = flat_map src cs)); intros.
  - cbn. reflexivity.
  - exact H.
  - rewrite !flat_map_app. cbn. rewrite app_nil_r. exact H.
  - rewrite !flat_map_app. cbn. rewrite app_nil_r. exact H.
  - reflexivity.
  - rewrite flat_map_app, H, H0. reflexivity.
Qed.

Lemma in_hd : forall l, hd 0 l = 0 \/ In (hd 0 l) l.
Proof. intros [|x l]; cbn; auto. Qed.
Lemma in_last : forall l, last l 0 = 0 \/ In (last l 0) l.
Proof.
  intro l. destruct l as [|x l] using rev_ind; [left; reflexivity|].
  rewrite last_last. right. apply in_or_app. right. left. reflexivity.
Qed.

Lemma child_spans : forall n x, In x (map nspan (children n)) -> In x (spans_of n).
Proof. intros [k sp t cs] x H. apply spans_sub, in_spans, H. Qed.

Lemma woven_places : forall n i ps ms, woven n i ps ms -> forall s, In s ms -> s = 0 \/ In s (spans_of n).
Proof.
  apply (woven_mut (fun n i ps ms _ => forall s, In s ms -> s = 0 \/ In s (spans_of n))
                   (fun cs i ps ms _ => forall s, In s ms -> s = 0 \/ In s (flat_map spans_of cs))).
  - intros k sp t i s [].
  - intros k sp cs i ps ms _ IH s H. destruct (IH s H); [auto|right; right; assumption].
  - intros n i a ps ms b _ _ IH _ s [<-|H].
    + destruct (in_hd (map nspan (children n))); [auto|right; apply child_spans; assumption].
    + apply in_app_iff in H. destruct H as [H|[<-|[]]]; [apply IH, H|].
      destruct (in_last (map nspan (tl (children n)))) as [E|E]; [auto|right; apply child_spans].
      destruct (children n); [destruct E|right; exact E].
  - intros n i ps ms a _ IH _ s H. apply in_app_iff in H. destruct H as [H|[<-|[]]]; [apply IH, H|right; apply spans_self].
  - intros i s [].
  - intros c cs i ps ms ps' ms' _ IH _ IH' s H. cbn [flat_map]. apply in_app_iff in H.
    destruct H as [H|H]; [destruct (IH s H)|destruct (IH' s H)]; auto; right; apply in_or_app; auto.
Qed.

Lemma texts : forall l, flat_map part_text (map part_of l) = flat_map text_of_piece l.
Proof. induction l as [|[t|t|k i] l IH]; cbn [map flat_map]; [reflexivity|..]; rewrite IH; reflexivity. Qed.

Lemma instrument_eq : forall root, instrument root = (flat_map text_of_piece (fst (visit Visit root 0)), snd (visit Visit root 0)).
Proof. intro root. unfold instrument. destruct (visit Visit root 0). reflexivity. Qed.

(** ** Reaching a node *)
Lemma seq_reach : forall (f : node -> nat -> list piece * list nat) l c i, In c l ->
  exists a z ma mz, seq_with f l i = (a ++ fst (f c (i + length ma)) ++ z, ma ++ snd (f c (i + length ma)) ++ mz).
Proof.
  intros f l c. induction l as [|d l IH]; intros i []; rewrite seq_eq.
  - subst d. exists [], (fst (seq_with f l (i + length (snd (f c i))))), [], (snd (seq_with f l (i + length (snd (f c i))))).
    cbn [length app]. rewrite Nat.add_0_r. reflexivity.
  - destruct (IH (i + length (snd (f d i))) H) as (a & z & ma & mz & E).
    exists (fst (f d i) ++ a), z, (snd (f d i) ++ ma), mz. rewrite E. cbn [fst snd].
    rewrite app_length, Nat.add_assoc, <- !app_assoc. reflexivity.
Qed.

Lemma child_reach : forall md p i c, In c (children p) ->
  exists m a z ma mz, (m = Visit \/ m = child_mode (nkind p) (children p) c) /\
    visit md p i = (a ++ fst (visit m c (i + length ma)) ++ z, ma ++ snd (visit m c (i + length ma)) ++ mz).
Proof.
  intros md p i c H.
  assert (F : forall i, exists a z ma mz,
    fallback p i = (a ++ fst (visit Visit c (i + length ma)) ++ z, ma ++ snd (visit Visit c (i + length ma)) ++ mz)).
  { intro j. destruct (seq_reach (visit Visit) (children p) c j H) as (a & z & ma & mz & E).
    exists (own p ++ a), z, ma, mz. unfold fallback. rewrite E. cbn [fst snd]. rewrite <- !app_assoc. reflexivity. }
  assert (B : forall i, exists a z ma mz,
    block p i = (a ++ fst (visit Visit c (i + length ma)) ++ z, ma ++ snd (visit Visit c (i + length ma)) ++ mz)).
  { intro j. destruct (F (S j)) as (a & z & ma & mz & E). unfold block. rewrite E. cbn [fst snd].
    eexists ([Added (codes "{" ++ [10]); Test BlockStart j] ++ a), (z ++ _), (first_span (children p) :: ma), (mz ++ [last_span (children p)]).
    cbn [length]. rewrite Nat.add_succ_r. cbn [Nat.add app]. rewrite <- !app_assoc. reflexivity. }
  rewrite visit_eq. destruct md.
  - destruct (special (nkind p)).
    + destruct (seq_reach (fun c i => visit (child_mode (nkind p) (children p) c) c i) (children p) c i H) as (a & z & ma & mz & E).
      exists (child_mode (nkind p) (children p) c), a, z, ma, mz. split; [auto|exact E].
    + assert (X : exists a z ma mz, match nkind p with KBlock => block p i | _ => fallback p i end =
        (a ++ fst (visit Visit c (i + length ma)) ++ z, ma ++ snd (visit Visit c (i + length ma)) ++ mz))
        by (destruct (nkind p); first [apply B|apply F]).
      destruct X as (a & z & ma & mz & E). exists Visit, a, z, ma, mz. auto.
  - destruct (B i) as (a & z & ma & mz & E). exists Visit, a, z, ma, mz. auto.
  - destruct (F i) as (a & z & ma & mz & E). rewrite E. cbn [fst snd].
    eexists Visit, ([Added (codes "{" ++ 10 :: codes "let __bp_functor = ")] ++ a), (z ++ _), ma, (mz ++ [nspan p]).
    split; [auto|]. rewrite <- !app_assoc. reflexivity.
Qed.

Lemma inside_reach : forall p n, inside p n -> forall md i,
  exists m a z ma mz, visit md n i = (a ++ fst (visit m p (i + length ma)) ++ z, ma ++ snd (visit m p (i + length ma)) ++ mz).
Proof.
  intros p n H. induction H as [n|p k sp t cs c Hc Hp IH]; intros md i.
  - exists md, [], [], [], []. cbn [length app]. rewrite Nat.add_0_r, !app_nil_r. destruct (visit md n i); reflexivity.
  - destruct (child_reach md (Node k sp t cs) i c Hc) as (m & a & z & ma & mz & _ & E).
    destruct (IH m (i + length ma)) as (m' & a' & z' & ma' & mz' & E').
    exists m', (a ++ a'), (z' ++ z), (ma ++ ma'), (mz' ++ mz). rewrite E, E'. cbn [fst snd].
    rewrite app_length, Nat.add_assoc, <- !app_assoc. reflexivity.
Qed.

Lemma inside_parsed : forall p n, inside p n -> parsed n -> parsed p.
Proof. intros p n H. induction H; intro P; [exact P|]. apply IHinside. inversion P; subst; [destruct H|auto]. Qed.

Lemma children_parsed : forall p c, parsed p -> In c (children p) -> parsed c.
Proof. intros p c P H. inversion P; subst; [destruct H|auto]. Qed.

Lemma fallback_woven : forall n i, parsed n -> exists ps, woven n i ps (snd (fallback n i)) /\
  flat_map part_text ps = flat_map text_of_piece (fst (fallback n i)).
Proof.
  intros [k sp t cs] i P. exists (map part_of (fst (fallback (Node k sp t cs) i))). split; [|apply texts].
  unfold fallback. cbn [children fst snd]. rewrite map_app.
  assert (C : forall c, In c cs -> parsed c) by (inversion P; subst; [intros c []|assumption]).
  assert (W : wovens cs i (map part_of (fst (seq_with (visit Visit) cs i))) (snd (seq_with (visit Visit) cs i)))
    by (apply wovens_seq; intros; apply visit_woven; auto).
  destruct cs as [|c cs'].
  - cbn. rewrite app_nil_r. unfold own. cbn [ntext]. destruct t as [|x t]; [apply w_inner; constructor|apply w_leaf].
  - assert (t = []) as -> by (inversion P; reflexivity). apply w_inner. exact W.
Qed.

Lemma block_stops : forall root b a z ma mz, parsed b ->
  visit Visit root 0 = (a ++ fst (block b (length ma)) ++ z, ma ++ snd (block b (length ma)) ++ mz) ->
  stops b (fst (instrument root)) (snd (instrument root)).
Proof.
  intros root b a z ma mz P E. rewrite instrument_eq, E. cbn [fst snd].
  destruct (fallback_woven b (S (length ma)) P) as (ps & W & T).
  exists (length ma), (flat_map text_of_piece a), (flat_map text_of_piece z),
    (text_of_piece (Test BlockStart (length ma))),
    (text_of_piece (Test BlockEnd (S (length ma) + length (snd (fallback b (S (length ma))))))), ps, (snd (fallback b (S (length ma)))).
  unfold block. cbn [fst snd].
  split; [|split; [exact W|split; [apply (test_ok BlockStart)|split; [apply (test_ok BlockEnd)|split]]]].
  - rewrite T, !flat_map_app. cbn [flat_map]. rewrite !app_nil_r.
    change (text_of_piece (Added (codes "{" ++ [10]))) with (codes "{" ++ [10]).
    change (text_of_piece (Added [10])) with [10].
    change (text_of_piece (Added (codes "}" ++ [10]))) with (codes "}" ++ [10]).
    rewrite <- !app_assoc. reflexivity.
  - rewrite nth_error_app2, Nat.sub_diag by lia. cbn [app nth_error]. rewrite first_ok. reflexivity.
  - rewrite nth_error_app2 by lia. set (m := snd (fallback b (S (length ma)))).
    replace (S (length ma) + length m - length ma) with (S (length m)) by lia. cbn [app nth_error].
    rewrite <- app_assoc, nth_error_app2, Nat.sub_diag by lia. cbn. rewrite last_ok. reflexivity.
Qed.

(** ** C169: the text the debugger runs *)

(** The text is that of the file with tests in whole frames; the tests are
    numbered in the order of the text, and place [i] is that of test [i]. *)
Theorem C169_woven : forall root, parsed root ->
  exists parts, flat_map part_text parts = fst (instrument root) /\
    woven root 0 parts (snd (instrument root)) /\
    flat_map kept_text parts = src root.
Proof.
  intros root P. exists (map part_of (fst (visit Visit root 0))).
  pose proof (visit_woven root P Visit 0) as W. rewrite instrument_eq. cbn [fst snd].
  split; [apply texts|]. split; [exact W|]. eapply woven_kept, W.
Qed.
Print Assumptions C169_woven.

(** Places are detached or in the file. *)
Theorem C169_places : forall root s, parsed root -> In s (snd (instrument root)) -> s = 0 \/ In s (spans_of root).
Proof. intros root s P H. destruct (C169_woven root P) as (ps & _ & W & _). eapply woven_places; eassumption. Qed.
Print Assumptions C169_places.

(** The debugger can stop at the start and at the end of every code block, but
    those that are the transforms of show rules. *)
Theorem C169_blocks : forall root p b, parsed root -> inside p root ->
  In b (children p) -> nkind b = KBlock ->
  (nkind p = KShow -> span_opt (last_expr (children p)) <> nspan b) ->
  stops b (fst (instrument root)) (snd (instrument root)).
Proof.
  intros root p b P I C K N.
  destruct (inside_reach p root I Visit 0) as (m & a & z & ma & mz & E).
  destruct (child_reach m p (0 + length ma) b C) as (m' & a' & z' & ma' & mz' & M & E').
  apply (block_stops root b (a ++ a') (z' ++ z) (ma ++ ma') (mz' ++ mz)).
  - eapply children_parsed; [eapply inside_parsed; eassumption|exact C].
  - rewrite E, E'. cbn [fst snd Nat.add]. rewrite app_length.
    assert (B : visit m' b (length ma + length ma') = block b (length ma + length ma')).
    { rewrite visit_eq. destruct M as [->| ->].
      - rewrite K. reflexivity.
      - unfold child_mode. destruct (nkind p); rewrite ?K; cbn [special]; try reflexivity;
          try (match goal with |- context [if ?c then _ else _] => destruct c end; reflexivity).
        destruct (Nat.eqb_spec (span_opt (last_expr (children p))) (nspan b)); [exfalso; apply N; auto|reflexivity]. }
    rewrite B, <- !app_assoc. reflexivity.
Qed.
Print Assumptions C169_blocks.

(** It can stop before and after the bodies of loops, conditionals and
    functions, whatever they are, when what they belong to is not itself a
    body or a transform. *)
Theorem C169_bodies : forall root g p b, parsed root -> inside g root ->
  In p (children g) -> ~ In (nkind g) [KWhile; KFor; KIf; KClosure; KShow] ->
  In b (children p) ->
  (In (nkind p) [KWhile; KFor; KClosure] /\ last_expr (children p) = Some b \/
   nkind p = KIf /\ (nth_error (exprs (children p)) 1 = Some b \/ nth_error (exprs (children p)) 2 = Some b)) ->
  stops b (fst (instrument root)) (snd (instrument root)).
Proof.
  intros root g p b P I Cp N Cb B.
  destruct (inside_reach g root I Visit 0) as (m & a & z & ma & mz & E).
  destruct (child_reach m g (0 + length ma) p Cp) as (m' & a' & z' & ma' & mz' & M & E').
  assert (m' = Visit) as ->.
  { destruct M as [->| ->]; [reflexivity|]. unfold child_mode. cbn in N. destruct (nkind g); try reflexivity; exfalso; apply N; auto 10. }
  set (j := 0 + length ma + length ma') in *.
  assert (S : special (nkind p) = true).
  { destruct B as [[B _]|[B _]]; [cbn in B; destruct B as [<-|[<-|[<-|[]]]]; reflexivity|rewrite B; reflexivity]. }
  assert (M' : child_mode (nkind p) (children p) b = Block).
  { destruct B as [[B L]|[B L]].
    - cbn in B. unfold child_mode. destruct B as [<-|[<-|[<-|[]]]]; rewrite L; cbn [span_opt]; rewrite Nat.eqb_refl; reflexivity.
    - unfold child_mode. rewrite B. destruct L as [L|L]; rewrite L; cbn [span_opt]; rewrite Nat.eqb_refl; [reflexivity|rewrite orb_true_r; reflexivity]. }
  destruct (seq_reach (fun c i => visit (child_mode (nkind p) (children p) c) c i) (children p) b j Cb) as (a2 & z2 & ma2 & mz2 & E2).
  apply (block_stops root b (a ++ a' ++ a2) (z2 ++ z' ++ z) (ma ++ ma' ++ ma2) (mz2 ++ mz' ++ mz)).
  - eapply children_parsed; [|exact Cb]. eapply children_parsed; [eapply inside_parsed; [exact I|exact P]|exact Cp].
  - rewrite E, E'. cbn [fst snd]. fold j. rewrite (visit_eq Visit p), S, E2. cbn [fst snd]. rewrite M'.
    rewrite visit_eq, !app_length, !Nat.add_assoc. unfold j. cbn [Nat.add]. rewrite <- !app_assoc. reflexivity.
Qed.
Print Assumptions C169_bodies.

(** [#let f = x => x]: the body has one token.  The tests of the function have
    no place, and no line can be asked for. *)
Definition one_token : node :=
  Node KToken 1 [] [leaf 2 (codes "#");
    Node KExpr 3 [] [leaf 4 (codes "let f = ");
      Node KClosure 5 [] [leaf 6 (codes "x => "); Node KExpr 7 (codes "x") []]]].

Theorem C169_nowhere : exists root b,
  parsed root /\ ~ In 0 (spans_of root) /\
  stops b (fst (instrument root)) (snd (instrument root)) /\ snd (instrument root) = [0; 0].
Proof.
  assert (P : parsed one_token).
  { unfold one_token, leaf. repeat (apply parsed_inner; intros c H; repeat (destruct H as [<-|H]); try destruct H);
      apply parsed_leaf; cbn; intuition discriminate. }
  exists one_token, (Node KExpr 7 (codes "x") []). split; [exact P|]. split; [cbn; lia|]. split; [|reflexivity].
  apply (C169_bodies one_token
    (Node KExpr 3 [] [leaf 4 (codes "let f = ");
      Node KClosure 5 [] [leaf 6 (codes "x => "); Node KExpr 7 (codes "x") []]])
    (Node KClosure 5 [] [leaf 6 (codes "x => "); Node KExpr 7 (codes "x") []])); [exact P|..].
  - eapply inside_child; [right; left; reflexivity|]. apply inside_self.
  - right. left. reflexivity.
  - cbn. intuition discriminate.
  - right. left. reflexivity.
  - left. cbn. auto.
Qed.
Print Assumptions C169_nowhere.

(** [#show: set f()]: the set rule is made the value of a variable, which the
    text then calls as a function. *)
Definition show_set : node :=
  Node KToken 1 [] [leaf 2 (codes "#");
    Node KShow 3 [] [leaf 4 (codes "show: "); Node KSet 5 [] [leaf 6 (codes "set f()")]]].

Theorem C169_show_set : exists root s after,
  parsed root /\ src root = codes "#show: set f()" /\ test "show_start" 0 s /\
  fst (instrument root) =
    codes "#show: {" ++ [10] ++ codes "let __bp_functor = set f()" ++ [10] ++ codes "__it => {" ++ s
    ++ codes "__bp_functor(__it); } }" ++ after.
Proof.
  exists show_set, (text_of_piece (Test ShowStart 0)), [10]. split; [|split; [reflexivity|split; [apply (test_ok ShowStart)|reflexivity]]].
  unfold show_set, leaf. repeat (apply parsed_inner; intros c H; repeat (destruct H as [<-|H]); try destruct H);
      apply parsed_leaf; cbn; intuition discriminate.
Qed.
Print Assumptions C169_show_set.

(** [#if a {1} else {2}]: a line ends between the first branch and [else]. *)
Definition with_else : node :=
  Node KToken 1 [] [leaf 2 (codes "#");
    Node KIf 3 [] [leaf 4 (codes "if "); Node KExpr 5 (codes "a") []; leaf 6 (codes " ");
      Node KBlock 7 [] [leaf 8 (codes "{"); Node KExpr 9 (codes "1") []; leaf 10 (codes "}")];
      leaf 11 (codes " else ");
      Node KBlock 12 [] [leaf 13 (codes "{"); Node KExpr 14 (codes "2") []; leaf 15 (codes "}")]]].

Theorem C169_else : exists root before after,
  parsed root /\ src root = codes "#if a {1} else {2}" /\
  fst (instrument root) = before ++ codes "}" ++ [10] ++ codes " else {" ++ after.
Proof.
  exists with_else.
  exists (firstn 160 (fst (instrument with_else))), (skipn 169 (fst (instrument with_else))).
  split; [|split; [reflexivity|vm_compute; reflexivity]].
  unfold with_else, leaf. repeat (apply parsed_inner; intros c H; repeat (destruct H as [<-|H]); try destruct H);
      apply parsed_leaf; cbn; intuition discriminate.
Qed.
Print Assumptions C169_else.

Example C169_nonvacuous :
  parsed with_else /\
  snd (instrument with_else) = [8; 10; 13; 15] /\
  stops (Node KBlock 12 [] [leaf 13 (codes "{"); Node KExpr 14 (codes "2") []; leaf 15 (codes "}")])
    (fst (instrument with_else)) (snd (instrument with_else)) /\
  exists t, fst (instrument with_else) = codes "#if a {" ++ [10] ++ codes "if __breakpoint_block_start(0) {__breakpoint_block_start_handle(0, (:)); };" ++ [10] ++ codes "{1}" ++ [10] ++ codes "if __breakpoint_block_end(1) {__breakpoint_block_end_handle(1, (:)); };" ++ [10] ++ t.
Proof.
  assert (P : parsed with_else).
  { unfold with_else, leaf. repeat (apply parsed_inner; intros c H; repeat (destruct H as [<-|H]); try destruct H);
      apply parsed_leaf; cbn; intuition discriminate. }
  split; [exact P|]. split; [reflexivity|]. split.
  - eapply (C169_blocks with_else); [exact P| | |reflexivity|].
    + eapply inside_child; [right; left; reflexivity|]. apply inside_self.
    + do 5 right. left. reflexivity.
    + discriminate.
  - eexists. cbn. reflexivity.
Qed.
