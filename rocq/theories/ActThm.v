(** C113: code actions change what they say and nothing else.
    C114: Enter continues comments and opens equations at the right column. *)
From Coq Require Import List Arith Bool Lia Permutation.
From Verif Require Import ActModel ActSpec ActProof.
Import ListNotations.

(** * C113 *)

(** Wrapping inserts the brackets around the selection, and is not offered
    without one or in code. *)
Theorem C113_wrap : forall pre sel post,
  (sel <> [] -> exists es, wrap_edits true (length pre) (length pre + length sel) = Some es /\
     apply 0 es (pre ++ sel ++ post) = Some (pre ++ [c_hash; c_open] ++ sel ++ [c_close] ++ post)) /\
  forall mode a b, mode = false \/ a = b -> wrap_edits mode a b = None.
Proof.
  intros pre sel post. split; [apply wrap_ok|]. intros mode a b H. unfold wrap_edits.
  destruct (Nat.eqb_spec a b); auto. destruct mode; auto. destruct H; congruence.
Qed.
Print Assumptions C113_wrap.

(** The actions of a heading of depth [d] replace its marker by one of depth
    [d + 1], and of depth [d - 1] where there is such; the rest of the text
    stays. *)
Theorem C113_heading : forall pre a d b post, (forall c, In c a -> is_marker (fst c) = false) ->
  let h n := pre ++ text_of (a ++ (KMarker, repeat c_eq n) :: b) ++ post in
  exists dec inc, heading_edits (length pre) (a ++ (KMarker, repeat c_eq d) :: b) = Some (dec, inc) /\
    apply 0 [inc] (h d) = Some (h (d + 1)) /\
    match dec with Some e => 1 < d /\ apply 0 [e] (h d) = Some (h (d - 1)) | None => d <= 1 end.
Proof. exact heading_ok. Qed.
Print Assumptions C113_heading.

(** What a conversion of an equation makes of the text.  Into an inline
    equation: *)
Theorem C113_inline : forall upunct pre f m b post, no_math f -> spaced f b ->
  exists toggle lines, equation_edits upunct (length pre) (equation f m b) post = Some (toggle, lines) /\
    apply 0 toggle (pre ++ text_of (equation f m b) ++ post) = Some (pre ++ text_of (equation [] m []) ++ post) /\
    ~ spaced [] [].
Proof.
  intros upunct pre f m b post HF HB. destruct (equation_ok upunct pre f m b post HF) as (tg & ln & E & H1 & _).
  apply (spaced_block f m b) in HB.
  exists tg, ln. split; auto. split; [|intros ((t & f' & E') & _); discriminate].
  rewrite HB in H1. rewrite H1. unfold moved, left_over. cbn. rewrite <- app_assoc. reflexivity.
Qed.
Print Assumptions C113_inline.

(** Into a block, on one line or on several: a mark that follows the equation
    is moved into it. *)
Theorem C113_block : forall upunct pre f m b post, no_math f ->
  exists toggle lines, equation_edits upunct (length pre) (equation f m b) post = Some (toggle, lines) /\
    let t := pre ++ text_of (equation f m b) ++ post in
    let r sp m' post' := Some (pre ++ text_of (equation [(KSpace, [sp])] m' [(KSpace, [sp])]) ++ post') in
    (forall c post', mark_of upunct post c -> post = c :: post' ->
      (~ spaced f b -> apply 0 toggle t = r c_space (m ++ [c]) post') /\ apply 0 lines t = r c_lf (m ++ [c]) post') /\
    ((forall c, ~ mark_of upunct post c) ->
      (~ spaced f b -> apply 0 toggle t = r c_space m post) /\ apply 0 lines t = r c_lf m post).
Proof.
  intros upunct pre f m b post HF. destruct (equation_ok upunct pre f m b post HF) as (tg & ln & E & H1 & H2).
  exists tg, ln. split; auto. cbv zeta in *.
  assert (EQ : forall c m' post', pre ++ text_of (equation [(KSpace, [c])] m' [(KSpace, [c])]) ++ post'
    = pre ++ [c_dollar; c] ++ m' ++ [c; c_dollar] ++ post').
  { intros. unfold equation. cbn. rewrite <- !app_assoc. reflexivity. }
  assert (HB : ~ spaced f b -> block (equation f m b) = false).
  { intros N. destruct (block (equation f m b)) eqn:EB; auto. apply spaced_block in EB. contradiction. }
  split.
  - intros c post' EM ->. apply mark_ok in EM. rewrite !EQ. rewrite <- !app_assoc.
    unfold moved, left_over, moved in H1, H2. rewrite EM in H1, H2. cbn in H1, H2. cbn.
    split; [intros N; rewrite (HB N) in H1|]; auto.
  - intros NM. assert (EM : mark_after upunct post = None).
    { destruct (mark_after upunct post) as [c|] eqn:EM; auto. apply mark_ok in EM. destruct (NM c EM). }
    unfold moved, left_over, moved in H1, H2. rewrite EM in H1, H2. rewrite !EQ. cbn in H1, H2. cbn.
    split; [intros N; rewrite (HB N) in H1|]; auto.
Qed.
Print Assumptions C113_block.

(** Nothing but white space is removed or added, and nothing is moved but the
    mark; if what is between the body and the dollar signs is white space. *)
Theorem C113_kept_partial : forall upunct (blank : nat -> bool) pre f m b post,
  blank c_space = true -> blank c_lf = true -> only_space blank f -> only_space blank b ->
  let t := pre ++ text_of (equation f m b) ++ post in
  exists toggle lines, equation_edits upunct (length pre) (equation f m b) post = Some (toggle, lines) /\
  forall es, es = toggle \/ es = lines -> exists r, apply 0 es t = Some r /\
    Permutation (filter (fun c => negb (blank c)) r) (filter (fun c => negb (blank c)) t) /\
    ((forall c, ~ mark_of upunct post c) -> filter (fun c => negb (blank c)) r = filter (fun c => negb (blank c)) t).
Proof.
  intros upunct blank pre f m b post BS BL HF HB t.
  assert (HM : no_math f). { intros (k, x) Hc. destruct (HF k x Hc) as (-> & _). auto. }
  destruct (equation_ok upunct pre f m b post HM) as (tg & ln & E & H1 & H2). cbv zeta in H1, H2. fold t in H1, H2.
  exists tg, ln. split; auto. set (nb := fun c => negb (blank c)).
  assert (ET : filter nb t = filter nb pre ++ filter nb [c_dollar] ++ filter nb m ++ filter nb [c_dollar] ++ filter nb post).
  { unfold t, equation. cbn [text_of flat_map snd]. fold (text_of (f ++ (KMath, m) :: b ++ [(KDollar, [c_dollar])])).
    rewrite text_app. cbn [text_of flat_map snd]. fold (text_of (b ++ [(KDollar, [c_dollar])])). rewrite text_app.
    assert (Ef : filter nb (text_of f) = []) by (apply (filter_blank blank f HF)).
    assert (Eb : filter nb (text_of b) = []) by (apply (filter_blank blank b HB)).
    rewrite !filter_app. rewrite Ef, Eb. cbn [text_of flat_map snd app]. rewrite ?app_nil_r.
    rewrite <- !app_assoc. reflexivity. }
  assert (HN : forall new, (forall c, In c new -> blank c = true) ->
    let r := pre ++ [c_dollar] ++ new ++ m ++ moved upunct new post ++ new ++ [c_dollar] ++ left_over upunct new post in
    Permutation (filter nb r) (filter nb t) /\ ((forall c, ~ mark_of upunct post c) -> filter nb r = filter nb t)).
  { intros new HW r.
    assert (EW : filter nb new = []).
    { clear - HW. induction new as [|c new IH]; cbn; auto. unfold nb at 1. rewrite HW by (left; auto). cbn. apply IH. intros d Hd; apply HW; right; auto. }
    assert (ER : filter nb r = filter nb pre ++ filter nb [c_dollar] ++ filter nb m ++ filter nb (moved upunct new post) ++ filter nb [c_dollar] ++ filter nb (left_over upunct new post)).
    { unfold r. rewrite !filter_app, EW. reflexivity. }
    assert (EP : filter nb post = filter nb (moved upunct new post) ++ filter nb (left_over upunct new post)).
    { rewrite <- filter_app, <- moved_post. auto. }
    rewrite ER, ET, EP. split.
    - do 3 apply Permutation_app_head. apply Permutation_app_swap_app.
    - intros NM. assert (EM : mark_after upunct post = None).
      { destruct (mark_after upunct post) as [c|] eqn:EM; auto. apply mark_ok in EM. destruct (NM c EM). }
      assert (EV : moved upunct new post = []). { unfold moved. rewrite EM. destruct new; auto. }
      rewrite EV. reflexivity. }
  intros es [->| ->].
  - eexists. split; [exact H1|]. apply HN. intros c Hc. destruct (block _); [destruct Hc|]. destruct Hc as [<-|[]]; auto.
  - eexists. split; [exact H2|]. apply HN. intros c [<-|[]]; auto.
Qed.
Print Assumptions C113_kept_partial.

(** A comment between the body and a dollar sign is removed:
    [$ x /* a */ $] becomes [$x$]. *)
Theorem C113_comment_refuted : exists upunct pre f m b post toggle lines r c,
  no_math f /\ equation_edits upunct (length pre) (equation f m b) post = Some (toggle, lines) /\
  apply 0 toggle (pre ++ text_of (equation f m b) ++ post) = Some r /\
  c <> c_space /\ In c (pre ++ text_of (equation f m b) ++ post) /\ ~ In c r.
Proof.
  exists (fun _ => false), [], [(KSpace, [c_space])], [120],
    [(KSpace, [c_space]); (KBlockComment, [47; 42; 97; 42; 47]); (KSpace, [c_space])], [].
  eexists. eexists. eexists. exists 97. split.
  { intros c [<-|[]]; auto. }
  repeat split.
  - intros E; discriminate.
  - cbn. do 6 right. left. reflexivity.
  - cbn. unfold c_dollar. intros [E|[E|[E|[]]]]; discriminate.
Qed.
Print Assumptions C113_comment_refuted.

(** What is moved need not be a mark of the sentence: in [#[$x$] y] the
    bracket that closes the block is moved into the equation, which leaves
    the block open: [#[$ x] $ y]. *)
Theorem C113_bracket_refuted : exists upunct pre f m b post toggle lines c,
  no_math f /\ equation_edits upunct (length pre) (equation f m b) (c :: post) = Some (toggle, lines) /\
  sentence_mark c = false /\ pre = [c_hash; c_open] /\ c = c_close /\
  apply 0 toggle (pre ++ text_of (equation f m b) ++ c :: post)
  = Some (pre ++ text_of (equation [(KSpace, [c_space])] (m ++ [c]) [(KSpace, [c_space])]) ++ post).
Proof.
  exists (fun _ => false), [c_hash; c_open], [], [120], [], [c_space; 121].
  eexists. eexists. exists c_close. split; [intros c []|]. repeat split.
Qed.
Print Assumptions C113_bracket_refuted.

(** An equation that is not closed is left alone. *)
Theorem C113_unclosed : forall upunct o cs post,
  (forall first mid last, cs <> first :: mid ++ [last] \/ is_dollar first = false \/ is_dollar last = false) ->
  equation_edits upunct o cs post = None.
Proof.
  intros upunct o cs post H. unfold equation_edits. destruct (find_child is_math o cs) as [(b0, body)|]; auto.
  destruct cs as [|c cs]; auto. destruct (rev cs) as [|l r] eqn:E; auto.
  assert (EC : cs = rev r ++ [l]). { rewrite <- (rev_involutive cs), E. reflexivity. }
  destruct (H c (rev r) l) as [N|[N|N]]; [congruence| |]; rewrite N; cbn; auto. rewrite andb_false_r. auto.
Qed.
Print Assumptions C113_unclosed.

(** The heading and the equation that are meant are the nearest around the
    place. *)
Theorem C113_nearest : forall anc j, In j (resolve 0 false false anc) <->
  (nth_error anc j = Some KHeading /\ forall k, k < j -> nth_error anc k <> Some KHeading) \/
  (nth_error anc j = Some KEquation /\ forall k, k < j -> nth_error anc k <> Some KEquation).
Proof.
  intros anc j. rewrite resolve_ok. split.
  - intros (n & -> & H). cbn in *. tauto.
  - intros H. exists j. split; auto. tauto.
Qed.
Print Assumptions C113_nearest.

(** The text [a $x$. b]: *)
Example C113_nonvacuous :
  let pre := [97; c_space] in let post := [46; c_space; 98] in
  no_math [] /\ ~ spaced [] [] /\ mark_of (fun _ => false) post 46 /\
  option_map (fun p => apply 0 (fst p) (pre ++ text_of (equation [] [120] []) ++ post))
    (equation_edits (fun _ => false) 2 (equation [] [120] []) post)
  = Some (Some [97; c_space; c_dollar; c_space; 120; 46; c_space; c_dollar; c_space; 98]) /\
  only_space (Nat.eqb c_space) [(KSpace, [c_space])] /\ spaced [(KSpace, [c_space])] [(KSpace, [c_space])] /\
  resolve 0 false false [KMath; KEquation; KMath; KEquation; KHeading] = [1; 4] /\
  option_map (fun p => apply 0 [snd p] [c_eq; c_space; 97]) (heading_edits 0 [(KMarker, [c_eq]); (KSpace, [c_space]); (KOther, [97])])
  = Some (Some [c_eq; c_eq; c_space; 97]).
Proof.
  cbv zeta. split; [intros c []|]. split; [intros ((t & f' & E) & _); discriminate|].
  split; [apply mark_ok; reflexivity|]. repeat split.
  - destruct H as [E|[]]. congruence.
  - intros c Hc. destruct H as [E|[]]. inversion E; subst. destruct Hc as [<-|[]]. reflexivity.
  - eauto.
  - exists [c_space], []. reflexivity.
Qed.

(** * C114 *)

(** Enter in a comment opens a line on which a comment of the same prefix
    starts at the same column. *)
Theorem C114_comment : forall before text ks i new n u, enter_comment before text ks i = Some new -> column before n ->
  exists line p, new = line ++ p ++ [c_space] /\ column (before ++ u ++ line) n /\ (exists rest, text = p ++ rest) /\
    (forall c, In c p -> c = c_slash \/ c = c_bang) /\
    (forall q c rest, text = repeat c_slash q ++ c :: rest -> c <> c_slash ->
       p = repeat c_slash q ++ (if c =? c_bang then [c] else [])).
Proof.
  intros before text ks i new n u H HC. unfold enter_comment in H. destruct (_ && _); [discriminate|]. inversion H; subst.
  exists (c_lf :: indent_of before), (comment_prefix text). split; [reflexivity|]. split; [|split; [apply prefix_ok|split]].
  - rewrite app_assoc. apply indent_column; auto.
  - clear. induction text as [|c t IH]; cbn; [intros c []|].
    destruct (Nat.eqb_spec c c_slash) as [->|_]; [intros d [<-|Hd]; auto|].
    destruct (Nat.eqb_spec c c_bang) as [->|_]; intros d []; auto; contradiction.
  - clear. intros q c rest -> NE. induction q as [|q IH]; cbn [repeat app comment_prefix].
    + destruct (Nat.eqb_spec c c_slash); [contradiction|]. auto.
    + rewrite Nat.eqb_refl. f_equal. apply IH.
Qed.
Print Assumptions C114_comment.

(** A plain comment is not continued if it is the only one of its group: the
    longest run of comments and white space around it. *)
Theorem C114_alone : forall before text ks i x run y, maximal_run ks x run y -> length x <= i < length x + length run ->
  (enter_comment before text ks i = None <->
   comment_prefix text = [c_slash; c_slash] /\ length (filter is_comment run) <= 1).
Proof.
  intros before text ks i x run y HM HI. unfold enter_comment. rewrite (group_ok ks x run y i HM) by lia.
  destruct (Nat.leb_spec (length (filter is_comment run)) 1); cbn [andb].
  - destruct (list_eq_dec Nat.eq_dec (comment_prefix text) [c_slash; c_slash]); split; try tauto; try discriminate.
  - split; [discriminate|]. intros (_ & L). lia.
Qed.
Print Assumptions C114_alone.

(** In an equation Enter does something only if it is blank.  The line of the
    cursor is indented by two more than the column of the equation; if the
    equation is on one line, what follows the cursor goes to a line of its
    own, to the column of the equation. *)
Theorem C114_math : forall blank before text inside n, column before n ->
  match enter_math blank before text inside with
  | Some (a, b) => inside = true /\ (forall c, In c (strip text) -> blank c = true) /\
      (forall u, column (u ++ a) (n + 2)) /\
      (In c_lf (strip text) -> b = []) /\ (~ In c_lf (strip text) -> forall u, column (u ++ b) n)
  | None => inside = false \/ exists c, In c (strip text) /\ blank c = false
  end.
Proof.
  intros blank before text inside n HC. unfold enter_math.
  destruct inside; cbn [andb]; [|left; auto].
  destruct (forallb blank (strip text)) eqn:EB.
  - split; auto. split; [apply forallb_forall; auto|]. split; [|split].
    + intros u. apply column_line in HC. exists u, (indent_of before ++ [c_space; c_space]). split; auto. unfold indent_of. split.
      * intros HI. apply in_app_or in HI. destruct HI as [HI|HI]; [apply spaces_no_lf in HI; auto|]. destruct HI as [E|[E|[]]]; discriminate.
      * rewrite app_length, repeat_length. cbn. lia.
    + intros HI. assert (E : existsb (Nat.eqb c_lf) (strip text) = true). { apply existsb_exists. exists c_lf. split; auto. }
      rewrite E. auto.
    + intros HN. destruct (existsb (Nat.eqb c_lf) (strip text)) eqn:E.
      * apply existsb_exists in E. destruct E as (c & Hc & Ec). apply Nat.eqb_eq in Ec. subst c. contradiction.
      * intros u. apply indent_column; auto.
  - right. assert (H : existsb (fun c => negb (blank c)) (strip text) = true).
    { clear - EB. induction (strip text) as [|c t IH]; cbn in *; [discriminate|]. destruct (blank c); cbn in *; auto. }
    apply existsb_exists in H. destruct H as (c & Hc & E). exists c. split; auto. destruct (blank c); auto; discriminate.
Qed.
Print Assumptions C114_math.

(** Which of the nodes around the cursor decides: the first that is a comment,
    an equation or a list item, or is white space after an item with no line
    break before the cursor. *)
Definition decides (x : kind * option kind * bool) (c : nat -> case) : Prop :=
  let '(k, prev, lf) := x in
  (k = KLineComment /\ c = CComment) \/ (k = KEquation /\ c = CEquation) \/
  ((k = KListItem \/ k = KEnumItem \/
    ((k = KSpace \/ k = KParbreak) /\ (prev = Some KListItem \/ prev = Some KEnumItem) /\ lf = false)) /\ c = CItem).

Lemma find_step : forall i x anc, (exists c, decides x c /\ find_case i (x :: anc) = Some (c i)) \/
  ((forall c, ~ decides x c) /\ find_case i (x :: anc) = find_case (S i) anc).
Proof.
  intros i ((k, prev), lf) anc. cbn [decides find_case].
  destruct k; try (right; split; [intros c; intros [(E & _)|[(E & _)|([E|[E|([E|E] & _)]] & _)]]; discriminate|reflexivity]);
    try (left; exists CComment; split; [tauto|reflexivity]);
    try (left; exists CEquation; split; [tauto|reflexivity]);
    try (left; exists CItem; split; [tauto|reflexivity]).
  - destruct prev as [[]|]; try (right; split; [intros c; intros [(E & _)|[(E & _)|([E|[E|(_ & [E|E] & _)]] & _)]]; discriminate|reflexivity]);
    destruct lf; try (left; exists CItem; split; [tauto|reflexivity]);
    (right; split; [intros c; intros [(E & _)|[(E & _)|([E|[E|(_ & _ & E)]] & _)]]; discriminate|reflexivity]).
  - destruct prev as [[]|]; try (right; split; [intros c; intros [(E & _)|[(E & _)|([E|[E|(_ & [E|E] & _)]] & _)]]; discriminate|reflexivity]);
    destruct lf; try (left; exists CItem; split; [tauto|reflexivity]);
    (right; split; [intros c; intros [(E & _)|[(E & _)|([E|[E|(_ & _ & E)]] & _)]]; discriminate|reflexivity]).
Qed.

Lemma find_case_ok : forall anc i r, find_case i anc = Some r <->
  exists n x c, nth_error anc n = Some x /\ decides x c /\ r = c (i + n) /\
    forall k y c', k < n -> nth_error anc k = Some y -> ~ decides y c'.
Proof.
  induction anc as [|x anc IH]; intros i r.
  - split; [discriminate|]. intros ([|n] & y & c & E & _); discriminate.
  - destruct (find_step i x anc) as [(c & HD & E)|(HN & E)]; rewrite E.
    + split.
      * intros H. inversion H; subst. exists 0, x, c. repeat split; auto. intros; lia.
      * intros ([|n] & y & c' & E' & HD' & -> & HK).
        -- cbn in E'. inversion E'; subst y. rewrite Nat.add_0_r. do 2 f_equal.
           destruct x as ((k, prev), lf). cbn in HD, HD'.
           destruct HD as [(K1 & ->)|[(K1 & ->)|(K1 & ->)]]; destruct HD' as [(K2 & ->)|[(K2 & ->)|(K2 & ->)]]; auto; exfalso;
             subst; repeat match goal with H : _ \/ _ |- _ => destruct H | H : _ /\ _ |- _ => destruct H end; congruence.
        -- exfalso. apply (HK 0 x c); auto. lia.
    + rewrite IH. split.
      * intros (n & y & c & E' & HD & -> & HK). exists (S n), y, c. repeat split; auto; [f_equal; lia|].
        intros [|k] z c' L EZ; [cbn in EZ; inversion EZ; subst; apply HN|]. apply (HK k z c'); auto; lia.
      * intros ([|n] & y & c & E' & HD & -> & HK).
        -- cbn in E'. inversion E'; subst. exfalso; apply (HN c); auto.
        -- exists n, y, c. repeat split; auto; [f_equal; lia|]. intros k z c' L EZ. apply (HK (S k) z c'); auto; lia.
Qed.

Theorem C114_case : forall anc r, find_case 0 anc = Some r <->
  exists n x c, nth_error anc n = Some x /\ decides x c /\ r = c n /\
    forall k y c', k < n -> nth_error anc k = Some y -> ~ decides y c'.
Proof. intros anc r. apply find_case_ok. Qed.
Print Assumptions C114_case.

(** Two comments, the second [  /// b], and an equation [$ $] at column 1: *)
Example C114_nonvacuous :
  let before := [97; c_lf; c_space; c_space] in
  column before 2 /\
  enter_comment before [c_slash; c_slash; c_slash; 98] [KOther; KLineComment; KSpace; KLineComment; KOther] 3
  = Some [c_lf; c_space; c_space; c_slash; c_slash; c_slash; c_space] /\
  maximal_run [KOther; KLineComment; KSpace; KLineComment; KOther] [KOther] [KLineComment; KSpace; KLineComment] [KOther] /\
  enter_comment before [c_slash; c_slash; 98] [KOther; KLineComment; KOther] 1 = None /\
  enter_math (Nat.eqb c_space) [97] [c_dollar; c_space; c_dollar] true
  = Some ([c_lf; c_space; c_space; c_space], [c_lf; c_space]) /\
  find_case 0 [(KSpace, Some KOther, false); (KMath, None, false); (KEquation, None, false)] = Some (CEquation 2).
Proof.
  cbv zeta. split; [apply column_line; reflexivity|]. split; [reflexivity|]. split.
  - split; [reflexivity|]. split; [|split].
    + intros k [<-|[<-|[<-|[]]]]; unfold gap; auto.
    + intros x' k E. assert (k = KOther) as -> by (destruct x' as [|? [|? ?]]; inversion E; reflexivity). intros [H|[H|H]]; discriminate.
    + intros y' k E. assert (k = KOther) as -> by (inversion E; reflexivity). intros [H|[H|H]]; discriminate.
  - repeat split.
Qed.
