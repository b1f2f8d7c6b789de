(** * Theorems about the metrics of a document *)

From Coq Require Import List Arith NArith Bool Lia Permutation.
From Verif Require Import MetModel MetSpec.
Import ListNotations.

(** ** The map of fonts *)

Lemma get_put f i m g : get g (put f i m) = if Nat.eqb f g then Some i else get g m.
Proof.
  induction m as [|(h & j) m IH]; cbn; [reflexivity|].
  destruct (Nat.eqb_spec h f) as [->|N]; cbn.
  - destruct (Nat.eqb f g); reflexivity.
  - rewrite IH. destruct (Nat.eqb_spec h g) as [->|]; [|reflexivity].
    destruct (Nat.eqb_spec f g); [congruence|reflexivity].
Qed.

Lemma put_keys f i m : map fst (put f i m) =
  if existsb (Nat.eqb f) (map fst m) then map fst m else map fst m ++ [f].
Proof.
  induction m as [|(h & j) m IH]; cbn; [reflexivity|]. rewrite (Nat.eqb_sym f).
  destruct (Nat.eqb_spec h f) as [->|N]; cbn; [reflexivity|]. rewrite IH.
  destruct (existsb (Nat.eqb f) (map fst m)); reflexivity.
Qed.

Lemma nodup_snoc {A} (l : list A) x : NoDup l -> ~ In x l -> NoDup (l ++ [x]).
Proof.
  intros H N. apply (Permutation_NoDup (l := x :: l)); [apply Permutation_cons_append|].
  constructor; assumption.
Qed.

Lemma put_nodup f i m : NoDup (map fst m) -> NoDup (map fst (put f i m)).
Proof.
  intro H. rewrite put_keys. destruct (existsb (Nat.eqb f) (map fst m)) eqn:E; [exact H|].
  apply nodup_snoc; [exact H|]. intro HI.
  assert (existsb (Nat.eqb f) (map fst m) = true); [|congruence].
  apply existsb_exists. exists f. split; [exact HI|apply Nat.eqb_refl].
Qed.

Lemma get_keys f m : In f (map fst m) <-> get f m <> None.
Proof.
  induction m as [|(h & j) m IH]; cbn; [tauto|].
  destruct (Nat.eqb_spec h f) as [->|N]; [split; [discriminate|auto]|].
  rewrite IH. tauto.
Qed.

Lemma get_in f i m : NoDup (map fst m) -> (In (f, i) m <-> get f m = Some i).
Proof.
  induction m as [|(h & j) m IH]; cbn; intro H; [split; [tauto|discriminate]|].
  inversion H as [|a b Hn Hr]; subst.
  destruct (Nat.eqb_spec h f) as [->|N].
  - split.
    + intros [E|E]; [congruence|]. exfalso. apply Hn. apply (in_map fst) in E. exact E.
    + intro E. left. congruence.
  - rewrite <- (IH Hr). split; [intros [E|E]; [congruence|exact E]|auto].
Qed.

(** ** Counting *)

(** What the map holds after some text items. *)
Definition holds (v : env) (ts : list (nat * list glyph)) (m : fonts) : Prop :=
  NoDup (map fst m) /\
  (forall f, In f (map fst m) <-> In f (map fst ts)) /\
  (forall f i, get f m = Some i ->
     uses i = N.of_nat (length (glyphs_of f ts)) /\ first i = occurs v f ts).

Lemma glyphs_snoc f ts g gs : glyphs_of f (ts ++ [(g, gs)]) =
  glyphs_of f ts ++ (if Nat.eqb g f then gs else []).
Proof. unfold glyphs_of. rewrite flat_map_app. cbn. rewrite app_nil_r. reflexivity. Qed.

Lemma occurs_snoc v f ts g gs : occurs v f (ts ++ [(g, gs)]) =
  match occurs v f ts with
  | Some p => Some p
  | None => if Nat.eqb g f then match gs with x :: _ => locate v x | [] => None end else None
  end.
Proof.
  induction ts as [|(h & hs) ts IH]; cbn.
  - destruct (Nat.eqb g f); [|reflexivity]. destruct gs; [reflexivity|].
    destruct (locate v g0); reflexivity.
  - rewrite IH. destruct (if Nat.eqb h f then _ else _); reflexivity.
Qed.

Lemma absent_glyphs f ts : ~ In f (map fst ts) -> glyphs_of f ts = [].
Proof.
  induction ts as [|(h & hs) ts IH]; cbn; intro H; [reflexivity|].
  destruct (Nat.eqb_spec h f) as [->|]; [tauto|]. apply IH. tauto.
Qed.

Lemma absent_occurs v f ts : ~ In f (map fst ts) -> occurs v f ts = None.
Proof.
  induction ts as [|(h & hs) ts IH]; cbn; intro H; [reflexivity|].
  destruct (Nat.eqb_spec h f) as [->|]; [tauto|]. apply IH. tauto.
Qed.

(** The facts about a font, whether it is in the map or not. *)
Lemma holds_get v ts m f : holds v ts m ->
  match get f m with Some i => uses i | None => 0%N end = N.of_nat (length (glyphs_of f ts)) /\
  match get f m with Some i => first i | None => None end = occurs v f ts.
Proof.
  intros (H1 & H2 & H3). destruct (get f m) as [i|] eqn:G; [apply H3; exact G|].
  assert (N : ~ In f (map fst ts)).
  { intro HI. apply H2 in HI. apply get_keys in HI. contradiction. }
  rewrite (absent_glyphs _ _ N), (absent_occurs _ _ _ N). auto.
Qed.

Lemma note_facts v f gs m : NoDup (map fst m) ->
  NoDup (map fst (note v f gs m)) /\
  (forall g, g <> f -> get g (note v f gs m) = get g m) /\
  match get f (note v f gs m) with Some i => uses i | None => 0%N end =
  match get f m with Some i => uses i | None => 0%N end /\
  match get f (note v f gs m) with Some i => first i | None => None end =
  match match get f m with Some i => first i | None => None end with
  | Some p => Some p
  | None => match gs with x :: _ => locate v x | [] => None end
  end /\
  (get f m <> None -> get f (note v f gs m) <> None).
Proof.
  intro H. unfold note.
  destruct (match get f m with Some i => first i | None => None end) as [p|] eqn:E;
    [repeat split; auto|].
  destruct gs as [|x gs]; [repeat split; auto|].
  destruct (locate v x) as [p|]; [|repeat split; auto].
  repeat split.
  - apply put_nodup. exact H.
  - intros g N. rewrite get_put. destruct (Nat.eqb_spec f g); [congruence|reflexivity].
  - rewrite get_put, Nat.eqb_refl. reflexivity.
  - rewrite get_put, Nat.eqb_refl. reflexivity.
  - rewrite get_put, Nat.eqb_refl. discriminate.
Qed.

Lemma work_text_ok v f gs m ts : (N.of_nat (length gs) <= max_uses)%N -> holds v ts m ->
  match work_text v f gs m with
  | Some m' => holds v (ts ++ [(f, gs)]) m' /\
      (N.of_nat (length (glyphs_of f (ts ++ [(f, gs)]))) <= max_uses)%N
  | None => (max_uses < N.of_nat (length (glyphs_of f (ts ++ [(f, gs)]))))%N
  end.
Proof.
  intros Hc H. pose proof (holds_get v ts m f H) as (U & O).
  destruct H as (H1 & H2 & H3).
  destruct (note_facts v f gs m H1) as (N1 & N2 & N3 & N4 & N5).
  unfold work_text. cbv zeta. set (m1 := note v f gs m) in *.
  rewrite glyphs_snoc, Nat.eqb_refl, app_length, Nat2N.inj_add, <- U, <- N3.
  rewrite N.mod_small by (unfold max_uses in Hc; lia).
  assert (E : uses match get f m1 with Some i => i | None => mkInfo 0 None end =
    match get f m1 with Some i => uses i | None => 0%N end) by (destruct (get f m1); reflexivity).
  assert (E' : first match get f m1 with Some i => i | None => mkInfo 0 None end =
    match get f m1 with Some i => first i | None => None end) by (destruct (get f m1); reflexivity).
  rewrite E, E'. clear E E'.
  destruct (N.leb_spec (match get f m1 with Some i => uses i | None => 0 end + N.of_nat (length gs)) max_uses)
    as [L|L]; [|exact L].
  split; [|exact L].
  split; [apply put_nodup; exact N1|]. split.
  - intro g. rewrite map_app, in_app_iff. cbn. rewrite <- H2, !get_keys, get_put.
    destruct (Nat.eqb_spec f g) as [->|N].
    + split; [auto|discriminate].
    + rewrite N2 by congruence. split; [auto|]. intros [G|[G|[]]]; [exact G|congruence].
  - intros g i. rewrite get_put, glyphs_snoc, occurs_snoc, app_length.
    destruct (Nat.eqb_spec f g) as [<-|N].
    + intro G. injection G as <-. cbn. rewrite N4, N3, U, O. split; [lia|].
      destruct (occurs v f ts); reflexivity.
    + rewrite N2 by congruence. intro G. destruct (H3 g i G) as (G1 & G2).
      rewrite G1, G2. cbn. split; [lia|]. destruct (occurs v g ts); reflexivity.
Qed.

(** Whether all counts so far fit. *)
Definition fits (ts : list (nat * list glyph)) : Prop :=
  forall f, (N.of_nat (length (glyphs_of f ts)) <= max_uses)%N.

Fixpoint work_texts (v : env) (ts : list (nat * list glyph)) (m : fonts) : option fonts :=
  match ts with
  | [] => Some m
  | (f, gs) :: ts' =>
      match work_text v f gs m with Some m' => work_texts v ts' m' | None => None end
  end.

Lemma work_texts_app v ts us m : work_texts v (ts ++ us) m =
  match work_texts v ts m with Some m' => work_texts v us m' | None => None end.
Proof.
  revert m. induction ts as [|(f & gs) ts IH]; intro m; cbn; [reflexivity|].
  destruct (work_text v f gs m); auto.
Qed.

(** Induction over trees of items. *)
Fixpoint item_ind' (P : item -> Prop) (ht : forall f gs, P (Text f gs))
  (hg : forall xs, Forall P xs -> P (Group xs)) (ho : P Other) (x : item) : P x :=
  match x with
  | Text f gs => ht f gs
  | Group xs => hg xs ((fix go (xs : list item) : Forall P xs :=
      match xs with [] => Forall_nil P | y :: ys => Forall_cons y (item_ind' P ht hg ho y) (go ys) end) xs)
  | Other => ho
  end.

Lemma work_elem_texts v x : forall m, work_elem v x m = work_texts v (texts x) m.
Proof.
  induction x as [f gs|xs IH|] using item_ind'; intro m; cbn; auto.
  - destruct (work_text v f gs m); reflexivity.
  - revert m. induction IH as [|y ys Hy Hys IHys]; intro m; cbn; [reflexivity|].
    rewrite work_texts_app, Hy. destruct (work_texts v (texts y) m); auto.
Qed.

Lemma work_frame_texts v xs : forall m, work_frame v xs m = work_texts v (flat_map texts xs) m.
Proof.
  induction xs as [|x xs IH]; intro m; cbn; [reflexivity|].
  rewrite work_elem_texts, work_texts_app. destruct (work_texts v (texts x) m); auto.
Qed.

Lemma work_pages_texts v ps : forall m, work_pages v ps m = work_texts v (all_texts ps) m.
Proof.
  unfold all_texts. induction ps as [|p ps IH]; intro m; cbn; [reflexivity|].
  rewrite work_frame_texts, work_texts_app. destruct (work_texts v (flat_map texts p) m); auto.
Qed.

Lemma glyphs_grow f ts us : length (glyphs_of f ts) <= length (glyphs_of f (ts ++ us)).
Proof. unfold glyphs_of. rewrite flat_map_app, app_length. lia. Qed.

Lemma work_texts_ok v us : forall ts m, countable us -> holds v ts m -> fits ts ->
  match work_texts v us m with
  | Some m' => holds v (ts ++ us) m' /\ fits (ts ++ us)
  | None => ~ fits (ts ++ us)
  end.
Proof.
  induction us as [|(f & gs) us IH]; intros ts m C H F; cbn.
  - rewrite app_nil_r. auto.
  - replace (ts ++ (f, gs) :: us) with ((ts ++ [(f, gs)]) ++ us) by (rewrite <- app_assoc; reflexivity).
    assert (Hc : (N.of_nat (length gs) <= max_uses)%N) by (apply (C f); left; reflexivity).
    pose proof (work_text_ok v f gs m ts Hc H) as W.
    destruct (work_text v f gs m) as [m'|].
    + destruct W as (W1 & W2). apply IH; [intros g hs G; apply (C g); right; exact G|exact W1|].
      intro g. destruct (Nat.eq_dec f g) as [<-|N]; [exact W2|].
      rewrite glyphs_snoc. destruct (Nat.eqb_spec f g); [congruence|]. rewrite app_nil_r. apply F.
    + intro G. specialize (G f). pose proof (glyphs_grow f (ts ++ [(f, gs)]) us). lia.
Qed.

(** ** Files of fonts *)

Lemma intern_ok x l n l' : intern x l = (n, l') -> NoDup l ->
  nth_error l' n = Some x /\ NoDup l' /\ (forall y, In y l' <-> In y l \/ y = x) /\
  exists t, l' = l ++ t.
Proof.
  revert n l'. induction l as [|y l IH]; cbn; intros n l' H N.
  - injection H as <- <-. cbn. split; [reflexivity|]. split; [constructor; [auto|constructor]|].
    split; [intro y; split; [intros [E|[]]; auto|intros [[]|E]; auto]|]. exists [x]. reflexivity.
  - destruct (Nat.eqb_spec y x) as [->|E].
    + injection H as <- <-. cbn. repeat split; auto; [intros [G|G]; auto|exists []].
      rewrite app_nil_r. reflexivity.
    + destruct (intern x l) as [k k'] eqn:I. injection H as <- <-.
      inversion N as [|a b Hn Hr]; subst.
      destruct (IH _ _ eq_refl Hr) as (I1 & I2 & I3 & t & I4). cbn. repeat split; auto.
      * constructor; [|exact I2]. rewrite I3. intros [G|G]; [contradiction|congruence].
      * rewrite I3. tauto.
      * rewrite I3. tauto.
      * exists t. rewrite I4. reflexivity.
Qed.

Lemma compute_ok v m : forall l rows l', compute v m l = (rows, l') -> NoDup l ->
  map (fun r => (r_font r, mkInfo (r_uses r) (r_first r))) rows = m /\
  (forall r, In r rows ->
     match r_source r with
     | Some n => exists x, font_source v (r_font r) = Some x /\ nth_error l' n = Some x
     | None => font_source v (r_font r) = None
     end) /\
  NoDup l' /\
  (forall x, In x l' <-> In x l \/ exists r, In r rows /\ font_source v (r_font r) = Some x) /\
  exists t, l' = l ++ t.
Proof.
  induction m as [|(f & i) m IH]; intros l rows l' H N.
  - cbn in H. injection H as <- <-. cbn. repeat split; auto; [tauto| |].
    + intros [G|(r & [] & _)]; exact G.
    + exists []. rewrite app_nil_r. reflexivity.
  - cbn in H.
    destruct (match font_source v f with
      | Some x => let (n, l'0) := intern x l in (Some n, l'0) | None => (None, l) end)
      as [src l1] eqn:S.
    destruct (compute v m l1) as [rs l2] eqn:C. injection H as <- <-.
    assert (Q : NoDup l1 /\ (forall x, In x l1 <-> In x l \/ font_source v f = Some x) /\
      (exists t, l1 = l ++ t) /\
      match src with
      | Some n => exists x, font_source v f = Some x /\ nth_error l1 n = Some x
      | None => font_source v f = None end).
    { destruct (font_source v f) as [x|].
      - destruct (intern x l) as [n k] eqn:I. injection S as <- <-.
        destruct (intern_ok _ _ _ _ I N) as (I1 & I2 & I3 & I4).
        repeat split; auto.
        + intro G. apply I3 in G. destruct G as [G| ->]; auto.
        + intro G. apply I3. destruct G as [G|G]; [auto|right; congruence].
        + exists x. auto.
      - injection S as <- <-. repeat split; auto.
        + intros [G|G]; [exact G|discriminate].
        + exists []. rewrite app_nil_r. reflexivity. }
    destruct Q as (Q1 & Q2 & (t & Q3) & Q4).
    destruct (IH _ _ _ C Q1) as (C1 & C2 & C3 & C4 & t' & C5).
    cbn. rewrite C1. split; [destruct i; reflexivity|]. split.
    + intros r [<-|G]; [|apply C2; exact G]. cbn. destruct src as [n|]; [|exact Q4].
      destruct Q4 as (x & Q4 & Q5). exists x. split; [exact Q4|].
      rewrite C5, nth_error_app1; [exact Q5|]. apply nth_error_Some. congruence.
    + split; [exact C3|]. split.
      * intro x. rewrite C4, Q2. split.
        -- intros [[G|G]|(r & G1 & G2)]; [auto| |].
           ++ right. exists (mkRow f src (uses i) (first i)). auto.
           ++ right. exists r. auto.
        -- intros [G|(r & [<-|G1] & G2)]; [auto|auto|]. right. exists r. auto.
      * exists (t ++ t'). rewrite C5, Q3, app_assoc. reflexivity.
Qed.

(** ** C167 *)

(** The rows: for every document with pages, in whatever order the map of
    fonts comes, an answer counts the glyphs of every font and names the first
    place of each. *)
Theorem C167_rows : forall v order ps rows files,
  (forall m, Permutation (order m) m) -> countable (all_texts ps) ->
  request v order (Paged ps) = Some (rows, files) ->
  rows_ok v (all_texts ps) rows /\ files_ok v rows files.
Proof.
  intros v order ps rows files P C H. unfold request in H.
  rewrite work_pages_texts in H.
  assert (W := work_texts_ok v (all_texts ps) [] [] C).
  cbn [app] in W. destruct (work_texts v (all_texts ps) []) as [m|]; [|discriminate].
  injection H as H.
  destruct W as ((W1 & W2 & W3) & _).
  { split; [constructor|]. split; [cbn; tauto|discriminate]. }
  { intro f. cbn. unfold max_uses. lia. }
  destruct (compute_ok v (order m) [] rows files H) as (C1 & C2 & C3 & C4 & _); [constructor|].
  assert (K : map r_font rows = map fst (order m)).
  { rewrite <- C1, map_map. reflexivity. }
  assert (PK : Permutation (map fst (order m)) (map fst m)) by (apply Permutation_map, P).
  split.
  - unfold rows_ok. rewrite K. split; [|split].
    + apply (Permutation_NoDup (Permutation_sym PK)). exact W1.
    + intro f. rewrite <- W2. split; apply Permutation_in; [exact PK|apply Permutation_sym; exact PK].
    + intros r HI. assert (G : get (r_font r) m = Some (mkInfo (r_uses r) (r_first r))).
      { apply get_in; [exact W1|]. apply (Permutation_in _ (P m)). rewrite <- C1.
        apply (in_map (fun r => (r_font r, mkInfo (r_uses r) (r_first r)))). exact HI. }
      apply (W3 _ _ G).
  - split; [exact C2|]. split; [exact C3|]. intro x. rewrite C4. cbn. split; [intros [[]|G]; exact G|auto].
Qed.
Print Assumptions C167_rows.

(** There is an answer exactly if no font is used more often than the counter
    can count; documents of the other kind have none. *)
Theorem C167_answers : forall v order ps, countable (all_texts ps) ->
  (request v order (Paged ps) <> None <-> fits (all_texts ps)).
Proof.
  intros v order ps C. unfold request. rewrite work_pages_texts.
  assert (W := work_texts_ok v (all_texts ps) [] [] C). cbn [app] in W.
  destruct (work_texts v (all_texts ps) []) as [m|].
  - split; [|discriminate]. intros _. apply W.
    + split; [constructor|]. split; [cbn; tauto|discriminate].
    + intro f. cbn. unfold max_uses. lia.
  - split; [intro G; contradiction|]. intro F. exfalso. apply W; [| |exact F].
    + split; [constructor|]. split; [cbn; tauto|discriminate].
    + intro f. cbn. unfold max_uses. lia.
Qed.
Print Assumptions C167_answers.

Theorem C167_html : forall v order, request v order Html = None.
Proof. reflexivity. Qed.
Print Assumptions C167_html.

(** Places lie in the span of the glyph, and lines and columns start from one. *)
Theorem C167_place : forall v g p, locate v g = Some p ->
  exists id s e b l c, span_id v (g_span g) = Some id /\ readable v id = true /\
    range v (g_span g) = Some (s, e) /\ line_of v id b = Some l /\ column_of v id b = Some c /\
    path_of v id = Some (p_file p) /\ p_line p = N.succ l /\ p_column p = N.succ c /\
    (s < e -> s <= b < e) /\ (s + g_offset g < e -> b = s + g_offset g).
Proof.
  intros v g p H. unfold locate in H.
  destruct (span_id v (g_span g)) as [id|]; [|discriminate].
  destruct (readable v id) eqn:R; [|discriminate].
  destruct (range v (g_span g)) as [(s & e)|]; [|discriminate]. cbv zeta in H.
  set (b := match e with 0 => s + g_offset g | S e' => Nat.min (s + g_offset g) e' end) in *.
  destruct (line_of v id b) as [l|] eqn:L; [|discriminate].
  destruct (column_of v id b) as [c|] eqn:C; [|discriminate].
  destruct (path_of v id) as [q|] eqn:Q; [|discriminate].
  injection H as <-. exists id, s, e, b, l, c. cbn. repeat split; auto; try lia;
  unfold b; destruct e; lia.
Qed.
Print Assumptions C167_place.

(** Two pages with three fonts: one without glyphs, one whose first item
    cannot be found, and two from one file. *)
Definition sample_env : env :=
  mkEnv (fun s => if s =? 0 then None else Some 1) (fun _ => true)
    (fun s => Some (10 * s, 10 * s + 5)) (fun _ b => Some (N.of_nat (b / 20)))
    (fun _ b => Some (N.of_nat (b mod 20))) (fun i => Some i)
    (fun f => if f =? 3 then None else Some 77).

Definition sample_pages : list (list item) :=
  [[Text 1 [mkGlyph 0 0; mkGlyph 1 0]; Other; Group [Text 2 [mkGlyph 2 9]; Text 3 []]];
   [Text 1 [mkGlyph 3 2; mkGlyph 3 3]; Text 2 [mkGlyph 1 0]]].

Example C167_nonvacuous :
  request sample_env (fun m => rev m) (Paged sample_pages) =
  Some ([mkRow 3 None 0 None; mkRow 2 (Some 0) 2 (Some (mkPlace 1 2 5));
         mkRow 1 (Some 0) 4 (Some (mkPlace 1 2 13))], [77]) /\
  countable (all_texts sample_pages) /\ fits (all_texts sample_pages) /\
  (forall m : fonts, Permutation (rev m) m).
Proof.
  split; [reflexivity|]. split; [|split].
  - intros f gs H. cbn in H. unfold max_uses.
    repeat (destruct H as [H|H]; [injection H as <- <-; cbn; lia|]). destruct H.
  - intros [|[|[|[|f]]]]; cbn; unfold max_uses; lia.
  - intro m. apply Permutation_sym, Permutation_rev.
Qed.
