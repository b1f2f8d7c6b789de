(** Theorems about completions of fonts, packages, tags, labels and values (C187). *)
From Coq Require Import String Ascii List Arith Bool Lia Sorted.
From Verif Require Import ValModel ValSpec ValProof.
Import ListNotations.

(** C187, in part: fonts are offered each as often as they are there; only those for math if the last 25 bytes say "equation".  (Missing: it may be said further back, see [C187_window_refuted].) *)
Theorem C187_fonts_partial : forall width before families s, recent width 25 before s ->
  (forall f, In f (font_completions width before families) <-> In f families /\ (has (codes "equation") s -> has (codes "Math") f))
  /\ (~ has (codes "equation") s -> font_completions width before families = families)
  /\ (NoDup families -> NoDup (font_completions width before families)).
Proof.
  intros width before families s R. rewrite (recent_one _ _ _ _ _ R (window_recent width 25 before)). unfold font_completions. change lit with codes.
  pose proof (contains_spec (codes "equation") (window width 25 before)) as E. destruct (contains (codes "equation") (window width 25 before)); cbn [negb orb].
  - split; [|split; [intros N; exfalso; apply N; now apply E|intros N; now apply NoDup_filter]]. intros f. rewrite filter_In, contains_spec. split; [intros (I & H); auto|intros (I & H); split; [assumption|]; apply H; now apply E].
  - assert (N : ~ has (codes "equation") (window width 25 before)) by (intros H; apply E in H; discriminate).
    assert (F : filter (fun _ : text => true) families = families) by (clear; induction families as [|x l IH]; [reflexivity|cbn; now rewrite IH]). rewrite F. split; [|auto]. intros f. split; [intros I; split; [assumption|intros H; contradiction]|intros (I & _); exact I].
Qed.
Print Assumptions C187_fonts_partial.
(** C187 fails: with the quote of the font's name the word "equation" is too far away, and all fonts are offered. *)
Theorem C187_window_refuted : exists before f, let rule := codes "#show math.equation: set text(font: " in
  before = rule ++ codes """" /\ ~ has (codes "Math") f /\ In f (font_completions (fun _ => 1) before [f]) /\ ~ In f (font_completions (fun _ => 1) rule [f]).
Proof.
  exists (codes "#show math.equation: set text(font: """), (codes "Arial"). cbv zeta. split; [reflexivity|]. split; [|split; [vm_compute; now left|vm_compute; intros []]].
  intros H. apply contains_spec in H. vm_compute in H. discriminate.
Qed.
Print Assumptions C187_window_refuted.
(** C187: packages are offered in order, none twice, each with its first description; with all versions each package, otherwise exactly the newest of each name. *)
Theorem C187_packages : forall registry local,
  let inp := registry ++ local in
  (forall all x, In x (package_completions all registry local) -> first inp x)
  /\ (forall all, StronglySorted (fun a b => ahead (fst a) (fst b)) (package_completions all registry local))
  /\ (forall x, In x inp -> exists d, In (fst x, d) (package_completions true registry local))
  /\ StronglySorted (fun a b => other (fst a) (fst b)) (package_completions false registry local)
  /\ (forall x, In x inp -> exists y, In y (package_completions false registry local) /\ p_ns (fst y) = p_ns (fst x) /\ p_name (fst y) = p_name (fst x) /\ p_version (fst x) <= p_version (fst y)).
Proof.
  intros registry local. cbv zeta. unfold package_completions. set (l := sort (registry ++ local)). pose proof (sort_sorted (registry ++ local)) as S. fold l in S.
  assert (NS : StronglySorted (fun a b => other (fst a) (fst b)) (newest false l) /\ (forall x, In x (newest false l) -> first l x) /\ (forall x, In x l -> exists y, In y (newest false l) /\ same (fst y) (fst x) /\ p_version (fst x) <= p_version (fst y))).
  { clearbody l. unfold newest. destruct l as [|x r]; [split; [constructor|split; intros x []]|]. inversion S as [|? ? S' F]; subst. rewrite Forall_forall in F. destruct (dedup_spec r (fst x) S' F) as (A & B & C & D). split; [|split].
    - constructor; [exact C|]. apply Forall_forall. exact B.
    - intros y [<-|I]; [exists [], r; split; [reflexivity|intros z []]|]. pose proof (B y I) as O. destruct (A y I) as [(p & q & -> & N)|(p & q & -> & N)]; exists (x :: p), q; (split; [reflexivity|]); intros z [<-|J] Q.
      + rewrite Q in O. unfold other in O. lia.
      + specialize (N z J). rewrite Q in N. unfold other in N. lia.
      + rewrite Q in O. unfold other in O. lia.
      + destruct (N z J) as [G|G]; rewrite Q in G; unfold other, same in *; lia.
    - intros y [<-|I]; [exists x; split; [now left|split; [now split|lia]]|]. destruct (D y I) as [G|(z & J & G)]; [|exists z; split; [now right|exact G]].
      exists x. split; [now left|]. split; [unfold same in *; lia|]. destruct (F y I) as [Q|[Q|Q]]; [rewrite Q; lia|unfold other, same in *; lia|lia]. }
  destruct NS as (N1 & N2 & N3).
  assert (OE : once [] (newest false l) = newest false l).
  { apply once_none; [|intros x _ []]. clear - N1. induction N1 as [|x r S IH F]; [constructor|]. cbn. constructor; [|exact IH]. intros I. apply in_map_iff in I. destruct I as (y & Q & I). rewrite Forall_forall in F. specialize (F y I). cbn in F. rewrite Q in F. unfold other in F. lia. }
  split; [|split; [|split; [|split]]].
  - intros [|] x I; apply first_sort; fold l; [|rewrite OE in I; now apply N2]. destruct (once_spec l []) as (A & _ & _). now apply A.
  - intros [|]; [now apply once_sorted|]. rewrite OE. clear - N1. induction N1 as [|x r S IH F]; [constructor|]. constructor; [exact IH|]. eapply Forall_impl; [|exact F]. intros y O. left. exact O.
  - intros x I. destruct (once_spec l []) as (_ & B & _). destruct (B x) as [[]|H]; [apply sort_in; exact I|exact H].
  - now rewrite OE.
  - intros x I. rewrite OE. destruct (N3 x) as (y & J & (Q1 & Q2) & V); [apply sort_in; exact I|]. now exists y.
Qed.
Print Assumptions C187_packages.
(** C187: tags of raw text: those of each language that are identifiers, with the name in small letters if it is not among them; the first is put in, and languages without tags are left out. *)
Theorem C187_tags : forall is_ident lower languages name t ts,
  In (name, t, ts) (raw_completions is_ident lower languages) <->
  exists tags, In (name, tags) languages /\ hd_error ts = Some t /\
    ((In (lower name) tags /\ ts = filter is_ident tags) \/ (~ In (lower name) tags /\ ts = filter is_ident (tags ++ [lower name]))).
Proof.
  intros is_ident lower languages name t ts. unfold raw_completions. rewrite in_flat_map.
  assert (T : forall n tags us, tags_of is_ident lower n tags = us <-> (In (lower n) tags /\ us = filter is_ident tags) \/ (~ In (lower n) tags /\ us = filter is_ident (tags ++ [lower n]))).
  { intros n tags us. unfold tags_of. pose proof (existsb_text (lower n) tags) as X. destruct (existsb (text_eqb (lower n)) tags).
    - assert (I : In (lower n) tags) by now apply X. split; [intros <-; left; now split|intros [(_ & ->)|(N & _)]; [reflexivity|contradiction]].
    - assert (N : ~ In (lower n) tags) by (intros I; apply X in I; discriminate). split; [intros <-; right; now split|intros [(I & _)|(_ & ->)]; [contradiction|reflexivity]]. }
  split.
  - intros ([n tags] & I & H). cbn [fst snd] in H. destruct (tags_of is_ident lower n tags) as [|u us] eqn:E; [destruct H|]. destruct H as [H|[]]. injection H as <- <- <-. exists tags. split; [exact I|]. split; [reflexivity|]. now apply T.
  - intros (tags & I & H & G). exists (name, tags). split; [exact I|]. cbn [fst snd]. apply T in G. rewrite G. destruct ts as [|u us]; [discriminate|]. injection H as ->. now left.
Qed.
Print Assumptions C187_tags.
Lemma label_around before after l : labelled before after l ((if negb (ends 64 before) && negb (ends 60 before) then [60] else []) ++ l ++ (if negb (ends 64 before) && negb (starts [62] after) then [62] else [])).
Proof.
  unfold labelled. pose proof (ends_spec 64 before) as A. pose proof (ends_spec 60 before) as B. pose proof (starts_spec [62] after) as C. change (codes "@") with [64]. change (codes "<") with [60]. change (codes ">") with [62].
  destruct (ends 64 before); cbn [negb andb].
  - left. split; [now apply A|]. cbn. apply app_nil_r.
  - right. split; [intros b E; assert (false = true) by (apply A; now exists b); discriminate|].
    destruct (ends 60 before); cbn [negb].
    + destruct (proj1 B eq_refl) as (b & Eb). exists b. destruct (starts [62] after); cbn [negb].
      * destruct (proj1 C eq_refl) as (c & Ec). exists c. split; [now left|]. split; [now left|]. subst. cbn. rewrite !app_nil_r, <- !app_assoc. reflexivity.
      * exists after. split; [now left|]. split; [right; split; [reflexivity|intros x E; assert (false = true) by (apply C; now exists x); discriminate]|]. subst. cbn. rewrite <- !app_assoc. reflexivity.
    + exists before. destruct (starts [62] after); cbn [negb].
      * destruct (proj1 C eq_refl) as (c & Ec). exists c. split; [right; split; [reflexivity|intros x E; assert (false = true) by (apply B; now exists x); discriminate]|]. split; [now left|]. subst. cbn. rewrite app_nil_r. reflexivity.
      * exists after. split; [right; split; [reflexivity|intros x E; assert (false = true) by (apply B; now exists x); discriminate]|]. split; [right; split; [reflexivity|intros x E; assert (false = true) by (apply C; now exists x); discriminate]|]. cbn. rewrite <- !app_assoc. reflexivity.
Qed.
(** C187: labels are offered each once, for references all of them, for citations those of bibliographies, otherwise those of the document; with titles of bibliographies, and with the signs around them that are not there yet. *)
Theorem C187_labels : forall only_citation ref_label before after doc bib,
  let out := label_completions only_citation ref_label before after (doc ++ bib) (length doc) in
  let range := fun ls => ((ref_label = true \/ exists b, before = b ++ codes "@") /\ ls = doc ++ bib)
                     \/ (ref_label = false /\ (forall b, before <> b ++ codes "@") /\ ((only_citation = true /\ ls = bib) \/ (only_citation = false /\ ls = doc))) in
  exists ls, range ls
  /\ (forall l, In l (map fst ls) <-> exists a, In (Name l, a) out)
  /\ (forall l a, In (Name l, a) out -> labelled before after l a)
  /\ (forall t a, In (Title t, a) out -> exists p l q, ls = p ++ (l, Some t) :: q /\ ~ In l (map fst p) /\ labelled before after l a)
  /\ (forall p l t q, ls = p ++ (l, Some t) :: q -> ~ In l (map fst p) -> exists a, In (Title t, a) out /\ In (Name l, a) out)
  /\ NoDup (flat_map (fun x => match fst x with Name l => [l] | Title _ => [] end) out).
Proof.
  intros only_citation ref_label before after doc bib. cbv zeta. unfold label_completions.
  set (ls := if ends 64 before || ref_label then doc ++ bib else if negb (ends 64 before) && only_citation then skipn (length doc) (doc ++ bib) else firstn (length doc) (doc ++ bib)).
  pose proof (label_around before after) as LA. set (o := negb (ends 64 before) && negb (ends 60 before)) in *. set (c := negb (ends 64 before) && negb (starts [62] after)) in *.
  destruct (items_spec o c ls []) as (A & B & C). exists ls. split; [|split; [|split; [|split; [|split; [|exact C]]]]].
  - unfold ls. clear. pose proof (ends_spec 64 before) as E. change (codes "@") with [64]. rewrite skipn_app, firstn_app, skipn_all, firstn_all, Nat.sub_diag. cbn [app skipn firstn]. rewrite app_nil_r.
    destruct (ends 64 before); cbn [orb negb andb].
    + left. split; [right; now apply E|reflexivity].
    + assert (N : forall b, before <> b ++ [64]) by (intros b F; assert (false = true) by (apply E; now exists b); discriminate). destruct ref_label; [left; split; [now left|reflexivity]|]. right. split; [reflexivity|]. split; [exact N|]. destruct only_citation; [left|right]; split; reflexivity.
  - intros l. split; [intros I; eexists; apply A; split; [exact I|]; split; [intros []|reflexivity]|intros (a & I); now apply A in I].
  - intros l a I. apply A in I. destruct I as (_ & _ & ->). apply LA.
  - intros t a I. apply B in I. destruct I as (p & l & q & E & N & _ & ->). exists p, l, q. split; [exact E|]. split; [exact N|]. apply LA.
  - intros p l t q E N. eexists. split; [apply B; exists p, l, q; split; [exact E|]; split; [exact N|]; split; [intros []|reflexivity]|]. apply A. split; [rewrite E, map_app; apply in_or_app; right; now left|]. split; [intros []|reflexivity].
Qed.
Print Assumptions C187_labels.
(** C187 fails: a label that cannot be written with signs is offered as if it could. *)
Theorem C187_labels_refuted : exists l, (exists c, In c l /\ ~ label_char c) /\ label_completions false true (codes "see @") [] [(l, None)] 1 = [(Name l, l)].
Proof. exists (codes "my label"). split; [exists 32; split; [vm_compute; auto|unfold label_char; lia]|reflexivity]. Qed.
Print Assumptions C187_labels_refuted.
(** C187, in part: what is put in for a string between two quotes or without any stands between two quotes; names stay, and other fields are put in as a call.  (Missing: quotes on one side, see [C187_quotes_refuted].) *)
Theorem C187_values_partial : forall s before after,
  let quoted := codes """" ++ s ++ codes """" in
  let put := before ++ value_apply None quoted before after ++ after in
  (forall b a, before = b ++ codes """" -> after = codes """" ++ a -> put = b ++ quoted ++ a)
  /\ ((forall b, before <> b ++ codes """") -> (forall a, after <> codes """" ++ a) -> put = before ++ quoted ++ after)
  /\ (forall b, before = b ++ codes """" -> (forall a, after <> codes """" ++ a) -> put = b ++ quoted ++ after)
  /\ (forall f r, ~ In 34 f -> value_apply (Some (f, true)) r before after = f)
  /\ (forall f r, value_apply (Some (f, false)) r before after = codes "at(""" ++ f ++ codes """)").
Proof.
  intros s before after. cbv zeta. change (codes """") with [34]. unfold value_apply.
  pose proof (ends_spec 34 before) as B. pose proof (starts_spec [34] after) as A.
  assert (Q : ends 34 ([34] ++ s ++ [34]) = true) by (apply ends_spec; exists ([34] ++ s); now rewrite app_assoc).
  assert (R : removelast ([34] ++ s ++ [34]) = 34 :: s) by (rewrite app_assoc; now rewrite removelast_last).
  rewrite Q, R. cbn [andb]. split; [|split; [|split; [|split]]].
  - intros b a Eb Ea. rewrite (proj2 A (ex_intro _ a Ea)), (proj2 B (ex_intro _ b Eb)). cbn. subst. rewrite <- !app_assoc. reflexivity.
  - intros Nb Na. destruct (starts [34] after); [exfalso; destruct (proj1 A eq_refl) as (a & E); now apply (Na a)|]. destruct (ends 34 before); [exfalso; destruct (proj1 B eq_refl) as (b & E); now apply (Nb b)|]. now rewrite andb_false_r.
  - intros b Eb Na. destruct (starts [34] after); [exfalso; destruct (proj1 A eq_refl) as (a & E); now apply (Na a)|]. rewrite (proj2 B (ex_intro _ b Eb)). cbn. subst. rewrite <- !app_assoc. reflexivity.
  - intros f r N. assert (E : ends 34 f = false) by (destruct (ends 34 f) eqn:E; [apply ends_spec in E; destruct E as (b & ->); exfalso; apply N; apply in_or_app; right; now left|reflexivity]). rewrite E. cbn [andb].
    assert (E' : starts [34] f = false) by (destruct (starts [34] f) eqn:E'; [apply starts_spec in E'; destruct E' as (b & ->); exfalso; apply N; now left|reflexivity]). now rewrite E'.
  - reflexivity.
Qed.
Print Assumptions C187_values_partial.
(** C187 fails: before another string the closing quote is left out, and the other string is opened in the middle. *)
Theorem C187_quotes_refuted : exists s before after, let put := before ++ value_apply None (codes """" ++ s ++ codes """") before after ++ after in
  before = [] /\ after = codes """b""" /\ s = codes "a" /\ put = codes """a""b""".
Proof. exists (codes "a"), [], (codes """b"""). repeat split. Qed.
Print Assumptions C187_quotes_refuted.
(** C187 fails: quotes in the name of a field are not escaped. *)
Theorem C187_fields_refuted : exists f, In 34 f /\ value_apply (Some (f, false)) [] [] [] = codes "at(""a""b"")".
Proof. exists (codes "a""b"). split; [vm_compute; auto|reflexivity]. Qed.
Print Assumptions C187_fields_refuted.

(** Packages with two versions, of which one is also local; labels of the document and of bibliographies; tags. *)
Example C187_nonvacuous :
  package_completions false [(mkSpec 1 2 3, 0); (mkSpec 1 1 1, 1)] [(mkSpec 1 2 4, 2); (mkSpec 1 2 3, 3)] = [(mkSpec 1 1 1, 1); (mkSpec 1 2 4, 2)]
  /\ package_completions true [(mkSpec 1 2 3, 0); (mkSpec 1 1 1, 1)] [(mkSpec 1 2 4, 2); (mkSpec 1 2 3, 3)] = [(mkSpec 1 1 1, 1); (mkSpec 1 2 4, 2); (mkSpec 1 2 3, 0)]
  /\ label_completions true false (codes "#cite(") (codes ")") [(codes "a", None); (codes "k", Some (codes "Title"))] 1 = [(Title (codes "Title"), codes "<k>"); (Name (codes "k"), codes "<k>")]
  /\ label_completions false false (codes "<") (codes ">") [(codes "a", None); (codes "a", None)] 2 = [(Name (codes "a"), codes "a")]
  /\ raw_completions (fun t => negb (existsb (fun c => c =? 43) t)) (fun t => map (fun c => if c <? 97 then c + 32 else c) t) [(codes "CX", [codes "c+"])] = [(codes "CX", codes "cx", [codes "cx"])]
  /\ recent (fun _ => 1) 2 [1; 2; 3] [2; 3].
Proof.
  split; [reflexivity|]. split; [reflexivity|]. split; [reflexivity|]. split; [reflexivity|]. split; [vm_compute; reflexivity|].
  exact (window_recent (fun _ => 1) 2 [1; 2; 3]).
Qed.
