(** Theorems about plain documentation, links and summaries of fonts (C186). *)
From Coq Require Import String Ascii List Arith NArith Bool Lia Sorted.
From Verif Require Import UpModel UpSpec UpProof.
Import ListNotations.

Lemma tag_ne : codes "```example" <> [].
Proof. vm_compute. discriminate. Qed.
(** C186: exactly what documentation is shown as: the tags of examples are replaced; then raw text loses braces and brackets around it, links get their destinations, and all else stays, whatever is not closed. *)
Theorem C186_plain : forall def d o,
  plain_docs_sentence def d = o <-> exists e, replaced (codes "```example") (codes "```typ") d e /\ reads (target def) false e o.
Proof.
  intros def d o. unfold plain_docs_sentence. change lit with codes.
  assert (R : replaced (codes "```example") (codes "```typ") d (replace (length d) (codes "```example") (codes "```typ") d)) by (apply replace_spec; [exact tag_ne|reflexivity]).
  split.
  - intros <-. eexists. split; [exact R|]. apply scan_reads. lia.
  - intros (e & R' & H). rewrite (replaced_one _ _ tag_ne _ _ R _ R'). eapply reads_scan; [exact H|lia].
Qed.
Print Assumptions C186_plain.
(** C186: text without raw text and brackets is shown as it is. *)
Theorem C186_same : forall def d, ~ In 96 d -> ~ In 91 d -> plain_docs_sentence def d = d.
Proof.
  intros def d N96 N91. apply C186_plain. exists d. split.
  - clear N91. induction d as [|c d IH]; [constructor|]. constructor; [|apply IH; intros I; apply N96; now right]. intros t E. apply N96. rewrite E. now left.
  - induction d as [|c d IH]; [constructor|]. constructor; [intros ->; apply N96; now left|intros ->; apply N91; now left|reflexivity|]. apply IH; intros I; [apply N96|apply N91]; now right.
Qed.
Print Assumptions C186_same.
(** C186: exactly where links lead: fragments and addresses stay; otherwise what is before the slashes is a known destination or a name of the library, and the rest follows. *)
Theorem C186_resolve : forall def base link r, resolve def link base = Some r <-> leads def base link r.
Proof. intros. apply resolve_spec. Qed.
Print Assumptions C186_resolve.
(** C186: an address that was made ends in a slash or has a fragment or a query; the destination is never left out. *)
Theorem C186_ended : forall def link, (absolute link -> target def link = link) /\ (~ absolute link -> ended (target def link) \/ target def link = codes "https://typst.app/docs/404.html").
Proof.
  intros def link. unfold target. split.
  - intros A. now rewrite (proj2 (resolve_spec def link _ link) (L_absolute _ _ _ A)).
  - intros N. destruct (resolve def link (lit "https://typst.app/docs/")) as [r|] eqn:E; [left|now right]. apply resolve_spec in E. destruct E as [l A|head k tail route full r _ _ _ _ _ _ [[X ->]|[_ ->]]]; [contradiction|exact X|].
    right. right. now exists full.
Qed.
Print Assumptions C186_ended.
(** C186 fails: a link of documentation to another file leads to a page that says there is none, if the library has no such name. *)
Theorem C186_links_refuted : exists link, forall def, (forall base, def link base = None) ->
  plain_docs_sentence def (codes "[a](" ++ link ++ codes ")") = codes "[a](https://typst.app/docs/404.html)".
Proof.
  exists (codes "other.md"). intros def D. unfold plain_docs_sentence. change lit with codes.
  replace (replace _ _ _ _) with (codes "[a](other.md)") by (vm_compute; reflexivity).
  assert (T : target def (codes "other.md") = codes "https://typst.app/docs/404.html").
  { unfold target, resolve. change (strip_prefix [35] (codes "other.md")) with (@None (list nat)). change (strip_prefix (lit "http") (codes "other.md")) with (@None (list nat)). cbn [orb].
    replace (split_link (codes "other.md")) with (codes "other.md", @nil nat) by (vm_compute; reflexivity).
    replace (resolve_known (codes "other.md") (lit "https://typst.app/docs/")) with (@None text) by (vm_compute; reflexivity). now rewrite D. }
  apply reads_scan; [|lia]. change (codes "[a](other.md)") with (91 :: 97 :: [93; 40] ++ codes "other.md" ++ [41] ++ []).
  change (codes "[a](https://typst.app/docs/404.html)") with (91 :: 97 :: [93; 40] ++ codes "https://typst.app/docs/404.html" ++ [41] ++ []).
  apply R_open. apply R_char; [discriminate|discriminate|discriminate|]. rewrite <- T. apply R_dest; [|constructor]. vm_compute. intros H. repeat (destruct H as [H|H]; [discriminate|]). exact H.
Qed.
Print Assumptions C186_links_refuted.
(** C186: titles become fragments of the same length, of small letters, digits and hyphens only; fragments stay. *)
Theorem C186_fragments : forall title, length (urlify title) = length title
  /\ (forall c, In c (urlify title) -> 97 <= c <= 122 \/ 48 <= c <= 57 \/ c = 45)
  /\ (forall n c, nth_error title n = Some c -> exists d, nth_error (urlify title) n = Some d
       /\ (97 <= c <= 122 \/ 48 <= c <= 57 -> d = c) /\ (65 <= c <= 90 -> d = c + 32) /\ (~ (97 <= c <= 122 \/ 48 <= c <= 57 \/ 65 <= c <= 90) -> d = 45))
  /\ urlify (urlify title) = urlify title.
Proof.
  intros title. unfold urlify.
  assert (U : forall c, (97 <= c <= 122 \/ 48 <= c <= 57 -> url_char c = c) /\ (65 <= c <= 90 -> url_char c = c + 32) /\ (~ (97 <= c <= 122 \/ 48 <= c <= 57 \/ 65 <= c <= 90) -> url_char c = 45)).
  { intros c. unfold url_char. destruct (Nat.leb_spec 65 c), (Nat.leb_spec c 90); cbn [andb]; cbv zeta.
    2-4: destruct (Nat.leb_spec 97 c), (Nat.leb_spec c 122), (Nat.leb_spec 48 c), (Nat.leb_spec c 57); cbn [andb orb]; lia.
    destruct (Nat.leb_spec 97 (c + 32)), (Nat.leb_spec (c + 32) 122), (Nat.leb_spec 48 (c + 32)), (Nat.leb_spec (c + 32) 57); cbn [andb orb]; lia. }
  assert (R : forall c, 97 <= url_char c <= 122 \/ 48 <= url_char c <= 57 \/ url_char c = 45) by (intros c; specialize (U c); lia).
  split; [apply map_length|]. split; [|split].
  - intros c I. apply in_map_iff in I. destruct I as (x & <- & _). apply R.
  - intros n c E. exists (url_char c). split; [now apply map_nth_error|]. apply U.
  - rewrite map_map. apply map_ext. intros c. pose proof (R c) as Q. pose proof (U (url_char c)) as V. lia.
Qed.
Print Assumptions C186_fragments.
(** C186, in part: a family is summarized by the number of its variants, its least weight and whether it has italics.  (Missing: the greatest weight is that of the last variant in order, see [C186_weights_refuted]; it is the greatest if all have one style.) *)
Theorem C186_summary_partial : forall l, l <> [] -> (forall v, In v l -> (v_weight v <= 65535)%N) ->
  let s := summarize l in
  s_count s = length l
  /\ (exists v, In v l /\ s_min s = v_weight v) /\ (forall v, In v l -> (s_min s <= v_weight v)%N)
  /\ (s_italic s = true <-> exists v, In v l /\ v_style v = Italic)
  /\ (exists v, In v l /\ s_max s = v_weight v /\ forall w, In w l -> below w v)
  /\ ((forall v w, In v l -> In w l -> v_style v = v_style w) -> forall v, In v l -> (v_weight v <= s_max s)%N).
Proof.
  intros l NE LE. cbv zeta. unfold summarize. destruct (weigh_all (sort l) (mkSummary (length (sort l)) 65535%N 0%N false)) as (C & M & A & E & T). cbn [s_count s_min s_max s_italic] in C, M, E, T.
  assert (X : exists v, In v l /\ s_max (fold_left weigh (sort l) (mkSummary (length (sort l)) 65535%N 0%N false)) = v_weight v /\ forall w, In w l -> below w v).
  { pose proof (sort_sorted l) as S. pose proof (sort_in l) as SI. destruct (sort l) as [|m h _] using rev_ind.
    - destruct l as [|x l]; [congruence|]. exfalso. apply (SI x). now left.
    - exists m. split; [apply SI, in_or_app; right; now left|]. split; [apply weigh_max|]. intros w I. apply SI in I. revert I. now apply sorted_last. }
  split; [now rewrite C, sort_length|]. split; [|split; [|split; [|split; [exact X|]]]].
  - destruct E as [E|(v & I & E)]; [|exists v; split; [now apply sort_in|assumption]]. destruct l as [|x l]; [congruence|]. exists x. split; [now left|].
    assert (I : In x (sort (x :: l))) by (apply sort_in; now left). pose proof (A x I) as A'. pose proof (LE x (or_introl eq_refl)). lia.
  - intros v I. apply A. now apply sort_in.
  - rewrite T. split; [intros [H|(v & I & H)]; [discriminate|]|intros (v & I & H); right]; exists v; (split; [now apply sort_in|assumption]).
  - intros ST v I. destruct X as (m & Im & -> & B). specialize (B v I). unfold below in B. rewrite (ST v m I Im) in B. destruct B as [B|(_ & [B|[B _]])]; lia.
Qed.
Print Assumptions C186_summary_partial.
(** C186 fails: a weight above the one shown as the greatest. *)
Theorem C186_weights_refuted : exists l v, In v l /\ (s_max (summarize l) < v_weight v)%N /\ s_min (summarize l) = s_max (summarize l).
Proof. exists [mkVariant Normal 700 0; mkVariant Italic 400 0], (mkVariant Normal 700 0). split; [now left|]. split; vm_compute; reflexivity. Qed.
Print Assumptions C186_weights_refuted.

(** A library with a name "cite", a text with a tag, raw text in braces, a link and a reference. *)
Definition cites (h b : text) : option text := if text_eqb h (lit "$cite") then Some (b ++ lit "reference/model/cite") else None.
Example C186_nonvacuous :
  plain_docs_sentence cites (codes "a `{b}` [c]($cite) [d][e](f) ]( ```example x``` `y") = codes "a `b` [c](https://typst.app/docs/reference/model/cite/) [d][e](f) ]( ```typ x``` `y`"
  /\ leads cites (codes "B/") (codes "$cite//x#y") (codes "B/reference/model/cite/x#y")
  /\ resolve cites (codes "$guides") (codes "B/") = Some (codes "B/guides/")
  /\ urlify (codes "To Dict.2") = codes "to-dict-2"
  /\ summarize [mkVariant Normal 700 0; mkVariant Italic 400 0; mkVariant Italic 900 0] = mkSummary 3 400 900 true.
Proof.
  split; [vm_compute; reflexivity|]. split; [apply C186_resolve; vm_compute; reflexivity|]. split; [vm_compute; reflexivity|]. split; vm_compute; reflexivity.
Qed.
