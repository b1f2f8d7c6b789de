(** Proofs about links. *)
From Coq Require Import String.
From Coq Require Import List Arith NArith Bool Lia.
From Verif Require Import DigModel PageModel PathModel PathSpec EntryModel LocModel LocProof LinkModel LinkSpec.
Import ListNotations.
Local Open Scope nat_scope.

Lemma placed_in cs : forall off o c, In (o, c) (placed off cs) <-> child off cs o c.
Proof.
  unfold child. induction cs as [|d cs IH]; intros off o c; cbn [placed In].
  - split; [intros []|intros (pre & post & H & _); destruct pre; discriminate].
  - rewrite IH. split.
    + intros [H|(pre & post & -> & ->)]; [injection H as <- <-; exists [], cs; cbn; split; [auto|lia]|]. exists (d :: pre), post. split; [auto|]. cbn. unfold total. lia.
    + intros ([|e pre] & post & H & ->); injection H as -> ->; [left; f_equal; cbn; lia|]. right. exists pre, post. split; [auto|]. cbn. unfold total. lia.
Qed.
Lemma placed_app a : forall off b, placed off (a ++ b) = placed off a ++ placed (off + total a) b.
Proof. induction a as [|x a IH]; intros off b; cbn [placed app]; [cbn; f_equal; lia|]. rewrite IH. cbn [app]. f_equal. f_equal. f_equal. unfold total. cbn. lia. Qed.
Lemma placed_snd cs : forall off, map snd (placed off cs) = cs.
Proof. induction cs as [|c cs IH]; intros off; cbn; [auto|]. f_equal. auto. Qed.
Lemma find_split {A} (f : A -> bool) l x : find f l = Some x <-> exists a b, l = a ++ x :: b /\ f x = true /\ forall y, In y a -> f y = false.
Proof.
  split.
  - induction l as [|y l IH]; cbn; [discriminate|]. destruct (f y) eqn:E; [intros H; injection H as ->; exists [], l; split; [auto|split; [auto|intros z []]]|]. intros H. destruct (IH H) as (a & b & -> & Hx & Ha). exists (y :: a), b. split; [auto|]. split; [auto|]. intros z [<-|Hz]; auto.
  - intros (a & b & -> & Hx & Ha). induction a as [|y a IH]; cbn; [rewrite Hx; auto|]. rewrite (Ha y) by (left; auto). apply IH. intros z Hz. apply Ha. right. auto.
Qed.
Lemma placed_split cs off a x b : placed off cs = a ++ x :: b -> exists pre post, cs = pre ++ snd x :: post /\ a = placed off pre /\ fst x = off + total pre /\ b = placed (fst x + len (snd x)) post.
Proof.
  revert off a. induction cs as [|c cs IH]; intros off a H; [destruct a; discriminate|]. cbn in H. destruct a as [|y a]; injection H as <- H.
  - exists [], cs. cbn. split; [auto|]. split; [auto|]. split; [lia|auto].
  - destruct (IH _ _ H) as (pre & post & -> & -> & Hf & Hb). exists (c :: pre), post. split; [auto|]. split; [auto|]. split; [rewrite Hf; unfold total; cbn; lia|auto].
Qed.
Lemma first_ok f off cs o c : first_of f (placed off cs) = Some (o, c) <-> first_child f off cs o c.
Proof.
  unfold first_of, first_child. rewrite find_split. split.
  - intros (a & b & H & Hx & Ha). destruct (placed_split _ _ _ _ _ H) as (pre & post & -> & -> & Ho & _). cbn in *. exists pre, post. split; [auto|]. split; [auto|]. split; [auto|]. intros x Hx'.
    rewrite <- (placed_snd pre off) in Hx'. apply in_map_iff in Hx'. destruct Hx' as (y & <- & Hy). apply (Ha y Hy).
  - intros (pre & post & -> & -> & Hc & Hp). rewrite placed_app. cbn [placed]. eexists _, _. split; [reflexivity|]. split; [auto|]. intros y Hy. apply Hp. rewrite <- (placed_snd pre off). apply in_map. auto.
Qed.
Lemma last_ok f off cs o c : last_of f (placed off cs) = Some (o, c) <-> last_child f off cs o c.
Proof.
  unfold last_of, last_child. rewrite find_split. split.
  - intros (a & b & H & Hx & Ha). assert (H' : placed off cs = rev b ++ (o, c) :: rev a).
    { rewrite <- (rev_involutive (placed off cs)), H. rewrite rev_app_distr. cbn. rewrite <- app_assoc. auto. }
    destruct (placed_split _ _ _ _ _ H') as (pre & post & -> & _ & Ho & Hb). cbn in *. exists pre, post. split; [auto|]. split; [auto|]. split; [auto|]. intros x Hx'.
    rewrite <- (placed_snd post (o + len c)) in Hx'. rewrite <- Hb in Hx'. apply in_map_iff in Hx'. destruct Hx' as (y & <- & Hy). apply (Ha y). apply in_rev. auto.
  - intros (pre & post & -> & -> & Hc & Hp). rewrite placed_app. cbn [placed]. rewrite rev_app_distr. cbn [rev]. rewrite <- app_assoc. cbn [app]. eexists _, _. split; [reflexivity|]. split; [auto|].
    intros y Hy. apply Hp. apply in_rev in Hy. rewrite <- (placed_snd post (off + total pre + len c)). apply in_map. auto.
Qed.
Lemma first_none f off cs : first_of f (placed off cs) = None -> forall o c, ~ first_child f off cs o c.
Proof. intros H o c Hc. apply first_ok in Hc. congruence. Qed.

Section One.
Variables (spec_ok : text -> bool) (file : nat).
Lemma at_sign content : match content with c :: _ => N.eqb c 64 | [] => false end = true <-> exists r, content = 64%N :: r.
Proof. destruct content as [|c r]; [split; [discriminate|intros (r & H); discriminate]|]. rewrite N.eqb_eq. split; [intros ->; eauto|intros (r' & H); injection H as -> _; auto]. Qed.
Lemma path_str_ok o n x : In x (path_str spec_ok file (o, n)) <-> exists content l, n = Leaf (LStr content) l /\ link_of spec_ok file o l content x.
Proof.
  unfold path_str, link_of. cbn [snd fst]. destruct n as [[content|name| | |] l|k cs]; try (split; [intros []|intros (c & l' & H & _); discriminate]).
  assert (A := at_sign content). split.
  - intros H. exists content, l. split; [auto|]. destruct (Nat.leb_spec (o + l - 1) (o + 1)) as [|Hl]; [contradiction|]. destruct (match content with c :: _ => N.eqb c 64 | [] => false end) eqn:E.
    + destruct (spec_ok content) eqn:S; [|contradiction]. destruct H as [<-|[]]. cbn. split; [auto|]. split; [auto|]. split; [lia|]. left. split; [apply A; auto|auto].
    + destruct H as [<-|[]]. cbn. split; [auto|]. split; [auto|]. split; [lia|]. right. split; [|auto]. intros r Hr. assert (X : false = true) by (apply A; eauto). discriminate.
  - intros (content' & l' & H & H1 & H2 & H3 & H4). injection H as <- <-. destruct (Nat.leb_spec (o + l - 1) (o + 1)) as [|Hl]; [lia|]. destruct x as [xs xe xt]. cbn in *. subst xs xe. destruct H4 as [(R & S & ->)|(R & ->)].
    + rewrite (proj2 A R), S. left. auto.
    + destruct (match content with c :: _ => N.eqb c 64 | [] => false end) eqn:E; [|left; auto]. destruct (proj1 A eq_refl) as (r & Hr). exfalso. apply (R r Hr).
Qed.
Lemma path_expr_ok o n x : In x (path_expr spec_ok file (o, n)) <-> exists so content l, string_of o n so content l /\ link_of spec_ok file so l content x.
Proof.
  unfold path_expr, string_of. cbn [snd fst]. destruct n as [[content|name| | |] l|k cs].
  - rewrite path_str_ok. split.
    + intros (c & l' & H & Hx). exists o, c, l'. auto.
    + intros (so & c & l' & [(<- & H)|(cs & H & _)] & Hx); [eauto|discriminate].
  - split; [intros []|intros (so & c & l' & [(_ & H)|(cs & H & _)] & _); discriminate].
  - split; [intros []|intros (so & c & l' & [(_ & H)|(cs & H & _)] & _); discriminate].
  - split; [intros []|intros (so & c & l' & [(_ & H)|(cs & H & _)] & _); discriminate].
  - split; [intros []|intros (so & c & l' & [(_ & H)|(cs & H & _)] & _); discriminate].
  - assert (G : In x (flat_map (path_str spec_ok file) (placed o cs)) <-> exists so content l, child o cs so (Leaf (LStr content) l) /\ link_of spec_ok file so l content x).
    { rewrite in_flat_map. split.
      - intros ([so n] & Hi & Hx). apply placed_in in Hi. apply path_str_ok in Hx. destruct Hx as (content & l & -> & Hx). eauto.
      - intros (so & content & l & Hc & Hx). exists (so, Leaf (LStr content) l). split; [apply placed_in; auto|]. apply path_str_ok. eauto. }
    destruct k; try (split; [intros []|intros (so & c & l' & [(_ & H)|(cs' & H & _)] & _); discriminate]). rewrite G. split.
    + intros (so & content & l & Hc & Hx). exists so, content, l. split; [right; exists cs; auto|auto].
    + intros (so & content & l & [(_ & H)|(cs' & H & Hc)] & Hx); [discriminate|]. injection H as <-. eauto.
Qed.
Definition shown_at (o : nat) (c : node) (x : link) : Prop := exists so content l, string_of o c so content l /\ link_of spec_ok file so l content x.
Lemma path_opt_last off cs x : In x (path_opt spec_ok file (last_of is_expr (placed off cs))) <-> exists o c, last_child is_expr off cs o c /\ shown_at o c x.
Proof.
  destruct (last_of is_expr (placed off cs)) as [[o c]|] eqn:E; cbn [path_opt].
  - rewrite path_expr_ok. split; [intros H; exists o, c; split; [apply last_ok; auto|auto]|]. intros (o' & c' & H & Hx). apply last_ok in H. rewrite E in H. injection H as <- <-. auto.
  - split; [intros []|]. intros (o' & c' & H & _). apply last_ok in H. congruence.
Qed.
Lemma ident_ok n x : ident n = Some x <-> exists l, n = Leaf (LIdent x) l.
Proof. destruct n as [[]|]; cbn; split; try discriminate; try (intros (l & H); discriminate); [intros H; injection H as ->; eauto|intros (l & H); injection H as -> _; auto]. Qed.
Lemma named_ok key o n x : In x (named_links spec_ok file key (o, n)) <-> exists ncs o2 l oc c, n = Inner INamed ncs /\ first_child is_ident o ncs o2 (Leaf (LIdent key) l) /\ last_child is_expr o ncs oc c /\ shown_at oc c x.
Proof.
  unfold named_links. cbn [snd fst]. destruct n as [k l|[] cs]; try (split; [intros []|intros (ncs & o2 & l' & oc & c & H & _); discriminate]).
  destruct (first_of is_ident (placed o cs)) as [[o2 i]|] eqn:F.
  - assert (Fc := F). apply first_ok in Fc. assert (Hi : is_ident i = true) by (destruct Fc as (pre & post & _ & _ & H & _); auto). unfold is_ident in Hi. destruct (ident i) as [name|] eqn:I; [|discriminate]. assert (I' := I). apply ident_ok in I'. destruct I' as (l & ->). destruct (eqb name key) eqn:K.
    + apply eqb_ok in K. subst name. rewrite path_opt_last. split.
      * intros (oc & c & H & Hx). exists cs, o2, l, oc, c. auto.
      * intros (ncs & o2' & l' & oc & c & H & _ & H2 & Hx). injection H as <-. eauto.
    + apply eqb_no in K. split; [intros []|]. intros (ncs & o2' & l' & oc & c & H & H1 & _). injection H as <-. apply first_ok in H1. rewrite F in H1. injection H1 as _ H1 _. contradiction.
  - split; [intros []|]. intros (ncs & o2' & l' & oc & c & H & H1 & _). injection H as <-. exfalso. apply (first_none _ _ _ F _ _ H1).
Qed.
Lemma filter_head {A} (f : A -> bool) l : match filter f l with [] => find f l = None | x :: _ => find f l = Some x end.
Proof. induction l as [|x l IH]; cbn; [auto|]. destruct (f x); auto. Qed.
Lemma reader_ok off args key pos x : In x (analyze_reader spec_ok file (placed off args) key pos) <-> exists o c, path_arg off args key pos o c /\ shown_at o c x.
Proof.
  unfold analyze_reader, path_arg. pose proof (filter_head (fun x => is_item (snd x)) (placed off args)) as Hf. destruct (filter (fun x => is_item (snd x)) (placed off args)) as [|[o c] items] eqn:E.
  - split; [intros []|]. intros (o & c & [(_ & H & _)|(ncs & o1 & o2 & l & H & _)] & _).
    + apply first_ok in H. unfold first_of in H. congruence.
    + apply placed_in in H. assert (Hi : In (o1, Inner INamed ncs) (filter (fun x => is_item (snd x)) (placed off args))) by (apply filter_In; auto). rewrite E in Hi. destruct Hi.
  - assert (Hfc : first_child is_item off args o c) by (apply first_ok; auto). rewrite in_app_iff. split.
    + intros [H|H].
      * destruct pos; [|contradiction]. destruct (is_expr c) eqn:X; cbn [andb snd] in H; rewrite ?X in H; [|contradiction]. apply path_expr_ok in H. exists o, c. split; [left; auto|auto].
      * apply in_flat_map in H. destruct H as ([o1 n] & Hi & Hx). rewrite <- E in Hi. apply filter_In in Hi. destruct Hi as (Hi & _). apply placed_in in Hi. apply named_ok in Hx. destruct Hx as (ncs & o2 & l & oc & d & -> & H1 & H2 & Hx). exists oc, d. split; [right; exists ncs, o1, o2, l; auto|auto].
    + intros (o' & c' & [(-> & H & X)|(ncs & o1 & o2 & l & H & H1 & H2)] & Hx).
      * left. apply first_ok in H. unfold first_of in H. rewrite Hf in H. injection H as <- <-. cbn [andb snd]. rewrite X. apply path_expr_ok. auto.
      * right. apply in_flat_map. exists (o1, Inner INamed ncs). split; [rewrite <- E; apply filter_In; split; [apply placed_in; auto|auto]|]. apply named_ok. exists ncs, o2, l, o', c'. auto.
Qed.
Lemma callee_ok off cs f : callee (first_of is_expr (placed off cs)) = Some f <-> calls off cs f.
Proof.
  unfold calls. destruct (first_of is_expr (placed off cs)) as [[o c]|] eqn:E.
  - assert (U : forall o' c', first_child is_expr off cs o' c' <-> o' = o /\ c' = c) by (intros o' c'; rewrite <- first_ok, E; split; [intros H; injection H as -> ->; auto|intros (-> & ->); auto]).
    assert (G : (exists o0 c0, first_child is_expr off cs o0 c0 /\ ((exists l, c0 = Leaf (LIdent f) l) \/ exists fcs o1 l1 o2 l2, c0 = Inner IField fcs /\ first_child is_expr o0 fcs o1 (Leaf (LIdent (lit "std")) l1) /\ last_child is_ident o0 fcs o2 (Leaf (LIdent f) l2))) <->
      ((exists l, c = Leaf (LIdent f) l) \/ exists fcs o1 l1 o2 l2, c = Inner IField fcs /\ first_child is_expr o fcs o1 (Leaf (LIdent (lit "std")) l1) /\ last_child is_ident o fcs o2 (Leaf (LIdent f) l2))).
    { split; [intros (o0 & c0 & H & R); apply U in H; destruct H as (-> & ->); auto|]. intros R. exists o, c. split; [apply U; auto|auto]. }
    rewrite G. clear G. destruct c as [[content|name| | |] l|k fcs]; cbn [callee].
    + split; [discriminate|]. intros [(l' & H)|(fcs & o1 & l1 & o2 & l2 & H & _)]; discriminate.
    + split; [intros H; injection H as ->; eauto|]. intros [(l' & H)|(fcs & o1 & l1 & o2 & l2 & H & _)]; [injection H as -> _; auto|discriminate].
    + split; [discriminate|]. intros [(l' & H)|(fcs & o1 & l1 & o2 & l2 & H & _)]; discriminate.
    + split; [discriminate|]. intros [(l' & H)|(fcs & o1 & l1 & o2 & l2 & H & _)]; discriminate.
    + split; [discriminate|]. intros [(l' & H)|(fcs & o1 & l1 & o2 & l2 & H & _)]; discriminate.
    + assert (X : k <> IField -> (callee (Some (o, Inner k fcs)) = Some f <-> ((exists l, Inner k fcs = Leaf (LIdent f) l) \/ exists fcs0 o1 l1 o2 l2, Inner k fcs = Inner IField fcs0 /\ first_child is_expr o fcs0 o1 (Leaf (LIdent (lit "std")) l1) /\ last_child is_ident o fcs0 o2 (Leaf (LIdent f) l2)))).
      { intros Hk. assert (Y : callee (Some (o, Inner k fcs)) = None) by (destruct k; auto; contradiction). rewrite Y. split; [discriminate|]. intros [(l' & H)|(fcs' & o1 & l1 & o2 & l2 & H & _)]; [discriminate|injection H as -> _; contradiction]. }
      destruct k; try (apply X; discriminate). clear X. split.
      * destruct (first_of is_expr (placed o fcs)) as [[o1 t]|] eqn:F; [|discriminate]. destruct (last_of is_ident (placed o fcs)) as [[o2 g]|] eqn:L; [|discriminate]. destruct (ident t) as [tn|] eqn:I; [|discriminate]. destruct (eqb tn (lit "std")) eqn:K; [|discriminate]. intros Ig.
        apply eqb_ok in K. subst tn. apply ident_ok in I. destruct I as (l1 & ->). apply ident_ok in Ig. destruct Ig as (l2 & ->). right. exists fcs, o1, l1, o2, l2. split; [auto|]. split; [apply first_ok; auto|apply last_ok; auto].
      * intros [(l' & H)|(fcs' & o1 & l1 & o2 & l2 & H & H1 & H2)]; [discriminate|]. injection H as <-. apply first_ok in H1. apply last_ok in H2. rewrite H1, H2. cbn [ident]. rewrite eqb_refl. auto.
  - cbn [callee]. split; [discriminate|]. intros (o & c & H & _). exfalso. apply (first_none _ _ _ E _ _ H).
Qed.
Lemma args_ok off cs : (exists oa args, last_of is_args (placed off cs) = Some (oa, Inner IArgs args)) \/ last_of is_args (placed off cs) = None.
Proof.
  destruct (last_of is_args (placed off cs)) as [[oa n]|] eqn:E; [|auto]. left. apply last_ok in E. destruct E as (_ & _ & _ & _ & H & _). destruct n as [k l|[] args]; try discriminate. eauto.
Qed.
Lemma reads_cases f key pos : reads_path f key pos <->
  (f = lit "raw" /\ pos = false /\ (key = lit "theme" \/ key = lit "syntaxes")) \/
  (f = lit "bibliography" /\ (pos = false /\ (key = lit "cite" \/ key = lit "style") \/ pos = true /\ key = lit "path")) \/
  (In f [lit "cbor"; lit "csv"; lit "image"; lit "read"; lit "json"; lit "yaml"; lit "xml"] /\ key = lit "path" /\ pos = true).
Proof.
  split.
  - intros H. destruct H; [left; auto|left; auto|right; left; auto 6|right; left; auto 6|right; left; auto 6|right; right; auto].
  - intros [(-> & -> & [->| ->])|[(-> & [(-> & [->| ->])|(-> & ->)])|(H & -> & ->)]]; [apply reads_theme|apply reads_syntaxes|apply reads_cite|apply reads_style|apply reads_bib|apply reads_data; auto].
Qed.
Lemma call_ok off cs x : In x (analyze_call spec_ok file off cs) <->
  exists f key pos oa args o c, calls off cs f /\ reads_path f key pos /\ last_child is_args off cs oa (Inner IArgs args) /\ path_arg oa args key pos o c /\ shown_at o c x.
Proof.
  unfold analyze_call. destruct (args_ok off cs) as [(oa & args & E)|E].
  - rewrite E. assert (U : forall oa' args', last_child is_args off cs oa' (Inner IArgs args') <-> oa' = oa /\ args' = args) by (intros oa' args'; rewrite <- last_ok, E; split; [intros H; injection H as -> ->; auto|intros (-> & ->); auto]).
    destruct (callee (first_of is_expr (placed off cs))) as [f|] eqn:C.
    2: { split; [intros []|]. intros (f & key & pos & oa' & args' & o & c & H & _). apply callee_ok in H. congruence. }
    assert (G : (exists f0 key pos oa0 args0 o c, calls off cs f0 /\ reads_path f0 key pos /\ last_child is_args off cs oa0 (Inner IArgs args0) /\ path_arg oa0 args0 key pos o c /\ shown_at o c x) <->
      exists key pos, reads_path f key pos /\ In x (analyze_reader spec_ok file (placed oa args) key pos)).
    { split.
      - intros (f0 & key & pos & oa' & args' & o & c & H1 & H2 & H3 & H4 & H5). apply callee_ok in H1. rewrite C in H1. injection H1 as <-. apply U in H3. destruct H3 as (-> & ->). exists key, pos. split; [auto|]. apply reader_ok. eauto.
      - intros (key & pos & H & Hx). apply reader_ok in Hx. destruct Hx as (o & c & H1 & H2). exists f, key, pos, oa, args, o, c. split; [apply callee_ok; auto|]. split; [auto|]. split; [apply U; auto|auto]. }
    rewrite G. clear G. destruct (eqb f (lit "raw")) eqn:E1; [apply eqb_ok in E1; subst f|apply eqb_no in E1; destruct (eqb f (lit "bibliography")) eqn:E2; [apply eqb_ok in E2; subst f|apply eqb_no in E2]].
    + rewrite in_app_iff. split.
      * intros [H|H]; [exists (lit "theme"), false|exists (lit "syntaxes"), false]; (split; [constructor|auto]).
      * intros (key & pos & H & Hx). apply reads_cases in H. destruct H as [(_ & -> & [->| ->])|[(H & _)|(H & _)]]; [auto|auto|discriminate|]. exfalso. cbn in H. intuition discriminate.
    + rewrite !in_app_iff. split.
      * intros [H|[H|H]]; [exists (lit "cite"), false|exists (lit "style"), false|exists (lit "path"), true]; (split; [constructor|auto]).
      * intros (key & pos & H & Hx). apply reads_cases in H. destruct H as [(H & _)|[(_ & [(-> & [->| ->])|(-> & ->)])|(H & _)]]; [discriminate|auto|auto|auto|]. exfalso. cbn in H. intuition discriminate.
    + destruct (existsb (eqb f) _) eqn:E3.
      * apply existsb_exists in E3. destruct E3 as (g & Hg & Eg). apply eqb_ok in Eg. subst g. split; [intros H; exists (lit "path"), true; split; [apply reads_data; auto|auto]|].
        intros (key & pos & H & Hx). apply reads_cases in H. destruct H as [(H & _)|[(H & _)|(_ & -> & ->)]]; [contradiction|contradiction|auto].
      * split; [intros []|]. intros (key & pos & H & Hx). apply reads_cases in H. destruct H as [(H & _)|[(H & _)|(H & _)]]; [contradiction|contradiction|].
        exfalso. assert (X : existsb (eqb f) [lit "cbor"; lit "csv"; lit "image"; lit "read"; lit "json"; lit "yaml"; lit "xml"] = true) by (apply existsb_exists; exists f; split; [auto|apply eqb_refl]). congruence.
  - rewrite E. split.
    + assert (Z : forall k p, analyze_reader spec_ok file [] k p = []) by auto. rewrite !Z. destruct (callee (first_of is_expr (placed off cs))) as [f|]; [|intros []]. destruct (eqb f (lit "raw")); [intros []|]. destruct (eqb f (lit "bibliography")); [intros []|]. match goal with |- context [existsb ?a ?b] => destruct (existsb a b) end; intros [].
    + intros (f & key & pos & oa & args & o & c & _ & _ & H & _). apply last_ok in H. congruence.
Qed.
Lemma names_ok off n x : (exists o c, names off n o c /\ shown_at o c x) <->
  match n with Inner ICall cs => In x (analyze_call spec_ok file off cs) | Inner IInclude cs => In x (path_opt spec_ok file (last_of is_expr (placed off cs))) | _ => False end.
Proof.
  unfold names. split.
  - intros (o & c & [(cs & -> & H)|(cs & f & key & pos & oa & args & -> & H1 & H2 & H3 & H4)] & Hx); [apply path_opt_last; eauto|apply call_ok; exists f, key, pos, oa, args, o, c; auto].
  - destruct n as [k l|k cs]; [intros []|]. destruct k; try (intros []; fail).
    + intros H. apply call_ok in H. destruct H as (f & key & pos & oa & args & o & c & H1 & H2 & H3 & H4 & H5). exists o, c. split; [|auto]. right. exists cs, f, key, pos, oa, args. auto.
    + intros H. apply path_opt_last in H. destruct H as (o & c & H & Hx). exists o, c. split; [|auto]. left. eauto.
Qed.
Lemma node_ind' (P : node -> Prop) : (forall k l, P (Leaf k l)) -> (forall k cs, Forall P cs -> P (Inner k cs)) -> forall n, P n.
Proof.
  intros HL HI. fix IH 1. intros [k l|k cs]; [apply HL|]. apply HI. induction cs as [|c cs IHc]; constructor; [apply IH|auto].
Qed.
Lemma collect_ok x : forall n off, In x (collect_links spec_ok file off n) <-> exists off' n' o c, inside off n off' n' /\ names off' n' o c /\ shown_at o c x.
Proof.
  induction n as [k l|k cs IH] using node_ind'; intros off.
  - cbn. split; [intros []|]. intros (off' & n' & o & c & H & Hn & Hx). inversion H; subst.
    assert (X := proj1 (names_ok off' (Leaf k l) x)). apply X. eauto.
  - assert (G : forall off, In x ((fix go (off : nat) (cs : list node) : list link := match cs with [] => [] | c :: cs' => collect_links spec_ok file off c ++ go (off + len c) cs' end) off cs) <->
      exists pre d post off' n' o c, cs = pre ++ d :: post /\ inside (off + total pre) d off' n' /\ names off' n' o c /\ shown_at o c x).
    { clear k off. induction IH as [|d cs Hd _ IHc]; intros off.
      - split; [intros []|]. intros (pre & d & post & _ & _ & _ & _ & H & _). destruct pre; discriminate.
      - rewrite in_app_iff, Hd, IHc. split.
        + intros [(off' & n' & o & c & H1 & H2 & H3)|(pre & e & post & off' & n' & o & c & -> & H1 & H2 & H3)].
          * exists [], d, cs, off', n', o, c. split; [auto|]. split; [cbn; rewrite Nat.add_0_r; auto|auto].
          * exists (d :: pre), e, post, off', n', o, c. split; [auto|]. split; [|auto]. replace (off + total (d :: pre)) with (off + len d + total pre) by (unfold total; cbn; lia). auto.
        + intros ([|e' pre] & e & post & off' & n' & o & c & H & H1 & H2 & H3); injection H as -> ->.
          * left. exists off', n', o, c. cbn in H1. rewrite Nat.add_0_r in H1. auto.
          * right. exists pre, e, post, off', n', o, c. split; [auto|]. split; [|auto]. replace (off + total (e' :: pre)) with (off + len e' + total pre) in H1 by (unfold total; cbn; lia). auto. }
    cbn [collect_links]. rewrite in_app_iff, G. split.
    + intros [H|(pre & d & post & off' & n' & o & c & -> & H1 & H2 & H3)].
      * assert (Y : exists o c, names off (Inner k cs) o c /\ shown_at o c x) by (apply names_ok; destruct k; auto). destruct Y as (o & c & H1 & H2). exists off, (Inner k cs), o, c. split; [constructor|auto].
      * exists off', n', o, c. split; [apply inside_deeper; auto|auto].
    + intros (off' & n' & o & c & H & H2 & H3). inversion H; subst.
      * left. assert (Y := proj1 (names_ok off' (Inner k cs) x) (ex_intro _ o (ex_intro _ c (conj H2 H3)))). destruct k; auto.
      * right. exists pre, c0, post, off', n', o, c. auto.
Qed.
End One.
Lemma links_ok spec_ok file root x : In x (get_link_exprs spec_ok file root) <-> is_link spec_ok file root x.
Proof.
  unfold get_link_exprs, is_link. rewrite collect_ok. unfold shown_at. split.
  - intros (off & n & o & c & H1 & H2 & so & content & l & H3 & H4). exists off, n, o, c, so, l, content. auto.
  - intros (off & n & o & c & so & l & content & H1 & H2 & H3 & H4). exists off, n, o, c. split; [auto|]. split; [auto|]. exists so, content, l. auto.
Qed.
