(** C136-C141: completions. *)
From Coq Require Import List Arith NArith ZArith Bool Lia Permutation Sorted.
From Verif Require Import DigModel PageModel CompModel CompSpec CompProof CompEditProof.
Import ListNotations.
Local Open Scope nat_scope.

(** * C136: placeholders are numbered *)

(** The placeholders of a text, from left to right, get the numbers from one; all else stays. *)
Theorem C136_exact : forall t, exists ps e, marked t ps e /\ renders 1 ps e (to_lsp_snippet t).
Proof. exact to_lsp_ok. Qed.
Print Assumptions C136_exact.

(** There is one way to read the placeholders of a text. *)
Theorem C136_unique : forall t ps e ps' e', marked t ps e -> marked t ps' e' -> ps = ps' /\ e = e'.
Proof. intros t ps e ps' e' H H'. exact (marked_fun t ps e H ps' e' H'). Qed.
Print Assumptions C136_unique.

Theorem C136_plain : forall t, (forall x y, t = x ++ y -> ~ opens y) -> to_lsp_snippet t = t.
Proof.
  intros t H. assert (M : marked t [] t) by (constructor; auto). unfold to_lsp_snippet. rewrite (pieces_marked _ _ _ M). reflexivity.
Qed.
Print Assumptions C136_plain.

(** A placeholder that has a number already keeps it as text: [${x}_${2:2}] becomes [${1:x}_${2:2:2}]
    (of the default snippets, crates/tinymist-query/src/completion/snippet.rs:385,391). *)
Theorem C136_numbered_twice :
  to_lsp_snippet [36; 123; 120; 125; 95; 36; 123; 50; 58; 50; 125]%N = [36; 123; 49; 58; 120; 125; 95; 36; 123; 50; 58; 50; 58; 50; 125]%N.
Proof. vm_compute. reflexivity. Qed.
Print Assumptions C136_numbered_twice.

(** [f(${a})$${}${]: an opening without an end is left. *)
Example C136_nonvacuous :
  to_lsp_snippet [102; 40; 36; 123; 97; 125; 41; 36; 36; 123; 125; 36; 123]%N = [102; 40; 36; 123; 49; 58; 97; 125; 41; 36; 36; 123; 50; 58; 125; 36; 123]%N.
Proof. vm_compute. reflexivity. Qed.
Example C136_plain_nonvacuous : forall x y, [36; 123; 10; 125]%N = x ++ y -> ~ opens y.
Proof.
  intros x y E (a & r & Hi & Ey). rewrite Ey in E. unfold held in E. destruct x as [|x1 [|x2 [|x3 [|x4 [|]]]]]; cbn in E; try discriminate.
  injection E as E0. clear Ey. rename E0 into Ey. destruct a as [|a0 a]; cbn in Ey; [discriminate|]. injection Ey as <- _. destruct (Hi 10%N); [left; auto|congruence].
Qed.

(** * C137: what an item replaces *)

(** An identifier is replaced as a whole. *)
Theorem C137_ident : forall c src pre post s, on_ident c -> leaf_in c src pre post ->
  class_ c = Some Callee \/ at_ c = length pre + length (leaf_text c) \/ ~ in_arguments c ->
  replaced src (item_of c s) = pre ++ s ++ post.
Proof.
  intros c src pre post s Hi (-> & Ho & Ha) H. unfold item_of. rewrite (sel_ident c Hi), Ho.
  assert (X : negb (match class_ c with Some Callee => true | _ => false end) && negb (at_ c =? length pre + length (leaf_text c)) && arg_like (parents c) = false).
  { destruct H as [H|[H|H]].
    - rewrite H. auto.
    - rewrite H, Nat.eqb_refl. cbn. apply andb_false_iff. left. apply andb_false_r.
    - destruct (arg_like (parents c)) eqn:E; [|apply andb_false_r]. apply arg_like_ok in E. contradiction. }
  rewrite X. apply replaced_leaf.
Qed.
Print Assumptions C137_ident.

(** Within an identifier among arguments: the part before the cursor is replaced, a comma follows. *)
Theorem C137_argument : forall c src pre post s, on_ident c -> leaf_in c src pre post ->
  class_ c <> Some Callee -> at_ c <> length pre + length (leaf_text c) -> in_arguments c ->
  exists s', replaced src (item_of c s) = pre ++ s' ++ skipn (at_ c) src /\ ends_in_comma s' /\
    (ends_in_comma s -> s' = s) /\ (~ ends_in_comma s -> s' = s ++ [44; 32]%N).
Proof.
  intros c src pre post s Hi (-> & Ho & Ha) H1 H2 H3. unfold item_of. rewrite (sel_ident c Hi), Ho.
  assert (X : negb (match class_ c with Some Callee => true | _ => false end) && negb (at_ c =? length pre + length (leaf_text c)) && arg_like (parents c) = true).
  { apply arg_like_ok in H3. rewrite H3, andb_true_r. apply andb_true_iff. split; apply negb_true_iff; [destruct (class_ c) as [[]|]; auto; congruence|apply Nat.eqb_neq; auto]. }
  rewrite X. eexists. split; [unfold replaced; cbn [fst snd]; rewrite firstn_front by auto; reflexivity|].
  destruct (last_is 44 (rev (drop_white (rev s)))) eqn:E.
  - apply comma_ok in E. split; [auto|split; [auto|intros K; contradiction]].
  - assert (Ne : ~ ends_in_comma s) by (rewrite <- comma_ok; congruence). split; [|split; [intros K; contradiction|auto]].
    exists s, [32%N]. split; [reflexivity|]. intros x [<-|[]]. reflexivity.
Qed.
Print Assumptions C137_argument.

(** A label keeps the angle brackets it has unless the item brings its own. *)
Theorem C137_label : forall c src pre post s, on_label c -> leaf_in c src pre post ->
  exists l r, replaced src (item_of c s) = pre ++ l ++ s ++ r ++ post /\
    (starts 60 (leaf_text c) /\ ~ starts 60 s -> l = [60%N]) /\ (~ (starts 60 (leaf_text c) /\ ~ starts 60 s) -> l = []) /\
    (ends 62 (leaf_text c) /\ ~ ends 62 s -> r = [62%N]) /\ (~ (ends 62 (leaf_text c) /\ ~ ends 62 s) -> r = []).
Proof.
  intros c src pre post s Hl (-> & Ho & Ha). unfold item_of. rewrite (sel_label c Hl), Ho.
  assert (B1 : first_is 60 (leaf_text c) && negb (first_is 60 s) = true <-> starts 60 (leaf_text c) /\ ~ starts 60 s).
  { rewrite andb_true_iff, negb_true_iff, <- !first_is_ok, not_true_iff_false. tauto. }
  assert (B2 : last_is 62 (leaf_text c) && negb (last_is 62 s) = true <-> ends 62 (leaf_text c) /\ ~ ends 62 s).
  { rewrite andb_true_iff, negb_true_iff, <- !last_is_ok, not_true_iff_false. tauto. }
  set (b1 := first_is 60 (leaf_text c) && negb (first_is 60 s)) in *. set (b2 := last_is 62 (leaf_text c) && negb (last_is 62 s)) in *.
  exists (if b1 then [60%N] else []), (if b2 then [62%N] else []). split.
  - assert (L : exists m, leaf_text c = (if b1 then [60%N] else []) ++ m ++ (if b2 then [62%N] else [])).
    { destruct b1, b2.
      - destruct (proj1 B1 eq_refl) as ((x & E1) & _), (proj1 B2 eq_refl) as ((y & E2) & _). rewrite E1 in E2. destruct y as [|z y]; cbn in E2; [discriminate|]. injection E2 as Ez E2; subst z. exists y. rewrite E1, E2. auto.
      - destruct (proj1 B1 eq_refl) as ((x & E1) & _). exists x. rewrite E1, app_nil_r. auto.
      - destruct (proj1 B2 eq_refl) as ((y & E2) & _). exists y. rewrite E2. auto.
      - exists (leaf_text c). rewrite app_nil_r. auto. }
    destruct L as (m & L). rewrite L. unfold replaced. cbn [fst snd].
    replace (pre ++ ((if b1 then [60%N] else []) ++ m ++ (if b2 then [62%N] else [])) ++ post) with ((pre ++ (if b1 then [60%N] else [])) ++ m ++ (if b2 then [62%N] else []) ++ post) by (rewrite <- !app_assoc; auto).
    rewrite firstn_front by (rewrite app_length; destruct b1; cbn; lia).
    replace ((pre ++ (if b1 then [60%N] else [])) ++ m ++ (if b2 then [62%N] else []) ++ post) with ((pre ++ (if b1 then [60%N] else []) ++ m) ++ (if b2 then [62%N] else []) ++ post) by (rewrite <- !app_assoc; auto).
    rewrite skipn_front; [rewrite <- !app_assoc; auto|]. rewrite !app_length. destruct b1, b2; cbn; lia.
  - split; [intros K; apply B1 in K; rewrite K; auto|]. split; [intros K; destruct b1; auto; destruct K; apply B1; auto|].
    split; [intros K; apply B2 in K; rewrite K; auto|]. intros K. destruct b2; auto. destruct K. apply B2. auto.
Qed.
Print Assumptions C137_label.

(** A reference keeps its at sign unless the item brings its own. *)
Theorem C137_reference : forall c src pre post s, on_ref c -> leaf_in c src pre post ->
  (starts 64 (leaf_text c) -> ~ starts 64 s -> replaced src (item_of c s) = pre ++ [64%N] ++ s ++ post) /\
  (~ starts 64 (leaf_text c) \/ starts 64 s -> replaced src (item_of c s) = pre ++ s ++ post).
Proof.
  intros c src pre post s Hr (-> & Ho & Ha). unfold item_of. rewrite (sel_ref c Hr), Ho. split.
  - intros (x & E) K. rewrite <- first_is_ok in K. rewrite E. apply not_true_iff_false in K. rewrite K. cbn [first_is N.eqb Pos.eqb andb negb].
    replace (pre ++ (64%N :: x) ++ post) with ((pre ++ [64%N]) ++ x ++ post) by (rewrite <- !app_assoc; auto).
    replace (length pre + 1) with (length (pre ++ [64%N])) by (rewrite app_length; auto).
    replace (length pre + length (64%N :: x)) with (length (pre ++ [64%N]) + length x) by (rewrite app_length; cbn; lia). rewrite replaced_leaf, <- app_assoc. auto.
  - intros K. assert (X : first_is 64 (leaf_text c) && negb (first_is 64 s) = false).
    { apply andb_false_iff. rewrite negb_false_iff, first_is_ok, <- not_true_iff_false, first_is_ok. auto. }
    rewrite X. apply replaced_leaf.
Qed.
Print Assumptions C137_reference.

(** Elsewhere the text from the start of the completion to the cursor is replaced. *)
Theorem C137_other : forall c s, ~ on_ident c -> ~ on_label c -> ~ on_ref c -> item_of c s = (from c, at_ c, s).
Proof. intros c s H1 H2 H3. unfold item_of. rewrite (sel_none c H1 H2 H3). auto. Qed.
Print Assumptions C137_other.

(** The cursor is in the range replaced, but for the end of a label. *)
Theorem C137_cursor : forall c s, from c <= at_ c -> leaf_offset c <= at_ c <= leaf_offset c + length (leaf_text c) \/ (~ on_ident c /\ ~ on_label c /\ ~ on_ref c) ->
  (on_label c -> at_ c < leaf_offset c + length (leaf_text c)) ->
  fst (fst (item_of c s)) <= at_ c <= snd (fst (item_of c s)).
Proof.
  intros c s Hf Ha Hl. destruct (selected_node c) as [sel|] eqn:E.
  - assert (Ha' : leaf_offset c <= at_ c <= leaf_offset c + length (leaf_text c)).
    { destruct Ha as [Ha|(K1 & K2 & K3)]; auto. rewrite (sel_none c K1 K2 K3) in E. discriminate. }
    assert (D : (sel = LabelNode -> on_label c) /\ (sel = RefNode -> on_ref c)).
    { revert E. unfold selected_node, on_label, on_ref. destruct (class_ c) as [[]|]; cbn; try (destruct (ident_like c && _)); try (destruct (Nat.eqb_spec (leaf_offset c + 1) (from c))); intros E; try discriminate; injection E as <-; split; intros; try discriminate; auto. }
    destruct D as (DL & DR). unfold item_of. rewrite E. destruct sel; cbn [fst snd].
    + destruct (negb _ && _ && _); cbn [fst snd]; lia.
    + specialize (Hl (DL eq_refl)). destruct (DL eq_refl) as (_ & Ef). destruct (first_is 60 _ && _), (last_is 62 _ && _); lia.
    + destruct (DR eq_refl) as (_ & Ef). destruct (first_is 64 _ && _); lia.
  - unfold item_of. rewrite E. cbn. lia.
Qed.
Print Assumptions C137_cursor.

(** The cursor behind a label [<a>]: the range ends before the cursor. *)
Theorem C137_label_end_refuted : exists c s, on_label c /\ from c <= at_ c /\ leaf_offset c <= at_ c <= leaf_offset c + length (leaf_text c) /\ snd (fst (item_of c s)) < at_ c.
Proof.
  exists {| from := 1; at_ := 3; leaf_offset := 0; leaf_text := [60; 97; 62]%N; ident_like := false; class_ := Some LabelClass; parents := [] |}, [98]%N.
  split; [split; reflexivity|]. cbn. lia.
Qed.
Print Assumptions C137_label_end_refuted.

(** [#f(ab|c)]: completing [ab] to [xy]. *)
Example C137_nonvacuous :
  let c := {| from := 3; at_ := 5; leaf_offset := 3; leaf_text := [97; 98; 99]%N; ident_like := true; class_ := Some VarAccess; parents := [OtherParent; Arguments] |} in
  let src := [35; 102; 40; 97; 98; 99; 41]%N in
  on_ident c /\ leaf_in c src [35; 102; 40]%N [41]%N /\ in_arguments c /\ replaced src (item_of c [120; 121]%N) = [35; 102; 40; 120; 121; 44; 32; 99; 41]%N.
Proof.
  cbn. split; [split; [right; auto|split; auto]|]. split; [split; [reflexivity|cbn; lia]|]. split; [|reflexivity].
  exists [OtherParent], []. split; [reflexivity|]. intros p [<-|[]]. auto.
Qed.
Example C137_label_nonvacuous :
  let c := {| from := 2; at_ := 3; leaf_offset := 1; leaf_text := [60; 97; 98; 62]%N; ident_like := false; class_ := Some LabelClass; parents := [] |} in
  let src := [35; 60; 97; 98; 62; 35]%N in
  on_label c /\ leaf_in c src [35]%N [35]%N /\ replaced src (item_of c [120]%N) = [35; 60; 120; 62; 35]%N.
Proof. cbn. split; [split; auto|]. split; [split; [reflexivity|cbn; lia]|reflexivity]. Qed.
Example C137_reference_nonvacuous :
  let c := {| from := 1; at_ := 2; leaf_offset := 0; leaf_text := [64; 97; 98]%N; ident_like := false; class_ := Some RefClass; parents := [] |} in
  on_ref c /\ leaf_in c [64; 97; 98]%N [] [] /\ replaced [64; 97; 98]%N (item_of c [120]%N) = [64; 120]%N.
Proof. cbn. split; [split; auto|]. split; [split; [reflexivity|cbn; lia]|reflexivity]. Qed.

(** * C138: which items, and in which order *)

(** On an identifier the items stay whose label has what was typed as a subsequence; their placeholders are numbered. *)
Theorem C138_filter : forall c src pre typed post l, on_ident c -> src = pre ++ typed ++ post -> leaf_offset c = length pre -> at_ c = length pre + length typed ->
  chosen (fun x y => subsequence typed (label x) /\ numbered_item x y) (fun x => ~ subsequence typed (label x)) l (conclude c src l).
Proof.
  intros c src pre typed post l Hi -> Ho Ha. unfold conclude. rewrite (sel_ident c Hi), Ho, Ha, skipn_front by auto. rewrite (firstn_front typed) by lia.
  induction l as [|x l IH]; cbn [filter map]; [constructor|]. destruct (matching typed (label x)) eqn:E.
  - cbn [map]. apply chosen_yes; [|exact IH]. split; [apply matching_ok; auto|]. repeat (split; [reflexivity|]). apply to_lsp_ok.
  - apply chosen_no; [|exact IH]. rewrite <- matching_ok. congruence.
Qed.
Print Assumptions C138_filter.

(** Elsewhere all stay. *)
Theorem C138_all : forall c src l, ~ on_ident c -> Forall2 numbered_item l (conclude c src l).
Proof.
  intros c src l Hi. unfold conclude.
  replace (match selected_node c with Some Ident => filter (fun x => matching (firstn (at_ c - leaf_offset c) (skipn (leaf_offset c) src)) (label x)) l | _ => l end) with l.
  - induction l as [|x l IH]; cbn; constructor; auto. repeat (split; [reflexivity|]). apply to_lsp_ok.
  - revert Hi. unfold selected_node, on_ident. destruct (class_ c) as [[]|], (ident_like c); cbn; auto.
    + destruct (Nat.eqb_spec (leaf_offset c) (from c)); auto. intros K. destruct K. auto.
    + destruct (Nat.eqb_spec (leaf_offset c) (from c)); auto. intros K. destruct K. auto.
    + destruct (leaf_offset c + 1 =? from c); auto.
    + destruct (leaf_offset c + 1 =? from c); auto.
    + destruct (leaf_offset c + 1 =? from c); auto.
    + destruct (leaf_offset c + 1 =? from c); auto.
Qed.
Print Assumptions C138_all.

(** With at most a thousand items: the sort texts put the sorted items of the type wanted first and then the others, sorted. *)
Theorem C138_order : forall types others, length types + length others <= 1000 ->
  exists ts os ts' os', stably_sorted types ts /\ stably_sorted others os /\ Forall2 same_item ts ts' /\ Forall2 same_item os os' /\
    arrange types others = os' ++ ts' /\ StronglySorted (fun a b => opt_lt (sort_text a) (sort_text b)) (ts' ++ os').
Proof.
  intros types others H. exists (sort types), (sort others), (number 0 (sort types)), (number (N.of_nat (length (sort types))) (sort others)).
  split; [apply sort_ok|]. split; [apply sort_ok|]. split; [apply number_same|]. split; [apply number_same|]. split; [reflexivity|].
  rewrite <- (N.add_0_l (N.of_nat (length (sort types)))), <- number_app. apply number_sorted. rewrite app_length.
  destruct (sort_ok types) as (P1 & _), (sort_ok others) as (P2 & _). apply Permutation_length in P1, P2. lia.
Qed.
Print Assumptions C138_order.

Definition plain_item (n : N) : item := {| label := [n]; sort_text := None; range := (0, 0); new_text := []; extra := [] |}.
Definition many : list item := map (fun n => plain_item (N.of_nat n)) (seq 0 1001).

(** With more, a later item may have a smaller sort text: the thousandth comes before the hundred and first. *)
Theorem C138_order_refuted : exists others x y, In x (arrange [] others) /\ In y (arrange [] others) /\ StronglySorted item_lt others /\
  text_lt (label x) (label y) /\ opt_lt (sort_text y) (sort_text x).
Proof.
  exists many. set (l := arrange [] many).
  assert (E : nth_error l 101 = Some {| label := [101%N]; sort_text := Some [49; 48; 49]%N; range := (0, 0); new_text := []; extra := [] |} /\
              nth_error l 1000 = Some {| label := [1000%N]; sort_text := Some [49; 48; 48; 48]%N; range := (0, 0); new_text := []; extra := [] |}) by (split; vm_compute; reflexivity).
  destruct E as (E1 & E2). eexists _, _. split; [eapply nth_error_In; exact E1|]. split; [eapply nth_error_In; exact E2|]. split.
  - assert (X : forall k n, StronglySorted item_lt (map (fun n => plain_item (N.of_nat n)) (seq n k))); [|apply X].
    clear. induction k as [|k IH]; intros n; cbn [seq map]; [constructor|]. constructor; [apply IH|].
    apply Forall_forall. intros x Hx. apply in_map_iff in Hx. destruct Hx as (m & <- & Hm). apply in_seq in Hm. right. split; [reflexivity|]. cbn. apply lt_head. lia.
  - split; [apply lt_head; reflexivity|]. cbn. apply lt_some. apply lt_tail. apply lt_tail. apply lt_head. reflexivity.
Qed.
Print Assumptions C138_order_refuted.

(** What is put around every item: a blank behind a comma or a colon, a parenthesis if one is missing, the rest of a show rule. *)
Theorem C138_around : forall args before sel types others, exists l c r,
  Forall2 (fun x y => label x = label y /\ sort_text x = sort_text y /\ range x = range y /\ extra x = extra y /\ new_text y = l ++ new_text x ++ c ++ r)
    (arrange types others) (finish args before sel types others) /\
  (ends 44 before \/ ends 58 before -> l = [32%N]) /\ (~ (ends 44 before \/ ends 58 before) -> l = []) /\
  (left_open args -> c = [41%N]) /\ (~ left_open args -> c = []) /\
  r = (if sel then [58; 32; 36; 123; 125]%N else []).
Proof.
  intros args before sel types others.
  assert (B1 : last_is 44 before || last_is 58 before = true <-> ends 44 before \/ ends 58 before) by (rewrite orb_true_iff, !last_is_ok; tauto).
  pose proof (unclosed_ok args) as B2. unfold finish. set (b1 := last_is 44 before || last_is 58 before) in *. set (b2 := unclosed args) in *.
  exists (if b1 then [32%N] else []), (if b2 then [41%N] else []), (if sel then [58; 32; 36; 123; 125]%N else []).
  split; [|split; [intros K; apply B1 in K; rewrite K; auto|split; [intros K; destruct b1; auto; destruct K; apply B1; auto|split; [intros K; apply B2 in K; rewrite K; auto|split; [|auto]]]]].
  - induction (arrange types others) as [|x l IH]; [destruct b1, b2, sel; constructor|].
    destruct b1, b2, sel; cbn [enrich map] in *; constructor; try exact IH; cbn [label sort_text range extra new_text]; (repeat (split; [reflexivity|])); cbn [app]; rewrite ?app_nil_r, <- ?app_assoc; cbn [app]; reflexivity.
  - intros K. destruct b2; auto. destruct K. apply B2. auto.
Qed.
Print Assumptions C138_around.

(** Two types and an other; the typed text [ac] is in [abc] and not in [ca]. *)
Example C138_nonvacuous :
  let i n := {| label := n; sort_text := None; range := (0, 2); new_text := n; extra := [] |} in
  let c := {| from := 0; at_ := 2; leaf_offset := 0; leaf_text := [97; 99]%N; ident_like := true; class_ := Some VarAccess; parents := [] |} in
  on_ident c /\ map (fun x => (label x, sort_text x, new_text x)) (conclude c [97; 99]%N (finish (Some [Open]) [44%N] false [i [97; 98; 99]%N; i [97; 97; 99]%N] [i [99; 97]%N; i [97; 99]%N])) =
  [([97; 99], Some [48; 48; 50], [32; 97; 99; 41]); ([97; 97; 99], Some [48; 48; 48], [32; 97; 97; 99; 41]); ([97; 98; 99], Some [48; 48; 49], [32; 97; 98; 99; 41])]%N.
Proof. cbn zeta. split; [split; [right; auto|auto]|]. vm_compute. reflexivity. Qed.

(** * C139: completions that take the expression before the dot *)

(** Every snippet for the mode makes its text of the node, in place of node, dot and word; the source is else unchanged.
    The snippets are to have a placeholder. *)
Theorem C139_exact : forall c src pre node mid word post m content ss,
  src = pre ++ node ++ mid ++ word ++ post -> from c = length pre + length node + length mid -> on_word c word ->
  (forall s, In s ss -> usable m content s -> forall e, ~ marked (snippet s) [] e) ->
  exists l, postfix_completions true true c m content (length pre) node ss = Some l /\
    chosen (fun s i => usable m content s /\ label i = p_label s /\ exists out, wraps (snippet s) node out /\ result src i = pre ++ out ++ post)
           (fun s => usable m content s -> forall out, ~ wraps (snippet s) node out) ss l.
Proof. intros c src pre node mid word post m k ss Hs Hf Hw H. unfold postfix_completions. cbn [negb orb]. eapply postfix_ok; eauto. Qed.
Print Assumptions C139_exact.

(** None if turned off or in other syntax. *)
Theorem C139_off : forall en reg c m content off node ss, en = false \/ reg = false -> postfix_completions en reg c m content off node ss = Some [].
Proof. intros en reg c m k off node ss [-> | ->]; unfold postfix_completions; cbn; auto. destruct en; auto. Qed.
Print Assumptions C139_off.

(** A snippet (of the configuration) without a placeholder stops the server. *)
Theorem C139_total_refuted : exists c m content off node ss, postfix_completions true true c m content off node ss = None.
Proof.
  exists {| from := 2; at_ := 2; leaf_offset := 1; leaf_text := [46]%N; ident_like := false; class_ := None; parents := [] |}, Code, true, 0, [97]%N,
    [{| modes := [Code]; content_only := false; p_label := [120]%N; snippet := [120]%N |}]. reflexivity.
Qed.
Print Assumptions C139_total_refuted.

(** The text of the node is put in as if it was of the snippet: with two placeholders of the snippet, of which one is for the
    node, the client gets two, one of them made of the node's own text. *)
Theorem C139_escape_refuted : exists c src node s l i ps e,
  postfix_completions true true c Code true 0 node [s] = Some l /\ conclude c src l = [i] /\
  (exists b a b1 a1 e1, marked (snippet s) [(b, a); (b1, a1)] e1 /\ ~ names_node a) /\
  marked (new_text i) ps e /\ length ps = 2.
Proof.
  set (node := [34; 36; 123; 120; 125; 34]%N).
  set (c := {| from := 7; at_ := 7; leaf_offset := 6; leaf_text := [46]%N; ident_like := false; class_ := None; parents := [] |}).
  set (s := {| modes := [Code]; content_only := false; p_label := [102]%N; snippet := [102; 40; 36; 123; 97; 125; 44; 36; 123; 110; 111; 100; 101; 125; 41]%N |}).
  exists c, (node ++ [46]%N), node, s.
  assert (M : forall t, marked t (fst (pieces (length t) t)) (snd (pieces (length t) t))) by (intros t; apply pieces_ok; auto).
  eexists _, _, _, _. split; [vm_compute; reflexivity|]. split; [vm_compute; reflexivity|]. split.
  - eexists _, _, _, _, _. split; [exact (M (snippet s))|]. rewrite <- has_node_ok. vm_compute. discriminate.
  - split; [apply M|]. vm_compute. reflexivity.
Qed.
Print Assumptions C139_escape_refuted.

(** Calls of functions with the node as their argument. *)
Theorem C139_calls : forall c src pre node mid word post u l r block f,
  src = pre ++ node ++ mid ++ word ++ post -> from c = length pre + length node + length mid -> on_word c word ->
  Forall2 (fun i out => result src i = pre ++ out ++ post) (ufcs_items u l r c (length pre) node block f) (calls u l r node block f).
Proof. intros. eapply ufcs_ok; eauto. Qed.
Print Assumptions C139_calls.

(** [#ab.ab|;] with the snippet [|${node}|${}]: it is [#|ab|${};] then. *)
Example C139_nonvacuous :
  let c := {| from := 4; at_ := 6; leaf_offset := 4; leaf_text := [97; 98]%N; ident_like := true; class_ := Some VarAccess; parents := [] |} in
  let src := [35; 97; 98; 46; 97; 98; 59]%N in
  let s := {| modes := [Math; Code]; content_only := false; p_label := [97; 98; 115]%N; snippet := [124; 36; 123; 110; 111; 100; 101; 125; 124; 36; 123; 125]%N |} in
  src = [35]%N ++ [97; 98]%N ++ [46]%N ++ [97; 98]%N ++ [59]%N /\ on_word c [97; 98]%N /\ usable Code false s /\ (forall e, ~ marked (snippet s) [] e) /\
  option_map (map (result src)) (postfix_completions true true c Code false 1 [97; 98]%N [s]) = Some [[35; 124; 97; 98; 124; 36; 123; 125; 59]%N].
Proof.
  cbn zeta. split; [reflexivity|]. split; [split; [reflexivity|right; auto]|]. split; [split; [right; left; auto|discriminate]|]. split; [|vm_compute; reflexivity].
  intros e M. apply pieces_marked in M. vm_compute in M. discriminate.
Qed.
Example C139_calls_nonvacuous :
  calls true true true [97]%N false {| name := [102]%N; is_function := true; min_pos := 1; min_named := 1; next_content := true |} =
  [[102; 40; 97; 41]; [102; 40; 36; 123; 125; 44; 32; 97; 41]; [102; 40; 97; 36; 123; 125; 41]]%N.
Proof. reflexivity. Qed.

(** * C140: slices of sources *)

(** The slice is of the characters that are wholly in the range; there is no panic, wherever the range. *)
Theorem C140_exact : forall cs a b, Forall char_bytes cs -> slice_at (concat cs) a b = Some (concat (within 0 a b cs)).
Proof. intros cs a b H. apply slice_ok. exact H. Qed.
Print Assumptions C140_exact.

(** [aäb] from within the second character to beyond the end. *)
Example C140_nonvacuous : Forall char_bytes [[97]; [195; 164]; [98]]%N /\ slice_at [97; 195; 164; 98]%N 2 9 = Some [98]%N /\ slice_at [97; 195; 164; 98]%N 1 3 = Some [195; 164]%N.
Proof.
  split; [|split; reflexivity]. repeat constructor; [exists 97%N, []|exists 195%N, [164]%N|exists 98%N, []]; (split; [reflexivity|split; [unfold cont; lia|]]); repeat constructor; lia.
Qed.

(** * C141: which snippets are offered *)

Theorem C141_offered : forall m s cs, offered m s cs = true <-> exists x, In x cs /\ allows (fst x) m /\ allows (snd x) s.
Proof. exact offered_ok. Qed.
Print Assumptions C141_offered.

(** A request made by typing a parenthesis, comma or colon is answered if asked for; any other is. *)
Theorem C141_answered : forall t p, answered t p = false <-> p = false /\ (t = Some 40%N \/ t = Some 44%N \/ t = Some 58%N).
Proof.
  intros t p. unfold answered. destruct t as [c|]; cbn [andb].
  - destruct p; cbn [negb]; [rewrite andb_false_r; cbn; split; [discriminate|intros (K & _); discriminate]|]. rewrite andb_true_r, negb_false_iff, !orb_true_iff, !N.eqb_eq. split.
    + intros [[-> | ->]| ->]; auto.
    + intros (_ & [E|[E|E]]); injection E as ->; auto.
  - split; [discriminate|]. intros (_ & [E|[E|E]]); discriminate.
Qed.
Print Assumptions C141_answered.

(** Markup but not in an import list. *)
Example C141_nonvacuous :
  let cs := [(Positive (Some Markup), Negative [ImportList])] in
  offered (Some Markup) (Some Regular) cs = true /\ offered (Some Markup) (Some ImportList) cs = false /\ offered (Some Code) (Some Regular) cs = false.
Proof. repeat split; reflexivity. Qed.
