(** Theorems about page ranges, resource paths and output patterns: C29, C72, C73. *)
From Coq Require Import List NArith Bool Lia.
From Verif Require Import DigModel DigProof PageModel PageSpec PageProof.
Import ListNotations.
Open Scope N_scope.

(** C29: what is parsed is a proper range, and its printed form gives it back. *)
Theorem C29_round_trip : forall s p, parse_pages s = inl p -> proper p /\ parse_pages (print_pages p) = inl p.
Proof. intros s p H. apply parse_proper in H. split; [exact H|now apply print_parse]. Qed.
Print Assumptions C29_round_trip.
(** C29: every proper range is printed in a form that is parsed. *)
Theorem C29_print_parse : forall p, proper p -> parse_pages (print_pages p) = inl p.
Proof. exact print_parse. Qed.
Print Assumptions C29_print_parse.
(** C29: the syntax, with spaces anywhere around the numbers. *)
Theorem C29_syntax : forall a b c d p n, blank a -> blank b -> blank c -> blank d -> proper p -> page n ->
  parse_pages (a ++ print_end (fst p) ++ b ++ 45 :: c ++ print_end (snd p) ++ d) = inl p /\
  parse_pages (a ++ print_num 10 n ++ b) = inl (Some n, Some n).
Proof.
  intros a b c d p n A B C D P Q. split; [|now apply parse_one].
  pose proof (parse_two a b c d p A B C D P) as H. unfold written in H. rewrite <- !app_assoc in H. exact H.
Qed.
Print Assumptions C29_syntax.
(** C29: different page ranges are printed differently. *)
Theorem C29_print_injective : forall p q, proper p -> proper q -> print_pages p = print_pages q -> p = q.
Proof. intros p q P Q E. apply print_parse in P. apply print_parse in Q. congruence. Qed.
Print Assumptions C29_print_injective.
Example C29_nonvacuous :
  parse_pages [32; 49; 50; 32; 45; 9; 51; 48; 55] = inl (Some 12, Some 307) /\ proper (Some 12, Some 307) /\
  print_pages (Some 12, Some 307) = [49; 50; 45; 51; 48; 55] /\ blank [32; 9] /\ page 307 /\
  parse_pages [53; 45] = inl (Some 5, None) /\ parse_pages [45; 50] = inl (None, Some 2) /\ parse_pages [52] = inl (Some 4, Some 4) /\
  parse_pages [51; 45; 50] = inr EOrder /\ parse_pages [48] = inr EZero /\ parse_pages [49; 45; 50; 45; 51] = inr EHyphens.
Proof.
  repeat split; try (vm_compute; reflexivity); try (vm_compute; congruence); try (repeat constructor); try discriminate; cbn; try lia; vm_compute; discriminate.
Qed.
(** C29: the type allows a range without ends and ranges in the wrong order, which are printed
    in forms that cannot be parsed. *)
Theorem C29_no_ends_refuted : exists p q, parse_pages (print_pages p) = inr ENoEnds /\ parse_pages (print_pages q) = inr EOrder.
Proof. exists (None, None), (Some 3, Some 2). split; vm_compute; reflexivity. Qed.
Print Assumptions C29_no_ends_refuted.
(** C29: which pages are exported: the first one exactly for the range "1-", all of them otherwise. *)
Theorem C29_selection : forall n ts, exported n ts = if is_first ts then firstn 1 (seq 1 n) else seq 1 n.
Proof. intros n ts. unfold exported. destruct (is_first ts); auto. destruct n; reflexivity. Qed.
Print Assumptions C29_selection.
Theorem C29_first_only : forall ts, is_first ts = true <-> In (TPages [first_pages]) ts.
Proof. exact is_first_iff. Qed.
Print Assumptions C29_first_only.
(** C29: this is what was asked for when no ranges are given. *)
Theorem C29_selection_partial : forall n ts, (forall rs, ~ In (TPages rs) ts) ->
  forall k, In k (exported n ts) <-> (1 <= k <= n)%nat /\ wanted ts (N.of_nat k).
Proof.
  intros n ts H k. unfold exported. destruct (is_first ts) eqn:E; [apply is_first_iff in E; destruct (H _ E)|].
  rewrite in_seq. split; [|lia]. intros X. split; [lia|]. intros rs R. destruct (H _ R).
Qed.
Print Assumptions C29_selection_partial.
(** C29: with "1-" pages after the first are missing, with "2-2" all pages are there; PDF
    exports have all pages always. *)
Theorem C29_selection_refuted :
  (exists ts p, parse_pages [49; 45] = inl p /\ ts = [TPages [p]] /\ wanted ts 2 /\ ~ In 2%nat (exported 3 ts)) /\
  (exists ts p, parse_pages [50; 45; 50] = inl p /\ ts = [TPages [p]] /\ ~ wanted ts 3 /\ In 3%nat (exported 3 ts) /\ In 3%nat (exported_pdf 3 ts)).
Proof.
  split.
  - exists [TPages [(Some 1, None)]], (Some 1, None). split; [vm_compute; reflexivity|]. split; auto. split.
    + intros rs [[= <-]|[]]. exists (Some 1, None). split; [left; auto|]. split; cbn; [lia|auto].
    + cbn. intros [X|[]]. discriminate.
  - exists [TPages [(Some 2, Some 2)]], (Some 2, Some 2). split; [vm_compute; reflexivity|]. split; auto. split.
    + intros W. destruct (W _ (or_introl eq_refl)) as (p & [<-|[]] & _ & X). cbn in X. lia.
    + split; cbn; auto.
Qed.
Print Assumptions C29_selection_refuted.

(** C72: the text form of a resource path is parsed back exactly when neither part has a colon. *)
Theorem C72_round_trip_partial : forall r, parse_resource (print_resource r) = Some r <-> ~ In 58 (fst r) /\ ~ In 58 (snd r).
Proof. exact resource_iff. Qed.
Print Assumptions C72_round_trip_partial.
Theorem C72_parse_print : forall s r, parse_resource s = Some r -> print_resource r = s.
Proof. exact resource_back. Qed.
Print Assumptions C72_parse_print.
Example C72_nonvacuous : parse_resource [102; 105; 108; 101; 58; 97; 47; 98] = Some ([102; 105; 108; 101], [97; 47; 98]) /\
  print_resource ([102; 105; 108; 101], [97; 47; 98]) = [102; 105; 108; 101; 58; 97; 47; 98].
Proof. split; vm_compute; reflexivity. Qed.
(** C72: a path with a colon, like "a:b.typ", is written and cannot be read. *)
Theorem C72_colon_unreadable : forall scheme path, In 58 path -> parse_resource (print_resource (scheme, path)) = None.
Proof. intros scheme path H. apply resource_colon. exact H. Qed.
Print Assumptions C72_colon_unreadable.
Theorem C72_colon_refuted : exists r, parse_resource (print_resource r) <> Some r.
Proof. exists ([102; 105; 108; 101], [97; 58; 98]). vm_compute. discriminate. Qed.
Print Assumptions C72_colon_refuted.

(** C73: the variables of a pattern are replaced by their texts. *)
Theorem C73_substitution_partial : forall ps root dir name, Forall piece_ok ps -> plain root -> plain dir ->
  substitute (write_pieces ps) root (Some dir) name = fill root dir name ps.
Proof. exact substitute_fill. Qed.
Print Assumptions C73_substitution_partial.
Example C73_nonvacuous :
  let ps := [PRoot; Lit 47; Lit 111; Lit 47; PDir; Lit 47; PName; PName] in
  Forall piece_ok ps /\ plain [47; 114] /\ plain [100] /\
  substitute (write_pieces ps) [47; 114] (Some [100]) [110; 36] = [47; 114; 47; 111; 47; 100; 47; 110; 36; 110; 36].
Proof.
  cbn. split; [repeat constructor; discriminate|]. split; [intros [X|[X|[]]]; discriminate|]. split; [intros [X|[]]; discriminate|reflexivity].
Qed.
(** C73: a directory whose name contains a variable is changed: with the root "/$name" and the
    main file "a.typ", the pattern "$root/x" gives "/a.typ/x". *)
Theorem C73_nested_refuted : exists ps root name, Forall piece_ok ps /\
  substitute (write_pieces ps) root (Some []) name <> fill root [] name ps.
Proof.
  exists [PRoot; Lit 47; Lit 120], (47 :: w_name), [97; 46; 116; 121; 112]. split; [repeat constructor; discriminate|]. vm_compute. discriminate.
Qed.
Print Assumptions C73_nested_refuted.
(** C73: a pattern in which no variable occurs is left alone. *)
Theorem C73_constant : forall p root dir name,
  (forall w a b, In w [w_root; w_dir; w_name] -> p <> a ++ w ++ b) -> substitute p root dir name = p.
Proof.
  intros p root dir name H. unfold substitute. rewrite (replace_absent w_root) by (intros a b; apply H; cbn; auto).
  destruct dir; rewrite ?(replace_absent w_dir) by (intros a b; apply H; cbn; auto); apply replace_absent; intros a b; apply H; cbn; auto.
Qed.
Print Assumptions C73_constant.
Example C73_constant_nonvacuous : let p := [47; 36; 114; 111; 47; 36; 110; 97; 109; 36; 100; 105] in
  (forall w a b, In w [w_root; w_dir; w_name] -> p <> a ++ w ++ b) /\ substitute p [120] (Some [121]) [122] = p.
Proof.
  cbn zeta. split; [|reflexivity]. intros w a b W E.
  do 13 (destruct a as [|? a]; [cbn in E; destruct W as [<-|[<-|[<-|[]]]]; cbn in E; discriminate|]; cbn in E; injection E as _ E || discriminate).
Qed.
