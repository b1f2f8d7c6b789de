(** Proofs about page ranges, resource paths and output patterns. *)
From Coq Require Import List NArith Bool Lia.
From Verif Require Import DigModel DigProof PageModel PageSpec.
Import ListNotations.
Open Scope N_scope.

(** * Text *)
Lemma split_none sep s : ~ In sep s -> split sep s = [s].
Proof.
  induction s as [|c r IH]; cbn; auto. intros H. destruct (N.eqb_spec c sep) as [->|]; [tauto|]. rewrite IH; auto.
Qed.
Lemma split_app sep a b : ~ In sep a -> split sep (a ++ sep :: b) = a :: split sep b.
Proof.
  induction a as [|c r IH]; cbn; intros H.
  - now rewrite N.eqb_refl.
  - destruct (N.eqb_spec c sep) as [->|]; [tauto|]. rewrite IH; auto.
Qed.
Lemma split_nonempty sep s : split sep s <> [].
Proof. destruct s as [|c r]; cbn; [discriminate|]. destruct (c =? sep); [discriminate|]. destruct (split sep r); discriminate. Qed.
Lemma split_pieces sep s : Forall (fun p => ~ In sep p) (split sep s).
Proof.
  induction s as [|c r IH]; cbn; [repeat constructor; auto|]. destruct (N.eqb_spec c sep) as [->|N]; [constructor; auto|].
  destruct (split sep r) as [|p ps]; [repeat constructor; cbn; tauto|]. inversion IH; subst. constructor; auto. intros [X|X]; auto.
Qed.
Fixpoint joined (sep : chr) (ps : list (list chr)) : list chr :=
  match ps with [] => [] | [p] => p | p :: r => p ++ sep :: joined sep r end.
Lemma joined_split sep s : joined sep (split sep s) = s.
Proof.
  induction s as [|c r IH]; [reflexivity|]. cbn [split]. pose proof (split_nonempty sep r) as N.
  destruct (N.eqb_spec c sep) as [->|].
  - destruct (split sep r) as [|p ps]; [congruence|]. cbn [joined app]. cbn in IH. now rewrite IH.
  - destruct (split sep r) as [|p ps]; [congruence|]. destruct ps as [|q qs]; cbn in *; now rewrite IH.
Qed.
Lemma trim_start_white a s : blank a -> trim_start (a ++ s) = trim_start s.
Proof. induction 1; cbn; auto. now rewrite H. Qed.
Definition solid (s : list chr) : Prop := Forall (fun c => is_white c = false) s.
Lemma trim_start_solid s t : s <> [] -> solid s -> trim_start (s ++ t) = s ++ t.
Proof. intros N H. destruct H as [|c r H1 H2]; [congruence|]. cbn. now rewrite H1. Qed.
Lemma trim_start_blank s : blank s -> trim_start s = [].
Proof. induction 1; cbn; auto. now rewrite H. Qed.
Lemma trim_blank s : blank s -> trim s = [].
Proof. intros H. unfold trim. rewrite (trim_start_blank s H). reflexivity. Qed.
Lemma trim_solid a s b : blank a -> blank b -> s <> [] -> solid s -> trim (a ++ s ++ b) = s.
Proof.
  intros A B N S. unfold trim. rewrite trim_start_white, trim_start_solid, rev_app_distr by auto.
  rewrite trim_start_white by (apply Forall_rev; exact B).
  rewrite <- (app_nil_r (rev s)), trim_start_solid, app_nil_r, rev_involutive; auto.
  - intros E. apply N. rewrite <- (rev_involutive s), E. reflexivity.
  - apply Forall_rev. exact S.
Qed.

(** * Pages *)
Lemma dchar_ge d : 48 <= dchar d.
Proof. unfold dchar. destruct (N.ltb_spec d 10); lia. Qed.
Lemma dec_range n : Forall (fun c => 48 <= c <= 57) (print_num 10 n).
Proof.
  eapply Forall_impl; [|apply (print_chars 10 n); lia]. intros c (d & D & ->). unfold dchar. destruct (N.ltb_spec d 10); lia.
Qed.
Lemma dec_solid n : solid (print_num 10 n).
Proof.
  eapply Forall_impl; [|apply dec_range]. intros c H. cbn in H. unfold is_white.
  repeat (rewrite orb_false_iff). repeat split; try (apply N.eqb_neq; lia); apply andb_false_iff; rewrite !N.leb_gt; lia.
Qed.
Lemma dec_no_hyphen n : ~ In 45 (print_num 10 n).
Proof. intros H. pose proof (proj1 (Forall_forall _ _) (dec_range n) 45 H) as X. cbn in X. lia. Qed.
Lemma blank_no_hyphen s : blank s -> ~ In 45 s.
Proof. intros B H. pose proof (proj1 (Forall_forall _ _) B 45 H) as X. discriminate X. Qed.
Lemma page_number n : page n -> parse_page_number (print_num 10 n) = inl n.
Proof.
  intros [H1 H2]. unfold parse_page_number. pose proof (parse_print 10 max64 n ltac:(lia) ltac:(lia) H2) as P.
  assert (Q : match parse_num 10 max64 (print_num 10 n) with Some n => if n =? 0 then inr ENumber else inl n | None => inr ENumber end = inl n).
  { rewrite P. destruct (N.eqb_spec n 0); [lia|reflexivity]. }
  destruct (print_num 10 n) as [|c r] eqn:E; [now apply print_nonempty in E|].
  destruct r as [|x r]; [|destruct c; auto; repeat (destruct p; auto)].
  destruct (N.eq_dec c 48) as [->|NC]; [|destruct c as [|p]; auto; repeat (destruct p; auto); contradiction].
  exfalso. vm_compute in P. injection P as P. lia.
Qed.
Lemma number_page s n : parse_page_number s = inl n -> page n.
Proof.
  intros H. assert (X : match parse_num 10 max64 s with Some n => if n =? 0 then inr ENumber else inl n | None => inr ENumber end = inl n).
  { unfold parse_page_number in H. destruct s as [|c r]; auto. destruct c as [|p]; auto.
    repeat (destruct p; auto; try (destruct r; auto; discriminate)). }
  destruct (parse_num 10 max64 s) as [m|] eqn:E; [|discriminate]. apply parse_bound in E.
  destruct (N.eqb_spec m 0); [discriminate|]. injection X as <-. unfold page. lia.
Qed.
Definition written (a : list chr) (x : option N) (b : list chr) : list chr := a ++ print_end x ++ b.
Lemma trim_written a x b : blank a -> blank b -> trim (written a x b) = print_end x.
Proof.
  intros A B. unfold written. destruct x as [n|]; cbn.
  - apply trim_solid; auto; [apply print_nonempty|apply dec_solid].
  - apply trim_blank. unfold blank. apply Forall_app. auto.
Qed.
Lemma written_no_hyphen a x b : blank a -> blank b -> ~ In 45 (written a x b).
Proof.
  intros A B H. unfold written in H. rewrite !in_app_iff in H. destruct H as [H|[H|H]].
  - exact (blank_no_hyphen a A H).
  - destruct x as [n|]; cbn in H; [exact (dec_no_hyphen n H)|auto].
  - exact (blank_no_hyphen b B H).
Qed.
Lemma parse_two a b c d p : blank a -> blank b -> blank c -> blank d -> proper p ->
  parse_pages (written a (fst p) b ++ 45 :: written c (snd p) d) = inl p.
Proof.
  intros A B C D (E1 & E2 & N & O). unfold parse_pages.
  rewrite split_app, split_none by (apply written_no_hyphen; auto). cbn [map]. rewrite !trim_written by auto.
  destruct p as [[s|] [e|]]; cbn [fst snd print_end] in *; try congruence.
  - pose proof (print_nonempty 10 s) as Ns. pose proof (print_nonempty 10 e) as Ne.
    pose proof (page_number s E1) as Ps. pose proof (page_number e E2) as Pe.
    destruct (print_num 10 s) as [|c1 r1] eqn:X1; [congruence|]. destruct (print_num 10 e) as [|c2 r2] eqn:X2; [congruence|].
    rewrite Ps, Pe. destruct (N.ltb_spec e s); [lia|reflexivity].
  - pose proof (print_nonempty 10 s) as Ns. pose proof (page_number s E1) as Ps.
    destruct (print_num 10 s) as [|c1 r1] eqn:X1; [congruence|]. now rewrite Ps.
  - pose proof (print_nonempty 10 e) as Ne. pose proof (page_number e E2) as Pe.
    destruct (print_num 10 e) as [|c2 r2] eqn:X2; [congruence|]. now rewrite Pe.
Qed.
Lemma parse_one a b n : blank a -> blank b -> page n -> parse_pages (a ++ print_num 10 n ++ b) = inl (Some n, Some n).
Proof.
  intros A B P. unfold parse_pages. change (a ++ print_num 10 n ++ b) with (written a (Some n) b).
  rewrite split_none by (apply written_no_hyphen; auto). cbn [map]. rewrite trim_written by auto. cbn [print_end].
  pose proof (print_nonempty 10 n) as Nn. pose proof (page_number n P) as Pn.
  destruct (print_num 10 n) as [|c1 r1]; [congruence|]. now rewrite Pn.
Qed.
Lemma parse_proper s p : parse_pages s = inl p -> proper p.
Proof.
  unfold parse_pages. destruct (map trim (split 45 s)) as [|a [|b [|c r]]]; try discriminate.
  - destruct a as [|a0 a]; [discriminate|]. destruct (parse_page_number (a0 :: a)) as [n|] eqn:E; [|discriminate].
    intros [= <-]. apply number_page in E. repeat split; cbn; try apply E; try discriminate; lia.
  - destruct a as [|a0 a], b as [|b0 b]; try discriminate.
    + destruct (parse_page_number (b0 :: b)) as [n|] eqn:E; [|discriminate]. intros [= <-]. apply number_page in E.
      repeat split; cbn; try apply E; try discriminate.
    + destruct (parse_page_number (a0 :: a)) as [n|] eqn:E; [|discriminate]. intros [= <-]. apply number_page in E.
      repeat split; cbn; try apply E; try discriminate.
    + destruct (parse_page_number (a0 :: a)) as [n|] eqn:E; [|discriminate].
      destruct (parse_page_number (b0 :: b)) as [m|] eqn:E2; [|discriminate].
      destruct (N.ltb_spec m n); [discriminate|]. intros [= <-]. apply number_page in E. apply number_page in E2.
      repeat split; cbn; try apply E; try apply E2; try discriminate; auto.
  - destruct a, b; discriminate.
Qed.
Lemma print_parse p : proper p -> parse_pages (print_pages p) = inl p.
Proof.
  intros H. pose proof (parse_two [] [] [] [] p (Forall_nil _) (Forall_nil _) (Forall_nil _) (Forall_nil _) H) as P.
  unfold written in P. cbn [app] in P. rewrite !app_nil_r in P. exact P.
Qed.

Lemma end_eqb_eq a b : end_eqb a b = true <-> a = b.
Proof.
  destruct a, b; cbn; try (split; congruence). rewrite N.eqb_eq. split; congruence.
Qed.
Lemma is_first_iff ts : is_first ts = true <-> In (TPages [first_pages]) ts.
Proof.
  unfold is_first. rewrite existsb_exists. split.
  - intros (t & I & E). destruct t as [[|p [|q r]]|]; try discriminate. apply andb_true_iff in E. destruct E as [E1 E2].
    apply end_eqb_eq in E1. apply end_eqb_eq in E2. destruct p. cbn in *. subst. exact I.
  - intros I. exists (TPages [first_pages]). split; auto.
Qed.

(** * Resource paths *)
Lemma resource_iff r : parse_resource (print_resource r) = Some r <-> ~ In 58 (fst r) /\ ~ In 58 (snd r).
Proof.
  unfold parse_resource, print_resource. destruct r as [a b]. cbn [fst snd]. split.
  - intros H. pose proof (split_pieces 58 (a ++ [58] ++ b)) as P. destruct (split 58 (a ++ [58] ++ b)) as [|x [|y [|z r]]]; try discriminate.
    injection H as -> ->. inversion P as [|? ? P1 P2]; subst. inversion P2; subst. auto.
  - intros [H1 H2]. cbn [app]. rewrite split_app, split_none; auto.
Qed.
Lemma resource_back s r : parse_resource s = Some r -> print_resource r = s.
Proof.
  unfold parse_resource, print_resource. intros H. rewrite <- (joined_split 58 s). destruct (split 58 s) as [|x [|y [|z t]]]; try discriminate.
  injection H as <-. reflexivity.
Qed.
Lemma resource_colon r : In 58 (snd r) -> parse_resource (print_resource r) = None.
Proof.
  intros H. destruct (parse_resource (print_resource r)) as [q|] eqn:E; auto. exfalso. pose proof E as E2.
  apply resource_back in E. unfold parse_resource in E2. pose proof (split_pieces 58 (print_resource r)) as P.
  destruct (split 58 (print_resource r)) as [|x [|y [|z t]]] eqn:S; try discriminate. injection E2 as <-.
  assert (C : forall l, count_occ N.eq_dec l 58 = 0%nat <-> ~ In 58 l) by (intros l; symmetry; apply count_occ_not_In).
  unfold print_resource in E. cbn [fst snd] in E. apply (f_equal (fun l => count_occ N.eq_dec l 58)) in E.
  rewrite !count_occ_app in E. cbn in E. inversion P as [|? ? P1 P2]; subst. inversion P2; subst.
  apply C in P1. apply C in H2. apply (count_occ_In N.eq_dec) in H. destruct r as [r1 r2]. cbn [fst snd] in *.
  revert E. change (N.eq_dec 58 58) with (N.eq_dec 58 58). destruct (N.eq_dec 58 58); [|congruence]. intros E. unfold chr in *. lia.
Qed.

(** * Patterns *)
Lemma starts_app w s : starts w (w ++ s) = true.
Proof. induction w as [|c w IH]; cbn; auto. now rewrite N.eqb_refl. Qed.
Lemma replace_skip w by_ x : forall s, replace w by_ (length x) (x ++ s) = replace w by_ 0 s.
Proof. induction x as [|c x IH]; intros s; cbn; auto. Qed.
Lemma replace_plain w by_ u s : plain u -> (match w with 36 :: _ => True | _ => False end) ->
  replace w by_ 0 (u ++ s) = u ++ replace w by_ 0 s.
Proof.
  intros P W. destruct w as [|w0 w]; [tauto|]. assert (w0 = 36) as -> by (destruct w0 as [|p]; [tauto|]; repeat (destruct p; try tauto)).
  induction u as [|c u IH]; [reflexivity|]. cbn [app replace]. cbn [starts].
  destruct (N.eqb_spec 36 c) as [<-|N]; [exfalso; apply P; left; reflexivity|]. cbn [andb]. rewrite IH; [reflexivity|].
  intros X. apply P. right. exact X.
Qed.
Lemma replace_hit w0 w by_ s : replace (w0 :: w) by_ 0 ((w0 :: w) ++ s) = by_ ++ replace (w0 :: w) by_ 0 s.
Proof.
  cbn [app replace]. change (w0 :: w ++ s) with ((w0 :: w) ++ s). rewrite starts_app. f_equal. cbn [length pred]. apply replace_skip.
Qed.
Lemma replace_miss w by_ x s : x = [] \/ (exists c y, x = 36 :: y /\ plain y /\ starts w (36 :: y ++ s) = false /\ c = 36) ->
  (match w with 36 :: _ => True | _ => False end) -> replace w by_ 0 (x ++ s) = x ++ replace w by_ 0 s.
Proof.
  intros [->|(c & y & -> & P & S & _)] W; [reflexivity|]. cbn [app replace]. rewrite S. now rewrite replace_plain.
Qed.
Lemma hit_root by_ s : replace w_root by_ 0 (w_root ++ s) = by_ ++ replace w_root by_ 0 s.
Proof. exact (replace_hit _ _ by_ s). Qed.
Lemma hit_dir by_ s : replace w_dir by_ 0 (w_dir ++ s) = by_ ++ replace w_dir by_ 0 s.
Proof. exact (replace_hit _ _ by_ s). Qed.
Lemma hit_name by_ s : replace w_name by_ 0 (w_name ++ s) = by_ ++ replace w_name by_ 0 s.
Proof. exact (replace_hit _ _ by_ s). Qed.
(** Each pass turns one kind of variable into its text. *)
Lemma pass_root root ps : Forall piece_ok ps -> plain root -> forall tail,
  replace w_root root 0 (flat_map (fun p => match p with Lit c => [c] | PRoot => w_root | PDir => w_dir | PName => w_name end) ps ++ tail) =
  flat_map (fun p => match p with Lit c => [c] | PRoot => root | PDir => w_dir | PName => w_name end) ps ++ replace w_root root 0 tail.
Proof.
  intros F R tail. induction F as [|p ps H F IH]; [reflexivity|]. cbn [flat_map]. rewrite <- !app_assoc. destruct p; cbn [piece_ok] in H.
  - rewrite (replace_plain _ _ [c]); [now rewrite IH|intros [X|[]]; congruence|exact I].
  - rewrite hit_root. now rewrite IH.
  - rewrite replace_miss; [now rewrite IH| |exact I]. right. exists 36, [100; 105; 114]. repeat split. intros [X|[X|[X|[]]]]; discriminate.
  - rewrite replace_miss; [now rewrite IH| |exact I]. right. exists 36, [110; 97; 109; 101]. repeat split. intros [X|[X|[X|[X|[]]]]]; discriminate.
Qed.
Lemma pass_dir root dir ps : Forall piece_ok ps -> plain root -> forall tail,
  replace w_dir dir 0 (flat_map (fun p => match p with Lit c => [c] | PRoot => root | PDir => w_dir | PName => w_name end) ps ++ tail) =
  flat_map (fun p => match p with Lit c => [c] | PRoot => root | PDir => dir | PName => w_name end) ps ++ replace w_dir dir 0 tail.
Proof.
  intros F R tail. induction F as [|p ps H F IH]; [reflexivity|]. cbn [flat_map]. rewrite <- !app_assoc. destruct p; cbn [piece_ok] in H.
  - rewrite (replace_plain _ _ [c]); [now rewrite IH|intros [X|[]]; congruence|exact I].
  - rewrite replace_plain; [now rewrite IH|assumption|exact I].
  - rewrite hit_dir. now rewrite IH.
  - rewrite replace_miss; [now rewrite IH| |exact I]. right. exists 36, [110; 97; 109; 101]. repeat split. intros [X|[X|[X|[X|[]]]]]; discriminate.
Qed.
Lemma pass_name root dir name ps : Forall piece_ok ps -> plain root -> plain dir -> forall tail,
  replace w_name name 0 (flat_map (fun p => match p with Lit c => [c] | PRoot => root | PDir => dir | PName => w_name end) ps ++ tail) =
  fill root dir name ps ++ replace w_name name 0 tail.
Proof.
  intros F R D tail. unfold fill. induction F as [|p ps H F IH]; [reflexivity|]. cbn [flat_map]. rewrite <- !app_assoc. destruct p; cbn [piece_ok] in H.
  - rewrite (replace_plain _ _ [c]); [now rewrite IH|intros [X|[]]; congruence|exact I].
  - rewrite replace_plain; [now rewrite IH|assumption|exact I].
  - rewrite replace_plain; [now rewrite IH|assumption|exact I].
  - rewrite hit_name. now rewrite IH.
Qed.
Lemma substitute_fill ps root dir name : Forall piece_ok ps -> plain root -> plain dir ->
  substitute (write_pieces ps) root (Some dir) name = fill root dir name ps.
Proof.
  intros F R D. unfold substitute, write_pieces. rewrite <- (app_nil_r (flat_map write_piece ps)).
  change (flat_map write_piece ps) with (flat_map (fun p => match p with Lit c => [c] | PRoot => w_root | PDir => w_dir | PName => w_name end) ps).
  rewrite pass_root by auto. change (replace w_root root 0 []) with (@nil chr). rewrite pass_dir by auto.
  change (replace w_dir dir 0 []) with (@nil chr). rewrite pass_name by auto. now rewrite app_nil_r.
Qed.
Lemma starts_split w : forall s, starts w s = true -> exists r, s = w ++ r.
Proof.
  induction w as [|a w IH]; intros s H; [exists s; auto|]. destruct s as [|b s]; [discriminate|]. cbn in H. apply andb_true_iff in H as [A B].
  apply N.eqb_eq in A as ->. destruct (IH s B) as (r & ->). exists r. reflexivity.
Qed.
Lemma replace_absent w by_ s : (forall a b, s <> a ++ w ++ b) -> replace w by_ O s = s.
Proof.
  induction s as [|c r IH]; intros H; [reflexivity|]. cbn [replace]. destruct (starts w (c :: r)) eqn:E.
  - destruct (starts_split w _ E) as (x & X). destruct (H [] x). exact X.
  - f_equal. apply IH. intros a b X. apply (H (c :: a) b). cbn. now rewrite X.
Qed.
