(** Proofs about the outline (C41). *)
From Coq Require Import List Arith NArith Bool Lia Permutation Sorted.
From Verif Require Import DigModel SpanModel SpanSpec SpanProof OutModel OutSpec.
Import ListNotations.
Open Scope nat_scope.

Lemma node_ind2 (P : node -> Prop) : (forall h cs, Forall P cs -> P (Node h cs)) -> forall n, P n.
Proof.
  intros H. fix IH 1. intros [h cs]. apply H. induction cs as [|c cs IHc]; constructor; auto.
Qed.
Definition desc (u : list head) : Prop := StronglySorted (fun a b => h_level b < h_level a) u.
Lemma desc_app u v : desc (u ++ v) -> desc u /\ desc v /\ forall x y, In x u -> In y v -> h_level y < h_level x.
Proof.
  induction u as [|a u IH]; cbn [app]; intros H; [split; [constructor|]; split; [exact H|intros x y []]|].
  apply StronglySorted_inv in H as [H F]. destruct (IH H) as (A & B & C). rewrite Forall_app in F. destruct F as [F1 F2]. split; [constructor; auto|]. split; [exact B|].
  intros x y [<-|X] Y; [rewrite Forall_forall in F2; now apply F2|auto].
Qed.
Definition low (anc : list head) (x : head * list head) : Prop := exists u, snd x = u ++ anc /\ desc (fst x :: u).
Definition fl (anc : list head) (ts : list node) : list (head * list head) := flat_map (flat anc) ts.
Definition rise (anc : list head) (ts : list node) : Prop := Forall (low anc) (fl anc ts).
Definition endp (anc : list head) (l : list (head * list head)) : list head := match rev l with [] => anc | (p, a) :: _ => p :: a end.
Lemma fl_cons anc c r : fl anc (c :: r) = flat anc c ++ fl anc r.
Proof. reflexivity. Qed.
Lemma endp_app anc l k : k <> [] -> endp anc (l ++ k) = endp anc k.
Proof. intros H. unfold endp. rewrite rev_app_distr. destruct (rev k) as [|[p a] r] eqn:E; [|reflexivity]. apply (f_equal (@rev _)) in E. rewrite rev_involutive in E. now subst. Qed.
Lemma endp_snoc anc l p a : endp anc (l ++ [(p, a)]) = p :: a.
Proof. unfold endp. now rewrite rev_app_distr. Qed.
Lemma endp_in anc l : endp anc l = anc \/ exists p a, In (p, a) l /\ endp anc l = p :: a.
Proof.
  unfold endp. destruct (rev l) as [|[p a] r] eqn:E; [now left|right]. exists p, a. split; [|reflexivity]. apply in_rev. rewrite E. now left.
Qed.
Lemma flat_anc n : forall anc x, In x (flat anc n) -> exists u, snd x = u ++ anc.
Proof.
  induction n as [h cs IH] using node_ind2. intros anc x [<-|H]; [now exists []|]. apply in_flat_map in H as (c & C & X). rewrite Forall_forall in IH.
  destruct (IH c C _ _ X) as (u & ->). exists (u ++ [h]). now rewrite <- app_assoc.
Qed.
Lemma flat_nonempty anc n : flat anc n <> [].
Proof. now destruct n. Qed.
Lemma low_up anc h x : low anc x -> (exists u, snd x = u ++ h :: anc) -> low (h :: anc) x.
Proof.
  intros (u & E & D) (v & F). exists v. split; [exact F|]. rewrite E in F. change (v ++ h :: anc) with (v ++ [h] ++ anc) in F. rewrite app_assoc in F. apply app_inv_tail in F. subst u.
  now apply (desc_app (fst x :: v) [h]).
Qed.
Lemma rise_up anc h cs : rise anc [Node h cs] -> rise (h :: anc) cs.
Proof.
  unfold rise, fl. cbn [flat_map flat]. rewrite app_nil_r. intros H. apply Forall_inv_tail in H. rewrite Forall_forall in *. intros x X. apply low_up; [auto|].
  apply in_flat_map in X as (c & C & X). now apply (flat_anc c).
Qed.
Section Push.
Context (sk : option nat) (leaf : head).
Notation P := (fun x => deeper sk leaf (h_level x)).
Lemma deeper_anti x y : h_level x < h_level y -> P x = false -> P y = false.
Proof.
  unfold deeper. intros L. rewrite !andb_false_iff. destruct sk as [l|]; rewrite ?Nat.ltb_ge; intros [H|H]; auto; try discriminate; try (left; lia); right; lia.
Qed.
Definition pushed anc ts := exists d u, endp anc (fl anc ts) = d ++ u ++ anc /\
  fl anc (push sk leaf ts) = fl anc ts ++ [(leaf, u ++ anc)] /\ Forall (fun x => P x = true) u /\ Forall (fun x => P x = false) d /\ desc (d ++ u).
Lemma push_spec ts : Forall (fun n => forall anc h cs, n = Node h cs -> rise (h :: anc) cs -> pushed (h :: anc) cs) ts -> forall anc, rise anc ts -> pushed anc ts.
Proof.
  induction ts as [|c r IH]; intros F anc R.
  - exists [], []. repeat split; constructor.
  - destruct r as [|c2 r].
    + clear IH. destruct c as [h cs]. pose proof (rise_up _ _ _ R) as R2. assert (E : endp anc (fl anc [Node h cs]) = endp (h :: anc) (fl (h :: anc) cs)).
      { unfold fl. cbn [flat_map flat]. rewrite app_nil_r. unfold endp. cbn [rev]. now destruct (rev (flat_map (flat (h :: anc)) cs)) as [|[p a] q]. }
      unfold pushed. rewrite E. unfold push. cbn [push_last]. destruct (deeper sk leaf (h_level h)) eqn:D.
      * destruct (Forall_inv F anc h cs eq_refl R2) as (d & u & E1 & E2 & F1 & F2 & S). exists d, (u ++ [h]). split; [rewrite E1, <- (app_assoc u); reflexivity|]. split.
        -- cbn [push_node]. unfold fl in *. cbn [flat_map flat]. rewrite !app_nil_r. unfold push in E2. rewrite E2, <- (app_assoc u). reflexivity.
        -- split; [apply Forall_app; auto|]. split; [exact F2|]. rewrite app_assoc.
           destruct (endp_in (h :: anc) (fl (h :: anc) cs)) as [N|(p & a & I & N)].
           ++ rewrite E1 in N. replace (d ++ u) with (@nil head) by (change (h :: anc) with ([] ++ h :: anc) in N at 2; rewrite app_assoc in N; apply app_inv_tail in N; auto). repeat constructor.
           ++ unfold rise in R. rewrite Forall_forall in R. destruct (R (p, a)) as (v & V & DV). { unfold fl. cbn [flat_map flat]. rewrite app_nil_r. now right. }
              cbn [fst snd] in *. rewrite E1, V in N. change (h :: anc) with ([h] ++ anc) in N. rewrite !app_assoc in N. rewrite (app_comm_cons v anc p) in N. apply app_inv_tail in N. now rewrite N.
      * clear F. assert (X : exists d0, endp (h :: anc) (fl (h :: anc) cs) = d0 ++ h :: anc /\ desc (d0 ++ [h])).
        { destruct (endp_in (h :: anc) (fl (h :: anc) cs)) as [N|(p & a & I & N)]; [exists []; split; [exact N|repeat constructor]|].
          unfold rise in R. rewrite Forall_forall in R. destruct (R (p, a)) as (v & V & DV). { unfold fl. cbn [flat_map flat]. rewrite app_nil_r. now right. }
          cbn [fst snd] in *. rewrite N. apply in_flat_map in I as (c & C & I). destruct (flat_anc _ _ _ I) as (w & W). cbn [snd] in W. exists (p :: w). split; [now rewrite W|].
          rewrite V in W. change (w ++ h :: anc) with (w ++ [h] ++ anc) in W. rewrite app_assoc in W. apply app_inv_tail in W. now rewrite <- app_comm_cons, <- W. }
        destruct X as (d0 & X & DX). exists (d0 ++ [h]), []. split; [rewrite X, <- app_assoc; reflexivity|]. split; [unfold fl; cbn [flat_map flat]; now rewrite !app_nil_r|].
        split; [constructor|]. split; [|now rewrite app_nil_r]. apply Forall_app. split; [|now constructor].
        destruct (desc_app _ _ DX) as (_ & _ & L). rewrite Forall_forall. intros x I. apply (deeper_anti h); [apply L; [exact I|now left]|exact D].
    + assert (R2 : rise anc (c2 :: r)). { unfold rise in *. rewrite fl_cons in R. now apply Forall_app in R. }
      destruct (IH (Forall_inv_tail F) anc R2) as (d & u & E1 & E2 & F1 & F2 & S). exists d, u.
      change (push sk leaf (c :: c2 :: r)) with (c :: push sk leaf (c2 :: r)). rewrite !(fl_cons anc c), E2, <- app_assoc.
      split; [|auto]. rewrite endp_app, E1; [reflexivity|]. rewrite fl_cons. intros H. apply app_eq_nil in H as [H _]. now apply flat_nonempty in H.
Qed.
Lemma push_all ts : forall anc, rise anc ts -> pushed anc ts.
Proof.
  apply push_spec. rewrite Forall_forall. intros n _. induction n as [h cs IH] using node_ind2. intros anc h' cs' E. injection E as <- <-. now apply push_spec.
Qed.
End Push.
Lemma deeper_level sk leaf x : deeper sk leaf (h_level x) = true <-> h_level x < h_level leaf /\ match sk with None => True | Some l => h_level x < l end.
Proof. unfold deeper. rewrite andb_true_iff, Nat.ltb_lt. destruct sk as [l|]; rewrite ?Nat.ltb_lt; tauto. Qed.
Lemma push_listed sk leaf ts : rise [] ts -> exists d u, endp [] (listed ts) = d ++ u /\ listed (push sk leaf ts) = listed ts ++ [(leaf, u)] /\
  Forall (fun x => h_level x < h_level leaf /\ match sk with None => True | Some l => h_level x < l end) u /\
  Forall (fun x => ~ (h_level x < h_level leaf /\ match sk with None => True | Some l => h_level x < l end)) d /\ rise [] (push sk leaf ts).
Proof.
  intros R. destruct (push_all sk leaf ts [] R) as (d & u & E1 & E2 & F1 & F2 & S). rewrite app_nil_r in *. exists d, u. split; [exact E1|]. split; [exact E2|]. repeat split.
  - rewrite Forall_forall in *. intros x X. now apply deeper_level, F1.
  - rewrite Forall_forall in *. intros x X H. apply deeper_level in H. rewrite F2 in H by exact X. discriminate.
  - unfold rise. rewrite E2. apply Forall_app. split; [exact R|]. constructor; [|constructor]. exists u. cbn [fst snd]. split; [now rewrite app_nil_r|]. constructor; [now apply (desc_app d u)|].
    rewrite Forall_forall in *. intros x X. now apply (deeper_level sk leaf), F1.
Qed.
Definition orun (s : list node * option nat) (hs : list head) := fold_left ostep hs s.
Lemma orun_grow hs : forall s, rise [] (fst s) -> rise [] (fst (orun s hs)) /\ exists k, listed (fst (orun s hs)) = listed (fst s) ++ k /\ map fst k = filter h_bm hs.
Proof.
  induction hs as [|h hs IH]; intros [ts sk] R; cbn [fst] in R; [split; [exact R|]; exists []; split; [now rewrite app_nil_r|reflexivity]|].
  cbn [orun fold_left ostep filter]. change (fold_left ostep hs ?x) with (orun x hs). destruct (h_bm h).
  - destruct (push_listed sk h ts R) as (d & u & E1 & E2 & F1 & F2 & R2). destruct (IH (push sk h ts, None) R2) as (A & k & B & C). split; [exact A|]. exists ((h, u) :: k).
    split; [rewrite B; cbn [fst]; rewrite E2, <- app_assoc; reflexivity|cbn; now rewrite C].
  - destruct (match sk with None => true | Some l => h_level h <? l end); [apply (IH (ts, Some (h_level h)))|apply (IH (ts, sk))]; exact R.
Qed.
Lemma rise_nil : rise [] [].
Proof. constructor. Qed.
Theorem outline_all hs : map fst (listed (get_outline hs)) = filter h_bm hs.
Proof. destruct (orun_grow hs ([], None) rise_nil) as (_ & k & E & F). unfold get_outline. change (fold_left ostep hs ([], None)) with (orun ([], None) hs). rewrite E. exact F. Qed.
Theorem outline_rises hs h a : In (h, a) (listed (get_outline hs)) -> desc (h :: a).
Proof.
  intros H. destruct (orun_grow hs ([], None) rise_nil) as (R & _). unfold rise in R. rewrite Forall_forall in R. destruct (R (h, a) H) as (u & E & D). cbn [fst snd] in *. rewrite app_nil_r in E. now subst.
Qed.
Lemma orun_skip sk : forall ts o, Forall (fun s => h_bm s = false) sk ->
  exists o', orun (ts, o) sk = (ts, o') /\ forall x, match o' with None => True | Some l => x < l end <-> match o with None => True | Some l => x < l end /\ Forall (fun s => x < h_level s) sk.
Proof.
  induction sk as [|s sk IH]; intros ts o F; [exists o; split; [reflexivity|]; intros x; split; [now split|now intros [A _]]|].
  cbn [orun fold_left ostep]. change (fold_left ostep sk ?x) with (orun x sk). rewrite (Forall_inv F). destruct o as [l|].
  - destruct (Nat.ltb_spec (h_level s) l) as [L|L].
    + destruct (IH ts (Some (h_level s)) (Forall_inv_tail F)) as (o' & E & H). exists o'. split; [exact E|]. intros x. rewrite H, Forall_cons_iff. split; [intros [A B]; repeat split; auto; lia|tauto].
    + destruct (IH ts (Some l) (Forall_inv_tail F)) as (o' & E & H). exists o'. split; [exact E|]. intros x. rewrite H, Forall_cons_iff. split; [intros [A B]; repeat split; auto; lia|tauto].
  - destruct (IH ts (Some (h_level s)) (Forall_inv_tail F)) as (o' & E & H). exists o'. split; [exact E|]. intros x. rewrite H, Forall_cons_iff. tauto.
Qed.
Lemma listed_length ts hs : map fst (listed ts) = filter h_bm hs -> length (listed ts) = length (filter h_bm hs).
Proof. intros <-. now rewrite map_length. Qed.
Theorem outline_parent a p sk h b : h_bm p = true -> h_bm h = true -> Forall (fun s => h_bm s = false) sk ->
  let l := listed (get_outline (a ++ p :: sk ++ h :: b)) in let k := length (filter h_bm a) in
  exists ap d ah, nth_error l k = Some (p, ap) /\ nth_error l (S k) = Some (h, ah) /\ p :: ap = d ++ ah /\
    Forall (fun x => h_level x < h_level h /\ Forall (fun s => h_level x < h_level s) sk) ah /\
    Forall (fun x => ~ (h_level x < h_level h /\ Forall (fun s => h_level x < h_level s) sk)) d.
Proof.
  intros BP BH FS l k. unfold l, get_outline. change (fold_left ostep ?x ?s) with (orun s x).
  assert (APP : forall x y s, orun s (x ++ y) = orun (orun s x) y) by (intros; apply fold_left_app).
  destruct (orun_grow a ([], None) rise_nil) as (RA & ka & EA & FA). cbn [fst listed flat_map app] in EA.
  rewrite APP. destruct (orun ([], None) a) as [ta oa]. cbn [fst] in *. cbn [orun fold_left ostep]. rewrite BP. change (fold_left ostep ?x ?s) with (orun s x).
  destruct (push_listed oa p ta RA) as (dp & ap & P1 & P2 & P3 & P4 & RP). rewrite APP.
  destruct (orun_skip sk (push oa p ta) None FS) as (o' & ES & HS). rewrite ES. cbn [orun fold_left ostep]. rewrite BH. change (fold_left ostep ?x ?s) with (orun s x).
  destruct (push_listed o' h (push oa p ta) RP) as (d & u & H1 & H2 & H3 & H4 & RH).
  destruct (orun_grow b (push o' h (push oa p ta), None) RH) as (_ & kb & EB & _). cbn [fst] in EB. rewrite EB, H2, P2.
  assert (LK : length (listed ta) = k) by (apply listed_length; unfold listed in *; now rewrite EA).
  exists ap, d, u. split; [|split; [|split; [|split]]].
  - rewrite <- !app_assoc. rewrite nth_error_app2 by lia. rewrite LK, Nat.sub_diag. reflexivity.
  - rewrite <- !app_assoc. rewrite nth_error_app2 by lia. replace (S k - length (listed ta)) with 1 by lia. reflexivity.
  - rewrite P2, endp_snoc in H1. exact H1.
  - rewrite Forall_forall in *. intros x X. destruct (H3 x X) as [A B]. apply HS in B as [_ B]. auto.
  - rewrite Forall_forall in *. intros x X [A B]. apply (H4 x X). split; [exact A|]. apply HS. rewrite Forall_forall in *. auto.
Qed.

(** * Items *)
Definition ext (s t : interner) : Prop := n_life t = n_life s /\ exists k, n_set t = n_set s ++ k.
Lemma ext_refl s : ext s s.
Proof. split; [reflexivity|exists []; now rewrite app_nil_r]. Qed.
Lemma ext_trans s t r : ext s t -> ext t r -> ext s r.
Proof. intros [A (k & B)] [C (l & D)]. split; [congruence|]. exists (k ++ l). now rewrite D, B, app_assoc. Qed.
Definition same (s : interner) (x : head * list head) (y : nat * nat * list chr * nat) : Prop :=
  exists k, nth_error (n_set s) k = Some (n_life s, source (fst x)) /\
    y = (length (snd x), h_title (fst x), to_hex (new_id (n_life s) (N.of_nat k)), h_pos (fst x)).
Lemma same_ext s t x y : ext s t -> same s x y -> same t x y.
Proof.
  intros [A (l & B)] (k & C & D). exists k. rewrite A, B. split; [|exact D]. rewrite nth_error_app1; [exact C|]. apply nth_error_Some. congruence.
Qed.
Lemma Forall2_ext s t xs ys : ext s t -> Forall2 (same s) xs ys -> Forall2 (same t) xs ys.
Proof. intros E H. induction H; constructor; eauto using same_ext. Qed.
Lemma items_spec ns : Forall (fun n => forall s s' i anc, outline_item s n = (s', i) -> ext s s' /\ Forall2 (same s') (flat anc n) (shown (length anc) i)) ns ->
  forall s s' is anc, items_with outline_item s ns = (s', is) -> ext s s' /\ Forall2 (same s') (flat_map (flat anc) ns) (flat_map (shown (length anc)) is).
Proof.
  induction ns as [|n ns IH]; intros F s s' is anc E; cbn [items_with] in E; [injection E as <- <-; split; [apply ext_refl|constructor]|].
  destruct (outline_item s n) as [s1 i] eqn:E1. change ((fix go s ns := match ns with [] => (s, []) | n :: r => let '(s1, i) := outline_item s n in let '(s2, is) := go s1 r in (s2, i :: is) end) s1 ns) with (items_with outline_item s1 ns) in E.
  destruct (items_with outline_item s1 ns) as [s2 is2] eqn:E2. injection E as <- <-. destruct (Forall_inv F _ _ _ anc E1) as [A B]. destruct (IH (Forall_inv_tail F) _ _ _ anc E2) as [C D].
  split; [now apply (ext_trans _ s1)|]. cbn [flat_map]. apply Forall2_app; [now apply (Forall2_ext s1)|exact D].
Qed.
Lemma item_spec n : forall s s' i anc, outline_item s n = (s', i) -> ext s s' /\ Forall2 (same s') (flat anc n) (shown (length anc) i).
Proof.
  induction n as [h cs IH] using node_ind2. intros s s' i anc E. cbn [outline_item] in E. destruct (items_with outline_item s cs) as [s1 is] eqn:E1.
  destruct (items_spec cs IH s s1 is (h :: anc) E1) as [A B]. fold (source h) in E. destruct (intern s1 (source h)) as [s2 id] eqn:E2. injection E as <- <-.
  destruct (intern_spec s1 (source h)) as (I1 & I2 & I3). pose proof (intern_life s1 (source h)) as I4. rewrite E2 in *. cbn [fst snd] in *.
  assert (X : ext s1 s2) by (split; auto). split; [now apply (ext_trans _ s1)|]. cbn [flat shown]. constructor; [|now apply (Forall2_ext s1)].
  exists (index s1 (source h)). cbn [fst snd]. rewrite I4. split; [exact I2|]. now rewrite I1.
Qed.
Lemma same_shape s xs ys : Forall2 (same s) xs ys -> map (fun '(d, t, _, p) => (d, t, p)) ys = map (fun x => (length (snd x), h_title (fst x), h_pos (fst x))) xs.
Proof. intros H. induction H as [|x y xs ys (k & A & ->)]; cbn; [reflexivity|]. now f_equal. Qed.
Lemma same_found s x y : same s x y -> (n_life s < 2 ^ 32)%N -> (N.of_nat (length (n_set s)) < 2 ^ 32)%N -> span_by_str s (let '(_, _, str, _) := y in str) = Some (Found (Some (source (fst x)))).
Proof.
  intros (k & A & ->) L Z. assert (K : k < length (n_set s)) by (apply nth_error_Some; congruence). unfold span_by_str. rewrite hex_round by apply new_id_ok. cbn [option_map]. unfold lookup, new_id. cbn [i_life i_idx].
  change two32 with (2 ^ 32)%N. rewrite !N.mod_small by lia. assert (H : (n_life s + threshold <=? n_life s)%N = false) by (apply N.leb_gt; unfold threshold; lia). rewrite H, Nat2N.id, A. reflexivity.
Qed.
Lemma set_bound ns : Forall (fun n => forall s s' i, outline_item s n = (s', i) -> length (n_set s') <= length (n_set s) + length (flat [] n)) ns ->
  forall s s' is, items_with outline_item s ns = (s', is) -> length (n_set s') <= length (n_set s) + length (flat_map (flat []) ns).
Proof.
  induction ns as [|n ns IH]; intros F s s' is E; cbn [items_with] in E; [injection E as <- <-; lia|].
  destruct (outline_item s n) as [s1 i] eqn:E1. change ((fix go s ns := match ns with [] => (s, []) | n :: r => let '(s1, i) := outline_item s n in let '(s2, is) := go s1 r in (s2, i :: is) end) s1 ns) with (items_with outline_item s1 ns) in E.
  destruct (items_with outline_item s1 ns) as [s2 is2] eqn:E2. injection E as <- <-. pose proof (Forall_inv F _ _ _ E1). pose proof (IH (Forall_inv_tail F) _ _ _ E2). cbn [flat_map]. rewrite app_length. lia.
Qed.
Lemma flat_length n : forall anc, length (flat anc n) = length (flat [] n).
Proof.
  induction n as [h cs IH] using node_ind2. intros anc. cbn [flat length]. f_equal. induction cs as [|c cs IHc]; [reflexivity|]. cbn [flat_map]. rewrite !app_length, (Forall_inv IH (h :: anc)), (Forall_inv IH [h]), (IHc (Forall_inv_tail IH)). reflexivity.
Qed.
Lemma item_bound n : forall s s' i, outline_item s n = (s', i) -> length (n_set s') <= length (n_set s) + length (flat [] n).
Proof.
  induction n as [h cs IH] using node_ind2. intros s s' i E. cbn [outline_item] in E. destruct (items_with outline_item s cs) as [s1 is] eqn:E1. pose proof (set_bound cs IH _ _ _ E1) as B.
  fold (source h) in E. destruct (intern s1 (source h)) as [s2 id] eqn:E2. injection E as <- <-. assert (L : length (n_set s2) <= S (length (n_set s1))).
  { unfold intern in E2. destruct (index_of _ _); injection E2 as <- <-; cbn [n_set]; rewrite ?app_length; cbn; lia. }
  cbn [flat length]. assert (Q : length (flat_map (flat [h]) cs) = length (flat_map (flat []) cs)).
  { clear. induction cs as [|c cs IH]; [reflexivity|]. cbn [flat_map]. rewrite !app_length, IH, (flat_length c [h]). reflexivity. }
  lia.
Qed.
Theorem items_right s s' hs is : outline s hs = (s', is) ->
  map (fun '(d, t, _, p) => (d, t, p)) (flat_map (shown 0) is) = map (fun x => (length (snd x), h_title (fst x), h_pos (fst x))) (listed (get_outline hs)) /\
  ((n_life s < 2 ^ 32)%N -> (N.of_nat (length (n_set s) + length hs) < 2 ^ 32)%N ->
   map (fun '(_, _, str, _) => span_by_str s' str) (flat_map (shown 0) is) = map (fun h => Some (Found (Some (source h)))) (filter h_bm hs)).
Proof.
  unfold outline. intros E. destruct (items_spec (get_outline hs)) with (s := s) (s' := s') (is := is) (anc := @nil head) as [[A _] B]; [apply Forall_forall; intros n _; apply item_spec|exact E|].
  cbn [length] in B. split; [exact (same_shape _ _ _ B)|]. intros L Z.
  assert (Z2 : (N.of_nat (length (n_set s')) < 2 ^ 32)%N).
  { assert (X : length (n_set s') <= length (n_set s) + length (flat_map (flat []) (get_outline hs))) by (apply (set_bound (get_outline hs)) with (is := is); [apply Forall_forall; intros n _; apply item_bound|exact E]).
    fold (listed (get_outline hs)) in X. rewrite (listed_length _ hs (outline_all hs)) in X. pose proof (filter_shorter h_bm hs). lia. }
  rewrite <- outline_all. unfold listed. rewrite map_map. clear E. induction B as [|x y xs ys Q B IH]; [reflexivity|]. cbn [map]. rewrite IH. f_equal. rewrite <- A in L. pose proof (same_found _ _ _ Q L Z2) as R. destruct y as [[[d t] str] p]. exact R.
Qed.

(** * The interner *)
Fixpoint post (n : node) : list span := match n with Node h cs => flat_map post cs ++ [source h] end.
Lemma post_items ns : Forall (fun n => forall s, fst (outline_item s n) = irun s (map Intern (post n))) ns -> forall s, fst (items_with outline_item s ns) = irun s (map Intern (flat_map post ns)).
Proof.
  induction ns as [|n ns IH]; intros F s; [reflexivity|]. cbn [items_with flat_map]. pose proof (Forall_inv F s) as A. destruct (outline_item s n) as [s1 i].
  change ((fix go s ns := match ns with [] => (s, []) | n :: r => let '(s1, i) := outline_item s n in let '(s2, is) := go s1 r in (s2, i :: is) end) s1 ns) with (items_with outline_item s1 ns).
  pose proof (IH (Forall_inv_tail F) s1) as B. destruct (items_with outline_item s1 ns) as [s2 is]. cbn [fst] in *. now rewrite map_app, irun_app, <- A.
Qed.
Lemma post_item n : forall s, fst (outline_item s n) = irun s (map Intern (post n)).
Proof.
  induction n as [h cs IH] using node_ind2. intros s. cbn [outline_item post]. pose proof (post_items cs IH s) as A. destruct (items_with outline_item s cs) as [s1 is]. fold (source h).
  rewrite map_app, irun_app, <- A. cbn [fst map irun fold_left istep]. now destruct (intern s1 (source h)).
Qed.
Lemma post_flat n : forall anc, Permutation (post n) (map source (map fst (flat anc n))).
Proof.
  induction n as [h cs IH] using node_ind2. intros anc. cbn [post flat map fst]. rewrite Permutation_app_comm. cbn [app]. constructor.
  induction cs as [|c cs IHc]; [constructor|]. cbn [flat_map]. rewrite !map_app. apply Permutation_app; [exact (Forall_inv IH (h :: anc))|exact (IHc (Forall_inv_tail IH))].
Qed.
Theorem outline_interns s hs : exists l, Permutation l (map source (filter h_bm hs)) /\ fst (render_outline s hs) = irun s (Reset_ :: map Intern l).
Proof.
  exists (flat_map post (get_outline hs)). split.
  - rewrite <- outline_all. unfold listed. induction (get_outline hs) as [|n ns IH]; [constructor|]. cbn [flat_map]. rewrite !map_app. apply Permutation_app; [apply post_flat|exact IH].
  - unfold render_outline, outline. rewrite post_items; [reflexivity|]. apply Forall_forall. intros n _. apply post_item.
Qed.
