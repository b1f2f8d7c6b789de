(** Proofs about translations. *)
From Coq Require Import String.
From Coq Require Import List Arith NArith Bool Lia Permutation.
From Verif Require Import LocModel LocSpec.
Import ListNotations.
Local Open Scope nat_scope.

Lemma eqb_ok : forall a b, eqb a b = true <-> a = b.
Proof.
  induction a as [|x a IH]; intros [|y b]; cbn; try (split; congruence). rewrite andb_true_iff, N.eqb_eq, IH. split; [intros (-> & ->); auto|intros E; injection E; auto].
Qed.
Lemma eqb_refl a : eqb a a = true.
Proof. apply eqb_ok. auto. Qed.
Lemma eqb_no a b : eqb a b = false <-> a <> b.
Proof. rewrite <- eqb_ok. destruct (eqb a b); split; congruence. Qed.
Lemma eqb_sym a b : eqb a b = eqb b a.
Proof. destruct (eqb a b) eqn:E; symmetry; [apply eqb_ok in E; subst; apply eqb_refl|]. apply eqb_no. apply eqb_no in E. auto. Qed.
Lemma strip_spec p : forall s, match strip_prefix p s with Some t => s = p ++ t | None => forall t, s <> p ++ t end.
Proof.
  induction p as [|x p IH]; intros s; cbn; [auto|]. destruct s as [|y s]; [intros t H; discriminate|].
  destruct (N.eqb_spec x y) as [->|Hx].
  - specialize (IH s). destruct (strip_prefix p s) as [t|]; [congruence|]. intros t H. injection H as H. eapply IH; eauto.
  - intros t H. injection H as H _. auto.
Qed.
Lemma strip_app p t : strip_prefix p (p ++ t) = Some t.
Proof. induction p as [|x p IH]; cbn; [auto|]. rewrite N.eqb_refl. auto. Qed.

(** * Messages *)

Lemma until_found c n r : ~ In c n -> until c (n ++ c :: r) = (n, r).
Proof.
  induction n as [|x n IH]; intros H; cbn; [rewrite N.eqb_refl; auto|]. destruct (N.eqb_spec x c) as [->|Hx]; [exfalso; apply H; left; auto|].
  rewrite IH; [auto|]. intros Hi. apply H. right. auto.
Qed.
Lemma until_end c n : ~ In c n -> until c n = (n, []).
Proof.
  induction n as [|x n IH]; intros H; cbn; [auto|]. destruct (N.eqb_spec x c) as [->|Hx]; [exfalso; apply H; left; auto|]. rewrite IH; [auto|]. intros Hi. apply H. right. auto.
Qed.
Lemma arg_found args n v : value_of args n v -> find (fun a => eqb (fst a) n) args = Some (n, v).
Proof.
  intros (a & b & -> & H). induction a as [|[k x] a IH]; cbn; [rewrite eqb_refl; auto|]. destruct (eqb k n) eqn:E.
  - apply eqb_ok in E. subst. exfalso. eapply H. left. reflexivity.
  - apply IH. intros v' Hv. eapply H. right. eauto.
Qed.
Lemma arg_unknown args n : unknown args n -> find (fun a => eqb (fst a) n) args = None.
Proof.
  intros H. destruct (find _ args) as [[k x]|] eqn:E; [|auto]. apply find_some in E. destruct E as (E1 & E2). cbn in E2. apply eqb_ok in E2. subst. exfalso. eapply H; eauto.
Qed.
Lemma interp_plain args t : ~ In 123%N t -> forall fuel r, length t <= fuel -> interpolate fuel args (t ++ r) = t ++ interpolate (fuel - length t) args r.
Proof.
  induction t as [|c t IH]; intros H fuel r Hf; [cbn; rewrite Nat.sub_0_r; auto|]. destruct fuel as [|fuel]; [cbn in Hf; lia|]. cbn [app interpolate length].
  destruct (N.eqb_spec c 123) as [->|Hc]; [exfalso; apply H; left; auto|]. rewrite IH; [|intros Hi; apply H; right; auto|cbn in Hf; lia]. cbn [Nat.sub]. auto.
Qed.
Lemma interp_hole args n o rest fuel : stands args n o -> ~ In 125%N n ->
  forall s, (s = n ++ 125%N :: rest \/ s = n /\ rest = []) ->
  interpolate (S fuel) args (123%N :: s) = o ++ interpolate fuel args (tl rest).
Proof.
  intros Hs Hn s H. cbn [interpolate]. rewrite N.eqb_refl. assert (E : until 125 s = (n, rest)).
  { destruct H as [->|(-> & ->)]; [apply until_found; auto|apply until_end; auto]. }
  rewrite E. destruct Hs as [Hs|(Hs & ->)]; [rewrite (arg_found _ _ _ Hs); auto|rewrite (arg_unknown _ _ Hs); auto].
Qed.
Lemma interp_nil fuel args : interpolate fuel args [] = [].
Proof. destruct fuel; auto. Qed.
Lemma interp_said args s out : said args s out -> forall fuel, length s <= fuel -> interpolate fuel args s = out.
Proof.
  induction 1 as [t Ht|t n c r o out Ht Hn Ho H IH|t n o Ht Hn Ho|t n o Ht Hn Ho]; intros fuel Hf.
  - rewrite <- (app_nil_r t) at 1. rewrite interp_plain by auto. rewrite interp_nil. apply app_nil_r.
  - rewrite app_length in Hf. cbn in Hf. rewrite app_length in Hf. cbn in Hf. rewrite interp_plain by (auto; lia). f_equal.
    replace (fuel - length t) with (S (pred (fuel - length t))) by lia.
    rewrite (interp_hole args n o (c :: r)); auto. cbn [tl]. f_equal. apply IH. lia.
  - rewrite app_length in Hf. cbn in Hf. rewrite interp_plain by (auto; lia). f_equal. replace (fuel - length t) with (S (pred (fuel - length t))) by (rewrite app_length in Hf; cbn in Hf; lia).
    rewrite (interp_hole args n o []); auto. cbn [tl]. rewrite interp_nil. apply app_nil_r.
  - rewrite app_length in Hf. cbn in Hf. rewrite interp_plain by (auto; lia). f_equal. replace (fuel - length t) with (S (pred (fuel - length t))) by lia.
    rewrite (interp_hole args n o []); auto. cbn [tl]. rewrite interp_nil. apply app_nil_r.
Qed.
Lemma split_at c : forall s : text, ~ In c s \/ exists a b, s = a ++ c :: b /\ ~ In c a.
Proof.
  induction s as [|x s IH]; [left; intros []|]. destruct (N.eq_dec x c) as [->|Hx]; [right; exists [], s; split; [auto|intros []]|].
  destruct IH as [IH|(a & b & -> & Ha)].
  - left. intros [H|H]; auto.
  - right. exists (x :: a), b. split; [auto|]. intros [H|H]; auto.
Qed.
Lemma stands_total args n : exists o, stands args n o.
Proof.
  induction args as [|[k v] args IH].
  - exists (123%N :: n). right. split; [intros v []|auto].
  - destruct (eqb k n) eqn:E; [apply eqb_ok in E; subst; exists v; left; exists [], args; split; [auto|intros v' []]|]. apply eqb_no in E.
    destruct IH as (o & [(a & b & -> & H)|(H & ->)]).
    + exists o. left. exists ((k, v) :: a), b. split; [auto|]. intros v' [Hx|Hx]; [congruence|eapply H; eauto].
    + exists (123%N :: n). right. split; [|auto]. intros v' [Hx|Hx]; [congruence|eapply H; eauto].
Qed.
Lemma said_total args : forall k s, length s <= k -> exists out, said args s out.
Proof.
  induction k as [|k IH]; intros s Hk; [destruct s; [exists []; constructor; auto|cbn in Hk; lia]|].
  destruct (split_at 123%N s) as [H|(t & r & -> & Ht)]; [exists s; constructor; auto|].
  destruct (split_at 125%N r) as [Hn|(n & r' & -> & Hn)].
  - destruct (stands_total args r) as (o & Ho). exists (t ++ o). apply said_open; auto.
  - destruct (stands_total args n) as (o & Ho). destruct r' as [|c r'].
    + exists (t ++ o). apply said_last; auto.
    + destruct (IH r') as (out & Hout); [rewrite app_length in Hk; cbn in Hk; rewrite app_length in Hk; cbn in Hk; lia|]. exists (t ++ o ++ out). apply said_hole; auto.
Qed.

(** * Maps *)

Lemma lookup_insert {A} k k' (v : A) m : lookup k' (insert k v m) = if eqb k k' then Some v else lookup k' m.
Proof.
  unfold lookup. induction m as [|[x y] m IH]; cbn [insert find fst].
  - destruct (eqb k k'); auto.
  - destruct (eqb x k) eqn:E; cbn [find fst].
    + apply eqb_ok in E. subst. destruct (eqb k k'); auto.
    + destruct (eqb x k') eqn:E'; [|auto]. apply eqb_ok in E'. subst. rewrite eqb_sym, E. auto.
Qed.
Lemma lookup_in {A} k (v : A) m : lookup k m = Some v -> In (k, v) m.
Proof. unfold lookup. destruct (find _ m) as [[x y]|] eqn:E; [|discriminate]. intros H. injection H as <-. apply find_some in E. destruct E as (E1 & E2). cbn in E2. apply eqb_ok in E2. subst. auto. Qed.
Lemma lookup_none {A} k (m : map_of A) : lookup k m = None <-> ~ In k (map fst m).
Proof.
  unfold lookup. induction m as [|[x y] m IH]; cbn; [tauto|]. destruct (eqb x k) eqn:E.
  - apply eqb_ok in E. split; [discriminate|intros H; exfalso; apply H; auto].
  - apply eqb_no in E. rewrite IH. split; [intros H [Hx|Hx]; auto|tauto].
Qed.
Lemma lookup_nodup {A} k (v : A) m : NoDup (map fst m) -> (lookup k m = Some v <-> In (k, v) m).
Proof.
  intros H. split; [apply lookup_in|]. unfold lookup. induction m as [|[x y] m IH]; cbn; [intros []|]. inversion H as [|z l Hx Hd]; subst.
  intros [E|Hi]; [injection E as -> ->; rewrite eqb_refl; auto|]. destruct (eqb x k) eqn:E; [|auto]. apply eqb_ok in E. subst. exfalso. apply Hx. apply in_map_iff. exists (k, v). auto.
Qed.
Lemma lookup2_insert2 k l v k' l' m : lookup2 k' l' (insert2 k l v m) = if eqb k k' && eqb l l' then Some v else lookup2 k' l' m.
Proof.
  unfold lookup2, insert2. rewrite lookup_insert. destruct (eqb k k') eqn:E; cbn [andb]; [|auto]. apply eqb_ok in E. subst. rewrite lookup_insert. destruct (eqb l l'); [auto|]. destruct (lookup k' m); auto.
Qed.
Lemma insert_fst {A} k (v : A) m : forall x, In x (map fst (insert k v m)) <-> x = k \/ In x (map fst m).
Proof.
  intros x. induction m as [|[a b] m IH]; cbn; [split; intros [H|H]; auto|]. destruct (eqb a k) eqn:E; cbn; [apply eqb_ok in E; subst; split; intros; intuition|]. rewrite IH. split; intros; intuition.
Qed.
Lemma insert_nodup {A} k (v : A) m : NoDup (map fst m) -> NoDup (map fst (insert k v m)).
Proof.
  induction m as [|[a b] m IH]; cbn; intros H; [constructor; [intros []|constructor]|]. inversion H as [|x l Hx Hd]; subst. destruct (eqb a k) eqn:E; cbn; [constructor; auto|]. constructor; [|auto].
  rewrite insert_fst. intros [Hk|Hk]; [|auto]. subst. rewrite eqb_refl in E. discriminate.
Qed.
Lemma insert_in {A} k (v : A) m x y : In (x, y) (insert k v m) -> (x = k /\ y = v) \/ In (x, y) m.
Proof.
  induction m as [|[a b] m IH]; cbn; [intros [H|[]]; injection H as <- <-; auto|]. destruct (eqb a k) eqn:E; cbn.
  - apply eqb_ok in E. subst. intros [H|H]; [injection H as <- <-; auto|auto].
  - intros [H|H]; [auto|]. apply IH in H. destruct H; auto.
Qed.

(** * Trimming *)

Lemma trim_start_spec s : exists a, s = a ++ trim_start s /\ (forall c, In c a -> white c = true) /\ (forall c r, trim_start s = c :: r -> white c = false).
Proof.
  induction s as [|c s (a & H1 & H2 & H3)]; [exists []; split; [auto|]; split; [intros c []|intros c r H; discriminate]|]. cbn [trim_start]. destruct (white c) eqn:E.
  - exists (c :: a). split; [cbn; congruence|]. split; [intros d [->|Hd]; auto|auto].
  - exists []. split; [auto|]. split; [intros d []|]. intros d r H. injection H as <- _. auto.
Qed.
Lemma trim_spec s : trimmed s (trim s).
Proof.
  unfold trim. destruct (trim_start_spec s) as (a & E1 & A1 & A2). destruct (trim_start_spec (rev (trim_start s))) as (b & E2 & B1 & B2).
  apply (f_equal (@rev N)) in E2. rewrite rev_involutive, rev_app_distr in E2.
  exists a, (rev b). split; [rewrite <- E2; auto|]. split; [auto|]. split; [intros c Hc; apply B1; apply in_rev; auto|]. split.
  - intros c r H. rewrite H in E2. cbn in E2. eapply A2; eauto.
  - intros c r H. apply (f_equal (@rev N)) in H. rewrite rev_involutive, rev_app_distr in H. cbn in H. eapply B2; eauto.
Qed.
Lemma trim_start_white a s : (forall c, In c a -> white c = true) -> trim_start (a ++ s) = trim_start s.
Proof. induction a as [|c a IH]; intros H; [auto|]. cbn [app trim_start]. rewrite (H c) by (left; auto). apply IH. intros d Hd. apply H. right. auto. Qed.
Lemma trim_start_id s : (forall c r, s = c :: r -> white c = false) -> trim_start s = s.
Proof. destruct s as [|c s]; intros H; [auto|]. cbn [trim_start]. rewrite (H c s eq_refl). auto. Qed.
Lemma trim_fun s t : trimmed s t -> trim s = t.
Proof.
  intros (a & b & -> & Ha & Hb & H1 & H2). unfold trim. rewrite trim_start_white by auto.
  destruct t as [|c t].
  - cbn [app]. assert (E : trim_start b = []).
    { rewrite <- (app_nil_r b). rewrite trim_start_white by auto. auto. }
    rewrite E. auto.
  - rewrite (trim_start_id ((c :: t) ++ b)); [|intros d r E; injection E as <- _; eapply H1; eauto].
    rewrite rev_app_distr, trim_start_white; [|intros d Hd; apply Hb; apply in_rev; auto].
    rewrite trim_start_id; [apply rev_involutive|]. intros d r E. apply (f_equal (@rev N)) in E. rewrite rev_involutive in E. cbn in E. eapply H2; eauto.
Qed.
Lemma trimmed_in s t c : trimmed s t -> In c t -> In c s.
Proof. intros (a & b & -> & _) H. apply in_or_app. right. apply in_or_app. auto. Qed.
Lemma trimmed_clean s t : trimmed s t -> clean t.
Proof. intros (a & b & -> & Ha & Hb & H1 & H2). exists [], []. rewrite app_nil_r. split; [auto|]. split; [intros c []|]. split; [intros c []|]. auto. Qed.

(** * Lines *)

Lemma split_lines_cons s : exists l ls, split_lines s = l :: ls.
Proof. induction s as [|c s (l & ls & E)]; cbn; [eauto|]. rewrite E. destruct (N.eqb c 10); eauto. Qed.
Lemma split_line l s : ~ In 10%N l -> split_lines (l ++ 10%N :: s) = l :: split_lines s.
Proof.
  induction l as [|c l IH]; intros H; cbn; [auto|]. destruct (N.eqb_spec c 10) as [->|Hc]; [exfalso; apply H; left; auto|]. rewrite IH; [auto|]. intros Hi. apply H. right. auto.
Qed.
Lemma split_last l : ~ In 10%N l -> split_lines l = [l].
Proof.
  induction l as [|c l IH]; intros H; cbn; [auto|]. destruct (N.eqb_spec c 10) as [->|Hc]; [exfalso; apply H; left; auto|]. rewrite IH; [auto|]. intros Hi. apply H. right. auto.
Qed.
Lemma split_fun s ls : lines_of s ls -> split_lines s = ls.
Proof.
  intros (-> & Hn & H). induction ls as [|l ls IH]; [contradiction|]. destruct ls as [|l' ls].
  - cbn. apply split_last. apply H. left. auto.
  - change (join (l :: l' :: ls)) with (l ++ 10%N :: join (l' :: ls)). rewrite split_line by (apply H; left; auto). f_equal. apply IH; [discriminate|]. intros x Hx. apply H. right. auto.
Qed.
Lemma split_spec s : lines_of s (split_lines s).
Proof.
  induction s as [|c s (E & Hn & H)]; [split; [auto|]; split; [discriminate|]; intros l [<-|[]] []|].
  cbn [split_lines]. destruct (N.eqb_spec c 10) as [->|Hc].
  - split; [|split; [discriminate|intros l [<-|Hl]; [intros []|auto]]]. destruct (split_lines s) as [|l ls]; [contradiction|]. change (join ([] :: l :: ls)) with (10%N :: join (l :: ls)). congruence.
  - destruct (split_lines s) as [|l ls]; [contradiction|]. split; [|split; [discriminate|]].
    + destruct ls; cbn in *; rewrite E; auto.
    + intros x [<-|Hx]; [intros [Hi|Hi]; [auto|apply (H l); [left; auto|auto]]|apply H; right; auto].
Qed.

(** * Reading *)

Definition keep (l : text) : bool := match l with [] => false | c :: _ => negb (N.eqb c 35) end.
Definition add (kf : bool) (m : map_of (map_of text)) (t : text * text * text) : map_of (map_of text) :=
  let '(k, l, v) := t in if kf then insert2 k l v m else insert2 l k v m.
Lemma split_equal_fun a b : ~ In 61%N a -> split_equal (a ++ 61%N :: b) = Some (a, b).
Proof. induction a as [|c a IH]; intros H; cbn; [auto|]. destruct (N.eqb_spec c 61) as [->|Hc]; [exfalso; apply H; left; auto|]. rewrite IH; [auto|]. intros Hi. apply H. right. auto. Qed.
Lemma split_equal_spec s : match split_equal s with Some (a, b) => s = a ++ 61%N :: b /\ ~ In 61%N a | None => ~ In 61%N s end.
Proof.
  induction s as [|c s IH]; cbn; [intros []|]. destruct (N.eqb_spec c 61) as [->|Hc]; [split; [auto|intros []]|]. destruct (split_equal s) as [[a b]|].
  - destruct IH as (-> & Hi). split; [auto|]. intros [Hx|Hx]; auto.
  - intros [Hx|Hx]; auto.
Qed.
Lemma section_fun k c : (c < 128)%N -> section_name (k ++ [c]) = Some k.
Proof. intros H. unfold section_name. rewrite rev_app_distr. cbn. destruct (N.ltb_spec c 128); [rewrite rev_involutive; auto|lia]. Qed.
Lemma read_fun kf key ls ts : reads key ls ts -> forall m, read_lines kf key m (filter keep (map trim ls)) = Ok (fold_left (add kf) ts m).
Proof.
  induction 1 as [key|key l t ls ts Ht Hs H IH|key l k c ls ts Ht Hc H IH|key l a b lang v ls ts Ht Ha H35 H91 Hl Hv H IH]; intros m; cbn [map filter].
  - reflexivity.
  - rewrite (trim_fun _ _ Ht). assert (E : keep t = false) by (destruct Hs as [->|(r & ->)]; auto). rewrite E. auto.
  - rewrite (trim_fun _ _ Ht). change (keep (91%N :: k ++ [c])) with true. cbn match. cbn [read_lines]. change (strip_prefix [91%N] (91%N :: k ++ [c])) with (Some (k ++ [c])). cbn match. rewrite section_fun by auto. auto.
  - rewrite (trim_fun _ _ Ht). assert (E : keep (a ++ 61%N :: b) = true).
    { destruct a as [|x a]; [auto|]. cbn. destruct (N.eqb_spec x 35) as [->|]; [exfalso; eapply H35; eauto|auto]. }
    rewrite E. cbn [read_lines]. pose proof (strip_spec [91%N] (a ++ 61%N :: b)) as S. destruct (strip_prefix [91%N] (a ++ 61%N :: b)) as [r|].
    + destruct a as [|x a]; [discriminate|]. injection S as -> _. exfalso. eapply H91; eauto.
    + rewrite split_equal_fun by auto. rewrite (trim_fun _ _ Hl), (trim_fun _ _ Hv). rewrite IH. reflexivity.
Qed.
Lemma read_spec kf : forall ls key m m', read_lines kf key m (filter keep (map trim ls)) = Ok m' -> exists ts, reads key ls ts /\ m' = fold_left (add kf) ts m.
Proof.
  induction ls as [|l ls IH]; intros key m m' H; cbn [map filter] in H.
  - injection H as <-. exists []. split; [constructor|auto].
  - pose proof (trim_spec l) as Ht. destruct (keep (trim l)) eqn:E.
    + cbn [read_lines] in H. pose proof (strip_spec [91%N] (trim l)) as S. destruct (strip_prefix [91%N] (trim l)) as [r|].
      * unfold section_name in H. destruct (rev r) as [|c q] eqn:Er; [discriminate|]. destruct (N.ltb_spec c 128); [|discriminate]. apply (f_equal (@rev N)) in Er. rewrite rev_involutive in Er. cbn in Er.
        apply IH in H. destruct H as (ts & Hr & ->). exists ts. split; [|auto]. eapply reads_section; eauto. rewrite S, Er in Ht. exact Ht.
      * pose proof (split_equal_spec (trim l)) as Q. destruct (split_equal (trim l)) as [[a b]|]; [|discriminate]. destruct Q as (Q & Qa). apply IH in H. destruct H as (ts & Hr & ->).
        exists ((key, trim a, trim b) :: ts). split; [|reflexivity]. rewrite Q in Ht, S, E. apply (reads_value key l a b); auto.
        -- intros x ->. cbn in E. discriminate.
        -- intros x ->. eapply S. reflexivity.
        -- apply trim_spec.
        -- apply trim_spec.
    + apply IH in H. destruct H as (ts & Hr & ->). exists ts. split; [|auto]. eapply reads_skip; eauto. destruct (trim l) as [|c r]; [auto|]. right. cbn in E. destruct (N.eqb_spec c 35) as [->|]; [eauto|discriminate].
Qed.
Lemma useful_keep s : useful s = filter keep (map trim (split_lines s)).
Proof. reflexivity. Qed.
Lemma fold_lookup (kf : bool) (ts : list (text * text * text)) : forall m (k l : text),
  lookup2 (if kf then k else l) (if kf then l else k) (fold_left (add kf) ts m) =
  fold_left (fun acc t => let '(k', l', v) := t in if eqb k' k && eqb l' l then Some v else acc) ts (lookup2 (if kf then k else l) (if kf then l else k) m).
Proof.
  induction ts as [|[[k' l'] v] ts IH]; intros m k l; [auto|]. cbn [fold_left]. rewrite IH. f_equal. cbn [add]. destruct kf; rewrite lookup2_insert2; [auto|]. rewrite andb_comm. auto.
Qed.
Lemma fold_last (ts : list (text * text * text)) : forall (k l : text) (acc : option text) (v : text),
  fold_left (fun (acc : option text) (t : text * text * text) => let '(k', l', v) := t in if eqb k' k && eqb l' l then Some v else acc) ts acc = Some v <->
  last_value ts k l v \/ (acc = Some v /\ forall v', ~ In (k, l, v') ts).
Proof.
  induction ts as [|[[k' l'] v0] ts IH] using rev_ind; intros k l acc v.
  - cbn. split; [auto|]. intros [(a & b & H & _)|(H & _)]; [destruct a; discriminate|auto].
  - rewrite fold_left_app. cbn [fold_left]. destruct (eqb k' k && eqb l' l) eqn:E.
    + apply andb_true_iff in E. rewrite !eqb_ok in E. destruct E as (-> & ->). split.
      * intros H. injection H as <-. left. exists ts, []. split; [auto|intros v' []].
      * intros [(a & b & H & Hb)|(_ & H)].
        -- destruct b as [|x b _] using rev_ind; [apply app_inj_tail in H; destruct H; congruence|]. rewrite app_comm_cons, app_assoc in H. apply app_inj_tail in H. destruct H as (_ & <-).
           exfalso. apply (Hb v0). apply in_or_app. right. left. auto.
        -- exfalso. apply (H v0). apply in_or_app. right. left. auto.
    + rewrite IH. assert (Hne : forall v', (k', l', v0) <> (k, l, v')) by (intros v' Hx; injection Hx as -> -> ->; rewrite !eqb_refl in E; discriminate). split.
      * intros [(a & b & -> & Hb)|(Ha & Hn)].
        -- left. exists a, (b ++ [(k', l', v0)]). rewrite <- app_assoc. split; [auto|]. intros v' Hi. apply in_app_or in Hi. destruct Hi as [Hi|[Hi|[]]]; [eapply Hb; eauto|eapply Hne; eauto].
        -- right. split; [auto|]. intros v' Hi. apply in_app_or in Hi. destruct Hi as [Hi|[Hi|[]]]; [eapply Hn; eauto|eapply Hne; eauto].
      * intros [(a & b & H & Hb)|(Ha & Hn)].
        -- left. destruct b as [|x b _] using rev_ind; [apply app_inj_tail in H; destruct H as (_ & H); exfalso; eapply Hne; eauto|].
           rewrite app_comm_cons, app_assoc in H. apply app_inj_tail in H. destruct H as (-> & _). exists a, b. split; [auto|]. intros v' Hi. apply (Hb v'). apply in_or_app. auto.
        -- right. split; [auto|]. intros v' Hi. apply (Hn v'). apply in_or_app. auto.
Qed.

(** * Writing *)

Lemma put_perm {A} (x : text * A) l : Permutation (put x l) (x :: l).
Proof. induction l as [|y l IH]; cbn; [auto|]. destruct (leb (fst x) (fst y)); [auto|]. rewrite IH. apply perm_swap. Qed.
Lemma sort_perm {A} (l : map_of A) : Permutation (sort l) l.
Proof. induction l as [|x l IH]; cbn; [auto|]. rewrite put_perm. auto. Qed.
Lemma leb_refl a : leb a a = true.
Proof. induction a as [|x a IH]; cbn; [auto|]. rewrite N.eqb_refl. auto. Qed.
Lemma put_filter {A} (x : text * A) l k : filter (fun p => eqb (fst p) k) (put x l) = filter (fun p => eqb (fst p) k) (x :: l).
Proof.
  induction l as [|y l IH]; cbn [put]; [auto|]. destruct (leb (fst x) (fst y)) eqn:E; [auto|]. cbn [filter]. rewrite IH. cbn [filter].
  destruct (eqb (fst x) k) eqn:Ex, (eqb (fst y) k) eqn:Ey; auto. apply eqb_ok in Ex, Ey. rewrite Ex, Ey, leb_refl in E. discriminate.
Qed.
Lemma sort_filter {A} (l : map_of A) k : filter (fun p => eqb (fst p) k) (sort l) = filter (fun p => eqb (fst p) k) l.
Proof. induction l as [|x l IH]; [auto|]. cbn [sort fold_right]. change (fold_right put [] l) with (sort l). rewrite put_filter. cbn [filter]. rewrite IH. auto. Qed.

Definition unlines (ls : list text) : text := flat_map (fun l => l ++ [10%N]) ls.
Lemma unlines_join ls : unlines ls = join (ls ++ [[]]).
Proof.
  induction ls as [|l ls IH]; [auto|]. cbn [unlines flat_map app]. change (flat_map (fun l => l ++ [10%N]) ls) with (unlines ls). rewrite IH. destruct (ls ++ [[]]) as [|x xs] eqn:E; [destruct ls; discriminate|].
  change (join (l :: x :: xs)) with (l ++ 10%N :: join (x :: xs)). rewrite <- app_assoc. auto.
Qed.
Lemma unlines_lines ls : (forall l, In l ls -> ~ In 10%N l) -> lines_of (unlines ls) (ls ++ [[]]).
Proof.
  intros H. split; [apply unlines_join|]. split; [destruct ls; discriminate|]. intros l Hl. apply in_app_or in Hl. destruct Hl as [Hl|[<-|[]]]; [auto|intros []].
Qed.
Definition entry (d : map_of text) (en : text) : map_of text := (lit "en", en) :: sort (filter (fun p => negb (eqb (fst p) (lit "en"))) d).
Definition value_line (p : text * text) : text := fst p ++ lit " = " ++ snd p.
Lemma value_line_nl p : value_line p ++ [10%N] = fst p ++ lit " = " ++ snd p ++ [10%N].
Proof. unfold value_line. rewrite <- !app_assoc. reflexivity. Qed.
Definition key_lines (k : text) (e : map_of text) : list text := [] :: ([91%N] ++ k ++ [93%N]) :: map value_line e.
Lemma unlines_app a b : unlines (a ++ b) = unlines a ++ unlines b.
Proof. apply flat_map_app. Qed.
Lemma write_key_lines k d en : lookup (lit "en") d = Some en -> write_key k d = Some (unlines (key_lines k (entry d en))).
Proof.
  intros H. unfold write_key. rewrite H. f_equal. unfold key_lines, entry. cbn [map]. unfold unlines. cbn [flat_map]. unfold value_line at 1. cbn [fst snd].
  change (lit "en = ") with (lit "en" ++ lit " = "). rewrite !flat_map_concat_map, map_map, <- !flat_map_concat_map.
  rewrite (flat_map_ext _ (fun p : text * text => value_line p ++ [10%N]) (fun p => eq_sym (value_line_nl p))). rewrite <- !app_assoc. reflexivity.
Qed.

Lemma clean_first s c r : clean s -> s = c :: r -> white c = false.
Proof. intros (a & b & E & _ & _ & H & _) Hs. eapply H; eauto. Qed.
Lemma clean_last s c r : clean s -> s = r ++ [c] -> white c = false.
Proof. intros (a & b & E & _ & _ & _ & H) Hs. eapply H; eauto. Qed.
Lemma nil_clean : clean [].
Proof. exists [], []. split; [auto|]. split; [intros c []|]. split; [intros c []|]. split; [intros c r H; discriminate|intros c r H; destruct r; discriminate]. Qed.
Lemma last_case (s : text) : s = [] \/ exists r c, s = r ++ [c].
Proof. destruct s as [|c r _] using rev_ind; eauto. Qed.
Lemma value_line_ok l v : ok_lang l -> ok_value v ->
  exists a b, trimmed (value_line (l, v)) (a ++ 61%N :: b) /\ ~ In 61%N a /\ (forall r, a <> 35%N :: r) /\ (forall r, a <> 91%N :: r) /\ trimmed a l /\ trimmed b v.
Proof.
  intros (L1 & L2 & L3 & L4 & L5) (V1 & V2). unfold value_line. cbn [fst snd].
  set (a := match l with [] => [] | _ => l ++ [32%N] end). set (b := match v with [] => [] | _ => 32%N :: v end). exists a, b.
  assert (Hw : white 32 = true) by reflexivity. assert (He : white 61 = false) by reflexivity.
  split; [|split; [|split; [|split; [|split]]]].
  - exists (match l with [] => [32%N] | _ => [] end), (match v with [] => [32%N] | _ => [] end). split; [|split; [|split; [|split]]].
    + unfold a, b. destruct l as [|x l], v as [|y v]; cbn; rewrite <- ?app_assoc; cbn; rewrite ?app_nil_r; rewrite <- ?app_assoc; reflexivity.
    + destruct l; [intros c [<-|[]]; auto|intros c []].
    + destruct v; [intros c [<-|[]]; auto|intros c []].
    + intros c r H. unfold a in H. destruct l as [|x l]; [cbn in H; injection H as <- _; auto|]. cbn in H. injection H as <- _. exact (clean_first _ _ _ L3 eq_refl).
    + intros c r H. unfold b in H. destruct v as [|y v]; [apply app_inj_tail in H; destruct H as (_ & <-); auto|].
      destruct (last_case (y :: v)) as [Hv|(q & z & Hv)]; [discriminate|]. rewrite Hv in H. change (a ++ 61%N :: 32%N :: q ++ [z]) with (a ++ (61%N :: 32%N :: q) ++ [z]) in H. rewrite app_assoc in H. apply app_inj_tail in H. destruct H as (_ & <-). exact (clean_last _ _ _ V2 Hv).
  - unfold a. destruct l as [|x l]; [intros []|]. intros Hi. apply in_app_or in Hi. destruct Hi as [Hi|[Hi|[]]]; [auto|discriminate].
  - unfold a. intros r H. destruct l as [|x l]; [discriminate|]. injection H as -> _. eapply L4; eauto.
  - unfold a. intros r H. destruct l as [|x l]; [discriminate|]. injection H as -> _. eapply L5; eauto.
  - unfold a. destruct l as [|x l]; [apply nil_clean|]. exists [], [32%N]. split; [auto|]. split; [intros c []|]. split; [intros c [<-|[]]; auto|]. split; intros c r H; [exact (clean_first _ _ _ L3 H)|exact (clean_last _ _ _ L3 H)].
  - unfold b. destruct v as [|y v]; [apply nil_clean|]. exists [32%N], []. rewrite app_nil_r. split; [auto|]. split; [intros c [<-|[]]; auto|]. split; [intros c []|]. split; intros c r H; [exact (clean_first _ _ _ V2 H)|exact (clean_last _ _ _ V2 H)].
Qed.
Lemma skip_empty : trimmed [] [].
Proof. apply nil_clean. Qed.
Lemma section_line k : trimmed ([91%N] ++ k ++ [93%N]) (91%N :: k ++ [93%N]).
Proof.
  exists [], []. rewrite app_nil_r. split; [auto|]. split; [intros c []|]. split; [intros c []|]. split.
  - intros c r H. injection H as <- _. auto.
  - intros c r H. rewrite app_comm_cons in H. apply app_inj_tail in H. destruct H as (_ & <-). auto.
Qed.
Definition triples (k : text) (e : map_of text) : list (text * text * text) := map (fun p => (k, fst p, snd p)) e.
Lemma reads_entry k e ls ts : (forall l v, In (l, v) e -> ok_lang l /\ ok_value v) -> reads k ls ts -> reads k (map value_line e ++ ls) (triples k e ++ ts).
Proof.
  intros He H. induction e as [|[l v] e IH]; [auto|]. cbn [map app triples fst snd]. destruct (He l v (or_introl eq_refl)) as (Hl & Hv). destruct (value_line_ok l v Hl Hv) as (a & b & H1 & H2 & H3 & H4 & H5 & H6).
  eapply reads_value; eauto. apply IH. intros l' v' Hi. apply He. right. auto.
Qed.
Definition doc_lines (es : list (text * map_of text)) : list text := flat_map (fun p => key_lines (fst p) (snd p)) es.
Definition doc_triples (es : list (text * map_of text)) : list (text * text * text) := flat_map (fun p => triples (fst p) (snd p)) es.
Lemma reads_doc es : (forall k e, In (k, e) es -> forall l v, In (l, v) e -> ok_lang l /\ ok_value v) -> forall key, reads key (doc_lines es ++ [[]]) (doc_triples es).
Proof.
  induction es as [|[k e] es IH]; intros H key.
  - cbn. eapply reads_skip; [apply skip_empty|auto|constructor].
  - cbn [doc_lines doc_triples flat_map fst snd]. change (flat_map (fun p => key_lines (fst p) (snd p)) es) with (doc_lines es). change (flat_map (fun p => triples (fst p) (snd p)) es) with (doc_triples es).
    unfold key_lines. cbn [app]. eapply reads_skip; [apply skip_empty|auto|]. eapply reads_section; [apply section_line|reflexivity|]. rewrite <- app_assoc. apply reads_entry; [apply (H k e); left; auto|]. apply IH. intros k' e' Hi. apply (H k' e'). right. auto.
Qed.
Lemma write_keys_lines m : (forall k d, In (k, d) m -> lookup (lit "en") d <> None) ->
  exists es, write_keys m = Some (unlines (doc_lines es)) /\
    Forall2 (fun a b => fst a = fst b /\ exists en, lookup (lit "en") (snd a) = Some en /\ snd b = entry (snd a) en) m es.
Proof.
  induction m as [|[k d] m IH]; intros H; [exists []; split; [auto|constructor]|]. cbn [write_keys].
  destruct (lookup (lit "en") d) as [en|] eqn:E; [|exfalso; eapply H; [left; reflexivity|auto]]. rewrite (write_key_lines k d en E).
  destruct IH as (es & Es & F); [intros k' d' Hi; apply (H k' d'); right; auto|]. rewrite Es. exists ((k, entry d en) :: es). split.
  - f_equal. cbn [doc_lines flat_map fst snd]. rewrite unlines_app. auto.
  - constructor; [|auto]. cbn. split; [auto|]. eauto.
Qed.
Lemma entry_in d en l v : NoDup (map fst d) -> lookup (lit "en") d = Some en -> (In (l, v) (entry d en) <-> In (l, v) d).
Proof.
  intros Hd He. unfold entry. cbn [In]. assert (Hs : In (l, v) (sort (filter (fun p => negb (eqb (fst p) (lit "en"))) d)) <-> In (l, v) d /\ l <> lit "en").
  { split; intros H.
    - apply (Permutation_in _ (sort_perm _)) in H. apply filter_In in H. destruct H as (H1 & H2). apply negb_true_iff in H2. apply eqb_no in H2. auto.
    - apply (Permutation_in _ (Permutation_sym (sort_perm _))). apply filter_In. destruct H as (H1 & H2). split; [auto|]. apply negb_true_iff. apply eqb_no. auto. }
  rewrite Hs. split.
  - intros [H|(H & _)]; [injection H as <- <-; apply lookup_in; auto|auto].
  - intros H. destruct (eqb l (lit "en")) eqn:E; [left|right; split; [auto|apply eqb_no; auto]]. apply eqb_ok in E. rewrite E in *. apply lookup_nodup in H; [|auto]. congruence.
Qed.
Lemma last_exists ts k l v : In (k, l, v) ts -> exists v', last_value ts k l v'.
Proof.
  induction ts as [|[[k' l'] v0] ts IH] using rev_ind; [intros []|]. intros H. destruct (eqb k' k && eqb l' l) eqn:E.
  - apply andb_true_iff in E. rewrite !eqb_ok in E. destruct E as (-> & ->). exists v0, ts, []. split; [auto|intros v' []].
  - apply in_app_or in H. assert (Hne : forall v', (k', l', v0) <> (k, l, v')) by (intros v' Hx; injection Hx as -> -> ->; rewrite !eqb_refl in E; discriminate).
    destruct H as [H|[H|[]]]; [|exfalso; eapply Hne; eauto]. destruct (IH H) as (v' & a & b & -> & Hb). exists v', a, (b ++ [(k', l', v0)]). rewrite <- app_assoc. split; [auto|].
    intros v'' Hi. apply in_app_or in Hi. destruct Hi as [Hi|[Hi|[]]]; [eapply Hb; eauto|eapply Hne; eauto].
Qed.
Lemma last_in ts k l v : last_value ts k l v -> In (k, l, v) ts.
Proof. intros (a & b & -> & _). apply in_or_app. right. left. auto. Qed.
Lemma last_functional ts k l v : (forall v v', In (k, l, v) ts -> In (k, l, v') ts -> v = v') -> (last_value ts k l v <-> In (k, l, v) ts).
Proof.
  intros H. split; [apply last_in|]. intros Hi. destruct (last_exists _ _ _ _ Hi) as (v' & Hl). rewrite (H v v'); auto. apply last_in. auto.
Qed.
Lemma nodup_fun {A} (m : map_of A) k v v' : NoDup (map fst m) -> In (k, v) m -> In (k, v') m -> v = v'.
Proof. intros H H1 H2. apply lookup_nodup in H1, H2; auto. congruence. Qed.
Lemma forall2_in {A B} (R : A -> B -> Prop) m es : Forall2 R m es -> (forall x, In x m -> exists y, In y es /\ R x y) /\ (forall y, In y es -> exists x, In x m /\ R x y).
Proof.
  induction 1 as [|x y m es H F (I1 & I2)]; [split; intros ? []|]. split.
  - intros z [<-|Hz]; [exists y; split; [left|]; auto|]. destruct (I1 z Hz) as (w & Hw & Hr). exists w. split; [right|]; auto.
  - intros z [<-|Hz]; [exists x; split; [left|]; auto|]. destruct (I2 z Hz) as (w & Hw & Hr). exists w. split; [right|]; auto.
Qed.
Lemma lookup2_in m k l v : ok_map m -> (lookup2 k l m = Some v <-> exists d, In (k, d) m /\ In (l, v) d).
Proof.
  intros (Hm & H). unfold lookup2. split.
  - destruct (lookup k m) as [d|] eqn:E; [|discriminate]. apply lookup_in in E. intros Hl. apply lookup_in in Hl. eauto.
  - intros (d & H1 & H2). destruct (H k d H1) as (_ & Hd & _). apply lookup_nodup in H1; [|auto]. rewrite H1. apply lookup_nodup; auto.
Qed.
Lemma header_line : trimmed (lit "# The translations are partially generated by copilot") (lit "# The translations are partially generated by copilot").
Proof. pose proof (trim_spec (lit "# The translations are partially generated by copilot")) as H. exact H. Qed.
Lemma ok_value_line l v : ok_lang l -> ok_value v -> ~ In 10%N (value_line (l, v)).
Proof.
  intros (H1 & _) (H2 & _) H. unfold value_line in H. cbn [fst snd] in H. apply in_app_or in H. destruct H as [H|H]; [auto|]. apply in_app_or in H. destruct H as [H|H]; [cbn in H; destruct H as [H|[H|[H|[]]]]; discriminate|auto].
Qed.
Lemma serialize_ok m : ok_map m -> (forall k d, In (k, d) m -> lookup (lit "en") d <> None) ->
  exists t ls ts, serialize m = Some t /\ lines_of t ls /\ reads [] ls ts /\ forall k l v, last_value ts k l v <-> lookup2 k l m = Some v.
Proof.
  intros Hm He. destruct (write_keys_lines (sort m)) as (es & Es & F).
  { intros k d Hi. apply (He k d). apply (Permutation_in _ (sort_perm m)). auto. }
  destruct (forall2_in _ _ _ F) as (F1 & F2).
  assert (Hin : forall k d, In (k, d) (sort m) <-> In (k, d) m).
  { intros k d. split; apply Permutation_in; [|apply Permutation_sym]; apply sort_perm. }
  assert (Hes : forall k e l v, In (k, e) es -> In (l, v) e -> exists d, In (k, d) m /\ In (l, v) d).
  { intros k e l v H1 H2. destruct (F2 _ H1) as ([k' d] & Hd & (Hk & en & Hen & Hee)). cbn in *. subst. exists d. apply Hin in Hd. split; [auto|]. destruct Hm as (_ & Hm). destruct (Hm _ _ Hd) as (_ & Hnd & _). eapply entry_in; eauto. }
  assert (Hse : forall k d l v, In (k, d) m -> In (l, v) d -> exists e, In (k, e) es /\ In (l, v) e).
  { intros k d l v H1 H2. apply Hin in H1. destruct (F1 _ H1) as ([k' e] & Hee & (Hk & en & Hen & Hq)). cbn in *. subst. exists (entry d en). split; [auto|]. apply Hin in H1. destruct Hm as (_ & Hm). destruct (Hm _ _ H1) as (_ & Hnd & _). apply entry_in; auto. }
  assert (Hok : forall k e, In (k, e) es -> forall l v, In (l, v) e -> ok_lang l /\ ok_value v).
  { intros k e H1 l v H2. destruct (Hes _ _ _ _ H1 H2) as (d & H3 & H4). destruct Hm as (_ & Hm). destruct (Hm _ _ H3) as (_ & _ & Hx). auto. }
  unfold serialize. rewrite Es. eexists. exists (([] :: lit "# The translations are partially generated by copilot" :: doc_lines es) ++ [[]]), (doc_triples es).
  split; [reflexivity|]. split; [|split].
  - match goal with |- lines_of ?t _ => replace t with (unlines ([] :: lit "# The translations are partially generated by copilot" :: doc_lines es)) end.
    2:{ unfold unlines. cbn [flat_map]. rewrite <- !app_assoc. auto. }
    apply unlines_lines. intros x [<-|[<-|Hx]]; [intros []| |].
    + cbv. intros Hx. repeat (destruct Hx as [Hx|Hx]; [discriminate|]). auto.
    + apply in_flat_map in Hx. destruct Hx as ([k e] & Hk & Hx). cbn [fst snd] in Hx. unfold key_lines in Hx. destruct Hx as [<-|[<-|Hx]]; [intros []| |].
      * destruct (F2 _ Hk) as ([k' d] & Hd & (Hq & _)). cbn in Hq. subst. apply Hin in Hd. destruct Hm as (_ & Hm). destruct (Hm _ _ Hd) as (Hkk & _). intros Hi. apply in_app_or in Hi. destruct Hi as [[Hi|[]]|Hi]; [discriminate|]. apply in_app_or in Hi. destruct Hi as [Hi|[Hi|[]]]; [auto|discriminate].
      * apply in_map_iff in Hx. destruct Hx as ([l v] & <- & Hlv). destruct (Hok _ _ Hk _ _ Hlv). apply ok_value_line; auto.
  - cbn [app]. eapply reads_skip; [apply skip_empty|auto|]. eapply reads_skip; [apply header_line|right; eexists; reflexivity|]. apply reads_doc. auto.
  - intros k l v. rewrite (lookup2_in m k l v Hm). assert (Hts : forall k l v, In (k, l, v) (doc_triples es) <-> exists d, In (k, d) m /\ In (l, v) d).
    { intros k0 l0 v0. unfold doc_triples. rewrite in_flat_map. split.
      - intros ([k' e] & H1 & H2). cbn [fst snd] in H2. unfold triples in H2. apply in_map_iff in H2. destruct H2 as ([l' v'] & H2 & H3). cbn in H2. injection H2 as -> -> ->. eapply Hes; eauto.
      - intros (d & H1 & H2). destruct (Hse _ _ _ _ H1 H2) as (e & H3 & H4). exists (k0, e). split; [auto|]. unfold triples. apply in_map_iff. exists (l0, v0). auto. }
    rewrite last_functional; [apply Hts|]. intros v1 v2 H1 H2. apply Hts in H1, H2. destruct H1 as (d1 & A1 & B1), H2 as (d2 & A2 & B2). destruct Hm as (Hnd & Hm).
    assert (d1 = d2) by (eapply nodup_fun; eauto). subst. destruct (Hm _ _ A2) as (_ & Hd & _). eapply nodup_fun; eauto.
Qed.

(** * What is read can be written *)

Lemma reads_ok key ls ts : reads key ls ts -> ok_key key -> (forall l, In l ls -> ~ In 10%N l) -> forall k l v, In (k, l, v) ts -> ok_key k /\ ok_lang l /\ ok_value v.
Proof.
  induction 1 as [key|key l t ls ts Ht Hs H IH|key l k c ls ts Ht Hc H IH|key l a b lang v ls ts Ht Ha H35 H91 Hl Hv H IH]; intros Hk Hls k' l' v' Hi.
  - destruct Hi.
  - eapply IH; eauto. intros x Hx. apply Hls. right. auto.
  - eapply IH; eauto; [|intros x Hx; apply Hls; right; auto]. intros Hn. apply (Hls l (or_introl eq_refl)). eapply trimmed_in; eauto. right. apply in_or_app. auto.
  - destruct Hi as [Hi|Hi]; [|eapply IH; eauto; intros x Hx; apply Hls; right; auto]. injection Hi as <- <- <-.
    assert (Hn : ~ In 10%N (a ++ 61%N :: b)) by (intros Hn; apply (Hls l (or_introl eq_refl)); eapply trimmed_in; eauto).
    assert (Hp : exists y, a = lang ++ y).
    { destruct Hl as (x & y & E & Hx & _). destruct x as [|c x]; [exists y; auto|]. exfalso. destruct Ht as (p & q & _ & _ & _ & Hf & _). specialize (Hx c (or_introl eq_refl)). rewrite (Hf c ((x ++ lang ++ y) ++ 61%N :: b)) in Hx; [discriminate|]. rewrite E. auto. }
    destruct Hp as (y & Hy). split; [auto|]. split; [split; [|split; [|split; [|split]]]|split].
    + intros Hx. apply Hn. apply in_or_app. left. rewrite Hy. apply in_or_app. auto.
    + intros Hx. apply Ha. rewrite Hy. apply in_or_app. auto.
    + eapply trimmed_clean; eauto.
    + intros r E. apply (H35 (r ++ y)). rewrite Hy, E. auto.
    + intros r E. apply (H91 (r ++ y)). rewrite Hy, E. auto.
    + intros Hx. apply Hn. apply in_or_app. right. right. eapply trimmed_in; eauto.
    + eapply trimmed_clean; eauto.
Qed.
Lemma insert2_ok k l v m : ok_map m -> ok_key k -> ok_lang l -> ok_value v -> ok_map (insert2 k l v m).
Proof.
  intros (Hm & H) Hk Hl Hv. unfold insert2. split; [apply insert_nodup; auto|]. intros k' d Hi. apply insert_in in Hi. destruct Hi as [(-> & ->)|Hi]; [|auto].
  split; [auto|]. destruct (lookup k m) as [d0|] eqn:E.
  - apply lookup_in in E. destruct (H _ _ E) as (_ & Hd & Hx). split; [apply insert_nodup; auto|]. intros l' v' Hi. apply insert_in in Hi. destruct Hi as [(-> & ->)|Hi]; auto.
  - cbn. split; [constructor; [intros []|constructor]|]. intros l' v' [Hi|[]]. injection Hi as <- <-. auto.
Qed.
Lemma fold_ok ts : forall m, ok_map m -> (forall k l v, In (k, l, v) ts -> ok_key k /\ ok_lang l /\ ok_value v) -> ok_map (fold_left (add true) ts m).
Proof.
  induction ts as [|[[k l] v] ts IH]; intros m Hm H; [auto|]. cbn [fold_left]. apply IH; [|intros k' l' v' Hi; apply H; right; auto]. destruct (H k l v (or_introl eq_refl)) as (H1 & H2 & H3). cbn [add]. apply insert2_ok; auto.
Qed.
Lemma nil_ok : ok_map [].
Proof. split; [constructor|intros k d []]. Qed.

(** * Updating *)

Definition en_step (m : map_of (map_of text)) (p : text * text) := insert2 (fst p) (lit "en") (snd p) m.
Lemma lookup2_filter f (m : map_of (map_of text)) k l : lookup2 k l (filter (fun p => f (fst p)) m) = if f k then lookup2 k l m else None.
Proof.
  unfold lookup2, lookup. induction m as [|[x d] m IH]; cbn [filter find fst]; [destruct (f k); auto|]. destruct (f x) eqn:Fx; cbn [find fst].
  - destruct (eqb x k) eqn:E; [apply eqb_ok in E; subst; rewrite Fx; auto|auto].
  - destruct (eqb x k) eqn:E; [apply eqb_ok in E; subst; rewrite Fx in *; auto|auto].
Qed.
Lemma fold_en kvs : forall m k l, lookup2 k l (fold_left en_step kvs m) =
  fold_left (fun acc p => if eqb (fst p) k && eqb (lit "en") l then Some (snd p) else acc) kvs (lookup2 k l m).
Proof. induction kvs as [|[k' v] kvs IH]; intros m k l; [auto|]. cbn [fold_left]. rewrite IH. unfold en_step at 1. rewrite lookup2_insert2. auto. Qed.
Lemma fold_kv kvs : forall k acc v,
  fold_left (fun (acc : option text) (p : text * text) => if eqb (fst p) k && true then Some (snd p) else acc) kvs acc = Some v <-> last_kv kvs k v \/ (acc = Some v /\ forall v', ~ In (k, v') kvs).
Proof.
  induction kvs as [|[k' v0] kvs IH] using rev_ind; intros k acc v.
  - cbn. split; [auto|]. intros [(a & b & H & _)|(H & _)]; [destruct a; discriminate|auto].
  - rewrite fold_left_app. cbn [fold_left fst snd]. destruct (eqb k' k) eqn:E; cbn [andb].
    + apply eqb_ok in E. subst. split.
      * intros H. injection H as <-. left. exists kvs, []. split; [auto|intros v' []].
      * intros [(a & b & H & Hb)|(_ & H)].
        -- destruct b as [|x b _] using rev_ind; [apply app_inj_tail in H; destruct H; congruence|]. rewrite app_comm_cons, app_assoc in H. apply app_inj_tail in H. destruct H as (_ & <-).
           exfalso. apply (Hb v0). apply in_or_app. right. left. auto.
        -- exfalso. apply (H v0). apply in_or_app. right. left. auto.
    + rewrite IH. assert (Hne : forall v', (k', v0) <> (k, v')) by (intros v' Hx; injection Hx as -> ->; rewrite eqb_refl in E; discriminate). split.
      * intros [(a & b & -> & Hb)|(Ha & Hn)].
        -- left. exists a, (b ++ [(k', v0)]). rewrite <- app_assoc. split; [auto|]. intros v' Hi. apply in_app_or in Hi. destruct Hi as [Hi|[Hi|[]]]; [eapply Hb; eauto|eapply Hne; eauto].
        -- right. split; [auto|]. intros v' Hi. apply in_app_or in Hi. destruct Hi as [Hi|[Hi|[]]]; [eapply Hn; eauto|eapply Hne; eauto].
      * intros [(a & b & H & Hb)|(Ha & Hn)].
        -- left. destruct b as [|x b _] using rev_ind; [apply app_inj_tail in H; destruct H as (_ & H); exfalso; eapply Hne; eauto|].
           rewrite app_comm_cons, app_assoc in H. apply app_inj_tail in H. destruct H as (-> & _). exists a, b. split; [auto|]. intros v' Hi. apply (Hb v'). apply in_or_app. auto.
        -- right. split; [auto|]. intros v' Hi. apply (Hn v'). apply in_or_app. auto.
Qed.
Lemma fold_filter kvs : forall k acc, fold_left (fun (acc : option text) (p : text * text) => if eqb (fst p) k && true then Some (snd p) else acc) kvs acc =
  fold_left (fun (acc : option text) (p : text * text) => if eqb (fst p) k && true then Some (snd p) else acc) (filter (fun p => eqb (fst p) k) kvs) acc.
Proof.
  induction kvs as [|[k' v] kvs IH]; intros k acc; [auto|]. cbn [fold_left filter fst snd]. destruct (eqb k' k) eqn:E; cbn [andb fold_left fst snd]; [rewrite E|]; apply IH.
Qed.
Lemma last_kv_sort kvs k v : last_kv (sort kvs) k v <-> last_kv kvs k v.
Proof.
  assert (H : forall l, last_kv l k v <-> fold_left (fun (acc : option text) (p : text * text) => if eqb (fst p) k && true then Some (snd p) else acc) l None = Some v).
  { intros l. rewrite fold_kv. split; [auto|]. intros [H|(H & _)]; [auto|discriminate]. }
  rewrite !H, fold_filter, sort_filter, <- fold_filter. tauto.
Qed.
Lemma fold_same kvs : forall k l acc, eqb (lit "en") l = false -> fold_left (fun (acc : option text) (p : text * text) => if eqb (fst p) k && eqb (lit "en") l then Some (snd p) else acc) kvs acc = acc.
Proof. induction kvs as [|p kvs IH]; intros k l acc H; [auto|]. cbn [fold_left]. rewrite (IH k l _ H), H, andb_false_r. auto. Qed.
Lemma last_kv_exists kvs k w : In (k, w) kvs -> exists v, last_kv kvs k v.
Proof.
  induction kvs as [|[k' v0] kvs IH] using rev_ind; [intros []|]. intros H. destruct (eqb k' k) eqn:E.
  - apply eqb_ok in E. subst. exists v0, kvs, []. split; [auto|intros v' []].
  - assert (Hne : forall v', (k', v0) <> (k, v')) by (intros v' Hx; injection Hx as -> ->; rewrite eqb_refl in E; discriminate). apply in_app_or in H. destruct H as [H|[H|[]]]; [|exfalso; eapply Hne; eauto].
    destruct (IH H) as (v & a & b & -> & Hb). exists v, a, (b ++ [(k', v0)]). rewrite <- app_assoc. split; [auto|]. intros v' Hi. apply in_app_or in Hi. destruct Hi as [Hi|[Hi|[]]]; [eapply Hb; eauto|eapply Hne; eauto].
Qed.
Lemma used_ok (kvs : list (text * text)) k : existsb (fun q => eqb (fst q) k) kvs = true <-> exists w, In (k, w) kvs.
Proof.
  rewrite existsb_exists. split.
  - intros ([k' w] & H & E). apply eqb_ok in E. cbn in E. subst. eauto.
  - intros (w & H). exists (k, w). split; [auto|apply eqb_refl].
Qed.
Lemma update_lookup kvs m k l v : lookup2 k l (update_translations kvs m) = Some v <->
  (l = lit "en" /\ last_kv kvs k v) \/ (l <> lit "en" /\ (exists w, In (k, w) kvs) /\ lookup2 k l m = Some v).
Proof.
  unfold update_translations. change (fun m p => insert2 (fst p) (lit "en") (snd p) m) with en_step. rewrite fold_en. rewrite (lookup2_filter (fun k => existsb (fun q => eqb (fst q) k) kvs)). destruct (eqb (lit "en") l) eqn:E.
  - apply eqb_ok in E. rewrite <- E. rewrite fold_kv. split.
    + intros [H|(H & Hn)]; [auto|]. exfalso. destruct (existsb _ kvs) eqn:U; [|discriminate]. apply used_ok in U. destruct U as (w & U). eapply Hn; eauto.
    + intros [(_ & H)|(H & _)]; [auto|contradiction].
  - pose proof (fold_same kvs k l (if existsb (fun q => eqb (fst q) k) kvs then lookup2 k l m else None) E) as F. rewrite E in F. rewrite F. apply eqb_no in E. destruct (existsb (fun q => eqb (fst q) k) kvs) eqn:U.
    + apply used_ok in U. split; [intros H; right; auto|]. intros [(H & _)|(_ & _ & H)]; [exfalso; auto|auto].
    + split; [discriminate|]. intros [(H & _)|(_ & H & _)]; [exfalso; auto|]. apply used_ok in H. congruence.
Qed.
Lemma filter_ok f m : ok_map m -> ok_map (filter f m).
Proof.
  intros (H1 & H2). split; [|intros k d Hi; apply filter_In in Hi; destruct Hi; apply H2; auto].
  clear H2. induction m as [|x m IH]; [constructor|]. cbn in *. inversion H1 as [|y l Hx Hd]; subst. destruct (f x); [|auto]. cbn. constructor; [|auto]. intros Hi. apply Hx. apply in_map_iff in Hi. destruct Hi as (z & E & Hz). apply filter_In in Hz. apply in_map_iff. exists z. tauto.
Qed.
Lemma en_ok : ok_lang (lit "en").
Proof.
  split; [intros [H|[H|[]]]; discriminate|]. split; [intros [H|[H|[]]]; discriminate|]. split; [exact (trim_spec (lit "en"))|]. split; intros r H; discriminate.
Qed.
Lemma update_ok kvs m : ok_map m -> (forall k v, In (k, v) kvs -> ok_key k /\ ok_value v) -> ok_map (update_translations kvs m).
Proof.
  intros Hm H. unfold update_translations. change (fun m p => insert2 (fst p) (lit "en") (snd p) m) with en_step.
  assert (G : forall kvs m, ok_map m -> (forall k v, In (k, v) kvs -> ok_key k /\ ok_value v) -> ok_map (fold_left en_step kvs m)).
  { clear. induction kvs as [|[k v] kvs IH]; intros m Hm H; [auto|]. cbn [fold_left]. apply IH; [|intros k' v' Hi; apply H; right; auto]. destruct (H k v (or_introl eq_refl)). unfold en_step. cbn [fst snd]. apply insert2_ok; auto. apply en_ok. }
  apply G; [apply filter_ok; auto|auto].
Qed.
Lemma insert2_fst k l v m x : In x (map fst (insert2 k l v m)) <-> x = k \/ In x (map fst m).
Proof. apply insert_fst. Qed.
Lemma update_keys kvs m k d : In (k, d) (update_translations kvs m) -> exists w, In (k, w) kvs.
Proof.
  unfold update_translations. change (fun m p => insert2 (fst p) (lit "en") (snd p) m) with en_step. intros H.
  assert (G : forall l m, In k (map fst (fold_left en_step l m)) -> In k (map fst l) \/ In k (map fst m)).
  { clear. induction l as [|[k' v] l IH]; intros m H; [auto|]. cbn [fold_left] in H. apply IH in H. destruct H as [H|H]; [left; right; auto|]. unfold en_step in H. cbn [fst snd] in H. apply insert2_fst in H. destruct H as [H|H]; [left; left; auto|auto]. }
  assert (Hk : In k (map fst (fold_left en_step kvs (filter (fun p => existsb (fun q => eqb (fst q) (fst p)) kvs) m)))) by (apply in_map_iff; exists (k, d); auto).
  apply G in Hk. destruct Hk as [Hk|Hk].
  - apply in_map_iff in Hk. destruct Hk as ([a b] & <- & Hk). eauto.
  - apply in_map_iff in Hk. destruct Hk as ([a b] & <- & Hk). apply filter_In in Hk. destruct Hk as (_ & Hk). apply used_ok in Hk. auto.
Qed.
Lemma update_en kvs m k d : ok_map m -> (forall k v, In (k, v) kvs -> ok_key k /\ ok_value v) -> In (k, d) (update_translations kvs m) -> lookup (lit "en") d <> None.
Proof.
  intros Hm Hk H. destruct (update_keys _ _ _ _ H) as (w & Hw). destruct (last_kv_exists _ _ _ Hw) as (v & Hv).
  assert (E : lookup2 k (lit "en") (update_translations kvs m) = Some v) by (apply update_lookup; auto). pose proof (update_ok _ _ Hm Hk) as (Hnd & _). unfold lookup2 in E. apply lookup_nodup in H; [|auto]. rewrite H in E. congruence.
Qed.

(** * Literals *)

Lemma str_end_literal k : literal k -> forall r, str_end false (k ++ 34%N :: r) = Some (k, r).
Proof.
  induction 1 as [|c s H1 H2 H IH|c s H IH]; intros r; cbn [app str_end]; [auto| |].
  - apply N.eqb_neq in H1, H2. rewrite H1, H2, IH. auto.
  - cbn. rewrite IH. auto.
Qed.
Lemma str_end_spec : forall n s k r, length s <= n -> str_end false s = Some (k, r) -> s = k ++ 34%N :: r /\ literal k.
Proof.
  induction n as [|n IH]; intros s k r Hn H; [destruct s; [discriminate|cbn in Hn; lia]|]. destruct s as [|c s]; [discriminate|]. cbn [str_end] in H.
  destruct (N.eqb_spec c 92) as [->|H1].
  - destruct s as [|d s]; [discriminate|]. cbn [str_end] in H. destruct (str_end false s) as [[a b]|] eqn:E; [|discriminate]. injection H as <- <-. apply IH in E; [|cbn in Hn; lia]. destruct E as (-> & Ha). split; [auto|]. apply literal_escape. auto.
  - destruct (N.eqb_spec c 34) as [->|H2]; [injection H as <- <-; split; [auto|constructor]|]. destruct (str_end false s) as [[a b]|] eqn:E; [|discriminate]. injection H as <- <-. apply IH in E; [|cbn in Hn; lia]. destruct E as (-> & Ha). split; [auto|]. constructor; auto.
Qed.
Lemma parse_char_iff c s r : white c = false -> (parse_char c s = Some r <-> exists w, blank w /\ s = w ++ c :: r).
Proof.
  intros Hc. unfold parse_char. split.
  - intros H. destruct (trim_start_spec s) as (a & E & Ha & _). pose proof (strip_spec [c] (trim_start s)) as S. rewrite H in S. exists a. split; [auto|]. rewrite S in E. auto.
  - intros (w & Hw & ->). rewrite trim_start_white by auto. rewrite trim_start_id; [apply (strip_app [c])|]. intros d q E. injection E as <- _. auto.
Qed.
Lemma parse_str_iff s k r : parse_str s = Some (k, r) <-> exists w, blank w /\ literal k /\ s = w ++ in_quotes k ++ r.
Proof.
  unfold parse_str, in_quotes. destruct (parse_char 34 s) as [s'|] eqn:E.
  - apply parse_char_iff in E; [|auto]. destruct E as (w & Hw & ->). split.
    + intros H. apply str_end_spec with (n := length s') in H; [|auto]. destruct H as (-> & H). exists w. split; [auto|]. split; [auto|]. cbn. rewrite <- app_assoc. auto.
    + intros (w' & Hw' & Hk & H). assert (P : parse_char 34 (w ++ 34%N :: s') = Some s') by (apply parse_char_iff; eauto).
      assert (P' : parse_char 34 (w ++ 34%N :: s') = Some (k ++ 34%N :: r)).
      { apply parse_char_iff; [auto|]. exists w'. split; [auto|]. rewrite H. cbn. rewrite <- app_assoc. auto. }
      rewrite P in P'. injection P' as ->. apply str_end_literal. auto.
  - split; [discriminate|]. intros (w & Hw & Hk & H). assert (P : parse_char 34 s = Some (k ++ 34%N :: r)).
    { apply parse_char_iff; [auto|]. exists w. split; [auto|]. rewrite H. cbn. rewrite <- app_assoc. auto. }
    congruence.
Qed.
Lemma args_rs_iff s k x : args_rs s = Some (k, x) <-> exists v w1 w2 w3 w4 post, x = in_quotes v /\ s = w1 ++ lit "(" ++ w2 ++ in_quotes k ++ w3 ++ lit "," ++ w4 ++ in_quotes v ++ post /\
  blank w1 /\ blank w2 /\ blank w3 /\ blank w4 /\ literal k /\ literal v.
Proof.
  unfold args_rs. split.
  - intros H. destruct (parse_char 40 s) as [s1|] eqn:E1; [|discriminate]. apply parse_char_iff in E1; [|auto]. destruct E1 as (w1 & Hw1 & ->).
    destruct (parse_str s1) as [[k' s2]|] eqn:E2; [|discriminate]. apply parse_str_iff in E2. destruct E2 as (w2 & Hw2 & Hk & ->).
    destruct (parse_char 44 s2) as [s3|] eqn:E3; [|discriminate]. apply parse_char_iff in E3; [|auto]. destruct E3 as (w3 & Hw3 & ->).
    destruct (parse_str s3) as [[v' s4]|] eqn:E4; [|discriminate]. apply parse_str_iff in E4. destruct E4 as (w4 & Hw4 & Hv & ->).
    injection H as <- <-. exists v', w1, w2, w3, w4, s4. repeat (split; [auto|]). auto.
  - intros (v & w1 & w2 & w3 & w4 & post & -> & -> & H1 & H2 & H3 & H4 & Hk & Hv).
    assert (E1 : parse_char 40 (w1 ++ lit "(" ++ w2 ++ in_quotes k ++ w3 ++ lit "," ++ w4 ++ in_quotes v ++ post) = Some (w2 ++ in_quotes k ++ w3 ++ lit "," ++ w4 ++ in_quotes v ++ post)) by (apply parse_char_iff; [auto|exists w1; auto]).
    rewrite E1. assert (E2 : parse_str (w2 ++ in_quotes k ++ w3 ++ lit "," ++ w4 ++ in_quotes v ++ post) = Some (k, w3 ++ lit "," ++ w4 ++ in_quotes v ++ post)) by (apply parse_str_iff; exists w2; auto).
    rewrite E2. assert (E3 : parse_char 44 (w3 ++ lit "," ++ w4 ++ in_quotes v ++ post) = Some (w4 ++ in_quotes v ++ post)) by (apply parse_char_iff; [auto|exists w3; auto]).
    rewrite E3. assert (E4 : parse_str (w4 ++ in_quotes v ++ post) = Some (v, post)) by (apply parse_str_iff; exists w4; auto). rewrite E4. auto.
Qed.
Lemma args_ts_iff s x y : args_ts s = Some (x, y) <-> exists k w1 w2 post, x = in_quotes k /\ y = in_quotes k /\ s = w1 ++ lit "(" ++ w2 ++ in_quotes k ++ post /\ blank w1 /\ blank w2 /\ literal k.
Proof.
  unfold args_ts. split.
  - intros H. destruct (parse_char 40 s) as [s1|] eqn:E1; [|discriminate]. apply parse_char_iff in E1; [|auto]. destruct E1 as (w1 & Hw1 & ->).
    destruct (parse_str s1) as [[k' s2]|] eqn:E2; [|discriminate]. apply parse_str_iff in E2. destruct E2 as (w2 & Hw2 & Hk & ->). injection H as <- <-. exists k', w1, w2, s2. repeat (split; [auto|]). auto.
  - intros (k & w1 & w2 & post & -> & -> & -> & H1 & H2 & Hk).
    assert (E1 : parse_char 40 (w1 ++ lit "(" ++ w2 ++ in_quotes k ++ post) = Some (w2 ++ in_quotes k ++ post)) by (apply parse_char_iff; [auto|exists w1; auto]).
    rewrite E1. assert (E2 : parse_str (w2 ++ in_quotes k ++ post) = Some (k, post)) by (apply parse_str_iff; exists w2; auto). rewrite E2. auto.
Qed.
Lemma calls_in is_rs x : forall s, In x (calls is_rs s) <-> exists pre s', s = pre ++ s' /\ call_at is_rs s' = Some x.
Proof.
  induction s as [|c s IH].
  - cbn. split; [intros []|]. intros (pre & s' & H & E). destruct pre; [|discriminate]. cbn in H. subst. destruct is_rs; discriminate.
  - cbn [calls]. split.
    + intros H. destruct (call_at is_rs (c :: s)) as [y|] eqn:E.
      * destruct H as [<-|H]; [exists [], (c :: s); auto|]. apply IH in H. destruct H as (pre & s' & -> & H). exists (c :: pre), s'. auto.
      * apply IH in H. destruct H as (pre & s' & -> & H). exists (c :: pre), s'. auto.
    + intros (pre & s' & H & E). destruct pre as [|d pre].
      * cbn in H. subst. rewrite E. left. auto.
      * injection H as -> H. assert (Hi : In x (calls is_rs s)) by (apply IH; eauto). destruct (call_at is_rs (d :: s)); [right|]; auto.
Qed.
Lemma calls_rs content k x : In (k, x) (calls true content) <-> exists v, x = in_quotes v /\ is_call content k v.
Proof.
  rewrite calls_in. unfold call_at. split.
  - intros (pre & s' & -> & H). pose proof (strip_spec (lit "tinymist_l10n::") s') as S0. destruct (strip_prefix (lit "tinymist_l10n::") s') as [s1|]; [|discriminate].
    pose proof (strip_spec (lit "t!") s1) as S1. pose proof (strip_spec (lit "bail!") s1) as S2. assert (Hm : exists m s2, s1 = m ++ s2 /\ (m = lit "t!" \/ m = lit "bail!") /\ args_rs s2 = Some (k, x)).
    { destruct (strip_prefix (lit "t!") s1) as [s2|]; [exists (lit "t!"), s2; auto|]. destruct (strip_prefix (lit "bail!") s1) as [s2|]; [exists (lit "bail!"), s2; auto|discriminate]. }
    destruct Hm as (m & s2 & -> & Hm & Ha). apply args_rs_iff in Ha. destruct Ha as (v & w1 & w2 & w3 & w4 & post & -> & -> & A). exists v. split; [auto|]. exists pre, m, w1, w2, w3, w4, post. rewrite S0. split; [auto|]. tauto.
  - intros (v & -> & pre & m & w1 & w2 & w3 & w4 & post & -> & Hm & A). eexists pre, _. split; [reflexivity|]. rewrite strip_app.
    assert (Ha : args_rs (w1 ++ lit "(" ++ w2 ++ in_quotes k ++ w3 ++ lit "," ++ w4 ++ in_quotes v ++ post) = Some (k, in_quotes v)) by (apply args_rs_iff; exists v, w1, w2, w3, w4, post; tauto).
    destruct Hm as [->| ->].
    + rewrite strip_app. auto.
    + match goal with |- context [strip_prefix (lit "t!") ?q] => change (strip_prefix (lit "t!") q) with (@None text) end. rewrite strip_app. auto.
Qed.
Lemma calls_ts content x y : In (x, y) (calls false content) <-> exists k, x = in_quotes k /\ y = in_quotes k /\ is_call_ts content k.
Proof.
  rewrite calls_in. unfold call_at. split.
  - intros (pre & s' & -> & H). pose proof (strip_spec (lit "l10nMsg") s') as S0. destruct (strip_prefix (lit "l10nMsg") s') as [s1|]; [|discriminate]. apply args_ts_iff in H. destruct H as (k & w1 & w2 & post & -> & -> & -> & A). exists k. split; [auto|]. split; [auto|]. exists pre, w1, w2, post. rewrite S0. tauto.
  - intros (k & -> & -> & pre & w1 & w2 & post & -> & A). eexists pre, _. split; [reflexivity|]. rewrite strip_app. apply args_ts_iff. exists k, w1, w2, post. tauto.
Qed.

(** * Loading *)

Lemma load_one_ok json w v : load_one json w = Some v <-> decoded json w v.
Proof.
  unfold load_one, decoded. pose proof (strip_spec [34%N] w) as S. destruct (strip_prefix [34%N] w) as [r|].
  - cbn in S. split; [intros H; left; eauto|]. intros [(_ & H)|(H & _)]; [auto|]. exfalso. eapply H; eauto.
  - split; [intros H; injection H as <-; right; split; [intros r H; eapply S; exact H|auto]|]. intros [((r & H) & _)|(_ & ->)]; [exfalso; eapply S; exact H|auto].
Qed.
Lemma load_map_lookup json m m' k : load_map json m = Some m' -> lookup k m' = match lookup k m with Some w => load_one json w | None => None end.
Proof.
  revert m'. induction m as [|[x w] m IH]; intros m' H; cbn in H; [injection H as <-; auto|]. destruct (load_one json w) as [v|] eqn:E; [|discriminate]. destruct (load_map json m) as [m''|]; [|discriminate]. injection H as <-.
  specialize (IH _ eq_refl). unfold lookup in *. cbn [find fst]. destruct (eqb x k); [cbn; auto|auto].
Qed.
Lemma load_maps_lookup json m m' : load_maps json m = Some m' -> forall l k, lookup2 l k m' = match lookup2 l k m with Some w => load_one json w | None => None end.
Proof.
  revert m'. induction m as [|[x d] m IH]; intros m' H l k; cbn in H; [injection H as <-; auto|]. destruct (load_map json d) as [d'|] eqn:E; [|discriminate]. destruct (load_maps json m) as [m''|]; [|discriminate]. injection H as <-.
  specialize (IH _ eq_refl l k). unfold lookup2, lookup in *. cbn [find fst]. destruct (eqb x l); [cbn [snd]; apply (load_map_lookup json d d' k) in E; exact E|auto].
Qed.
Lemma load_map_total json m : (forall k w, In (k, w) m -> load_one json w <> None) -> exists m', load_map json m = Some m'.
Proof.
  induction m as [|[k w] m IH]; intros H; cbn; [eauto|]. destruct (load_one json w) eqn:E; [|exfalso; eapply H; [left; reflexivity|auto]]. destruct IH as (m' & ->); [intros k' w' Hi; apply (H k' w'); right; auto|]. eauto.
Qed.
Lemma load_maps_total json m : (forall l d k w, In (l, d) m -> In (k, w) d -> load_one json w <> None) -> exists m', load_maps json m = Some m'.
Proof.
  induction m as [|[l d] m IH]; intros H; cbn; [eauto|]. destruct (load_map_total json d) as (d' & ->); [intros k w Hi; eapply H; [left; reflexivity|eauto]|]. destruct IH as (m' & ->); [intros l' d0 k w H1 H2; eapply H; [right; eauto|eauto]|]. eauto.
Qed.
Lemma load_one_total json w : load_one json w <> None <-> exists v, decoded json w v.
Proof. split; [intros H; destruct (load_one json w) as [v|] eqn:E; [exists v; apply load_one_ok; auto|contradiction]|intros (v & H); apply load_one_ok in H; congruence]. Qed.
(** Both levels of what is read have no key twice. *)
Definition nodup2 (m : map_of (map_of text)) : Prop := NoDup (map fst m) /\ forall k d, In (k, d) m -> NoDup (map fst d).
Lemma insert2_nodup k l v m : nodup2 m -> nodup2 (insert2 k l v m).
Proof.
  intros (Hm & H). unfold insert2. split; [apply insert_nodup; auto|]. intros k' d Hi. apply insert_in in Hi. destruct Hi as [(-> & ->)|Hi]; [|eauto]. apply insert_nodup. destruct (lookup k m) as [d0|] eqn:E; [|constructor]. apply lookup_in in E. eauto.
Qed.
Lemma fold_nodup kf ts : forall m, nodup2 m -> nodup2 (fold_left (add kf) ts m).
Proof. induction ts as [|[[k l] v] ts IH]; intros m H; [auto|]. cbn [fold_left]. apply IH. cbn [add]. destruct kf; apply insert2_nodup; auto. Qed.
Lemma nodup2_lookup m l d k w : nodup2 m -> In (l, d) m -> In (k, w) d -> lookup2 l k m = Some w.
Proof. intros (H1 & H2) A B. unfold lookup2. assert (C := H2 _ _ A). apply lookup_nodup in A; [|auto]. rewrite A. apply lookup_nodup; auto. Qed.
