(** Proofs about the interner. *)
From Coq Require Import List Arith Bool Lia.
From Verif Require Import InternModel InternSpec.
Import ListNotations.

(** * Lists *)
Lemma set_nth_length {A} (x : A) : forall l n, length (set_nth n x l) = length l.
Proof. induction l as [|y l IH]; intros [|n]; cbn; auto. Qed.
Lemma set_nth_eq {A} (x : A) : forall l n, n < length l -> nth_error (set_nth n x l) n = Some x.
Proof. induction l as [|y l IH]; intros [|n] H; cbn in *; try lia; auto. apply IH. lia. Qed.
Lemma set_nth_neq {A} (x : A) : forall l n m, m <> n -> nth_error (set_nth n x l) m = nth_error l m.
Proof. induction l as [|y l IH]; intros [|n] [|m] H; cbn; auto; try contradiction. Qed.
Lemma nth_error_lt {A} (l : list A) n x : nth_error l n = Some x -> n < length l.
Proof. intros H. apply nth_error_Some. congruence. Qed.
Definition holds (a : nat) (h : handle) : bool := (h_arc h =? a) && match h_phase h with Gone => false | _ => true end.
Definition refs (a : nat) (l : list handle) : nat := length (filter (holds a) l).
Definition b2n (b : bool) : nat := if b then 1 else 0.
Lemma refs_app a l m : refs a (l ++ m) = refs a l + refs a m.
Proof. unfold refs. rewrite filter_app, app_length. reflexivity. Qed.
Lemma refs_set a : forall l i h g, nth_error l i = Some h -> refs a (set_nth i g l) + b2n (holds a h) = refs a l + b2n (holds a g).
Proof.
  induction l as [|y l IH]; intros [|i] h g H; cbn in H; try discriminate H.
  - injection H as ->. unfold refs. cbn. destruct (holds a h), (holds a g); cbn; lia.
  - specialize (IH i h g H). unfold refs in *. cbn. destruct (holds a y); cbn; lia.
Qed.
Lemma refs_two a : forall l i j h g, nth_error l i = Some h -> nth_error l j = Some g -> i <> j -> holds a h = true -> holds a g = true -> 2 <= refs a l.
Proof.
  assert (K : forall l i h, nth_error l i = Some h -> holds a h = true -> 1 <= refs a l).
  { induction l as [|y l IH]; intros [|i] h H P; cbn in H; try discriminate H.
    - injection H as ->. unfold refs. cbn. rewrite P. cbn. lia.
    - specialize (IH i h H P). unfold refs in *. cbn. destruct (holds a y); cbn; lia. }
  induction l as [|y l IH]; intros [|i] [|j] h g H G N P Q; cbn in H, G; try discriminate; try contradiction.
  - injection H as ->. specialize (K l j g G Q). unfold refs in *. cbn. rewrite P. cbn. lia.
  - injection G as ->. specialize (K l i h H P). unfold refs in *. cbn. rewrite Q. cbn. lia.
  - specialize (IH i j h g H G ltac:(congruence) P Q). unfold refs in *. cbn. destruct (holds a y); cbn; lia.
Qed.
Lemma refs_one a : forall l i h, nth_error l i = Some h -> holds a h = true -> 1 <= refs a l.
Proof.
  induction l as [|y l IH]; intros [|i] h H P; cbn in H; try discriminate H.
  - injection H as ->. unfold refs. cbn. rewrite P. cbn. lia.
  - specialize (IH i h H P). unfold refs in *. cbn. destruct (holds a y); cbn; lia.
Qed.
Lemma refs_in a : forall l, 1 <= refs a l -> exists i h, nth_error l i = Some h /\ holds a h = true.
Proof.
  induction l as [|y l IH]; intros H; [cbn in H; lia|]. unfold refs in *. cbn in H. destruct (holds a y) eqn:P.
  - exists 0, y. auto.
  - destruct IH as (i & h & E); [exact H|]. exists (S i), h. exact E.
Qed.
Lemma refs_other a : forall l i h, nth_error l i = Some h -> 2 <= refs a l -> exists j g, j <> i /\ nth_error l j = Some g /\ holds a g = true.
Proof.
  induction l as [|y l IH]; intros [|i] h H R; cbn in H; try discriminate H.
  - injection H as ->. assert (1 <= refs a l) as R1 by (unfold refs in *; cbn in R; destruct (holds a h); cbn in R; lia).
    destruct (refs_in a l R1) as (j & g & E & P). exists (S j), g. repeat split; auto.
  - destruct (holds a y) eqn:P; [exists 0, y; repeat split; auto|].
    destruct (IH i h H) as (j & g & N & E & Q); [unfold refs in *; cbn in R; rewrite P in R; exact R|]. exists (S j), g. repeat split; auto.
Qed.
Lemma holds_iff a h : holds a h = true <-> h_arc h = a /\ present h.
Proof.
  unfold holds, present. destruct h as [b ph]. cbn. rewrite andb_true_iff, Nat.eqb_eq.
  destruct ph; split; intros (H1 & H2); split; auto; try discriminate; destruct (H2 eq_refl).
Qed.

(** * Cells *)
Lemma recount_length a f l : length (recount a f l) = length l.
Proof. unfold recount. destruct (nth_error l a); [apply set_nth_length|reflexivity]. Qed.
Lemma nth_set {A} (d x : A) l n m : nth m (set_nth n x l) d = if (m =? n) && (n <? length l) then x else nth m l d.
Proof.
  revert n m. induction l as [|y l IH]; intros [|n] [|m]; cbn; try reflexivity; try (destruct (m =? n); reflexivity).
  rewrite IH. reflexivity.
Qed.
Lemma nth_recount a f l m : nth m (recount a f l) (mkC 0 0) = if (m =? a) && (a <? length l) then mkC (c_content (nth m l (mkC 0 0))) (f (c_count (nth m l (mkC 0 0)))) else nth m l (mkC 0 0).
Proof.
  unfold recount. destruct (nth_error l a) as [c|] eqn:E.
  - rewrite nth_set. destruct (Nat.eqb_spec m a) as [-> |N]; [|reflexivity]. destruct (a <? length l); cbn; [|reflexivity].
    rewrite (nth_error_nth l a (mkC 0 0) E). reflexivity.
  - apply nth_error_None in E. destruct (Nat.ltb_spec a (length l)); [lia|]. rewrite andb_false_r. reflexivity.
Qed.
Lemma content_recount a f l m : c_content (nth m (recount a f l) (mkC 0 0)) = c_content (nth m l (mkC 0 0)).
Proof. rewrite nth_recount. destruct (_ && _); reflexivity. Qed.
Lemma count_recount a f l m : a < length l -> c_count (nth m (recount a f l) (mkC 0 0)) = if m =? a then f (c_count (nth m l (mkC 0 0))) else c_count (nth m l (mkC 0 0)).
Proof. intros H. rewrite nth_recount. apply Nat.ltb_lt in H. rewrite H, andb_true_r. destruct (m =? a); reflexivity. Qed.

(** * The invariant *)
Section Shards.
Variable sh : nat -> nat.
Definition held (ph : phase) : bool := match ph with Locked | Sure | Unlock => true | _ => false end.
Definition inside (ph : phase) : bool := match ph with Live | Slow | Locked | Sure => true | _ => false end.
Record inv (s : st) : Prop := mkInv {
  i_count : forall a, a < length (s_cells s) -> c_count (cell_of s a) = b2n (if in_dec Nat.eq_dec a (s_map s) then true else false) + refs a (s_hs s);
  i_arc : forall i h, nth_error (s_hs s) i = Some h -> h_arc h < length (s_cells s);
  i_map : forall a, In a (s_map s) -> a < length (s_cells s);
  i_nodup : NoDup (s_map s);
  i_keys : forall a b, In a (s_map s) -> In b (s_map s) -> c_content (cell_of s a) = c_content (cell_of s b) -> a = b;
  i_in : forall i h, nth_error (s_hs s) i = Some h -> inside (h_phase h) = true -> In (h_arc h) (s_map s);
  i_sure : forall i h, nth_error (s_hs s) i = Some h -> h_phase h = Sure -> c_count (cell_of s (h_arc h)) = 2;
  i_lock : forall i h, nth_error (s_hs s) i = Some h -> held (h_phase h) = true -> s_lock s (shard sh s (h_arc h)) = Some i;
  i_alloc : s_alloc s = length (s_map s);
  i_panic : s_panic s = false }.
Lemma inv_init : inv init.
Proof.
  constructor; cbn; intros; try contradiction; try lia; try reflexivity; try (destruct i; discriminate).
  constructor.
Qed.
Lemma lookup_some s c a : lookup s c = Some a -> In a (s_map s) /\ c_content (cell_of s a) = c.
Proof. unfold lookup. intros H. apply find_some in H as (I & E). apply Nat.eqb_eq in E. auto. Qed.
Lemma lookup_none s c : lookup s c = None -> forall a, In a (s_map s) -> c_content (cell_of s a) <> c.
Proof. unfold lookup. intros H a I E. apply (find_none _ _ H) in I. apply Nat.eqb_neq in I. contradiction. Qed.
Lemma lookup_in s a : inv s -> In a (s_map s) -> lookup s (c_content (cell_of s a)) = Some a.
Proof.
  intros V I. destruct (lookup s (c_content (cell_of s a))) as [b|] eqn:L.
  - apply lookup_some in L as (J & E). f_equal. apply (i_keys s V); auto.
  - destruct (lookup_none _ _ L a I eq_refl).
Qed.
(** Adding a handle to a cell of the table. *)
Lemma inv_add s a : inv s -> In a (s_map s) -> (forall i h, nth_error (s_hs s) i = Some h -> h_phase h = Sure -> h_arc h <> a) ->
  inv (mkSt (recount a S (s_cells s)) (s_map s) (s_hs s ++ [mkH a Live]) (s_lock s) (s_alloc s) (s_panic s)).
Proof.
  intros V I N. assert (A : a < length (s_cells s)) by exact (i_map s V a I).
  assert (C : forall b, c_content (nth b (recount a S (s_cells s)) (mkC 0 0)) = c_content (cell_of s b)) by (intros b; apply content_recount).
  constructor; cbn [s_cells s_map s_hs s_lock s_alloc s_panic]; unfold shard, cell_of; cbn [s_cells].
  - intros b B. rewrite recount_length in B. rewrite count_recount by exact A. rewrite refs_app. pose proof (i_count s V b B) as K. unfold cell_of in K.
    unfold refs at 2. cbn [filter length]. unfold holds. cbn [h_arc h_phase]. rewrite andb_true_r. rewrite (Nat.eqb_sym a b).
    destruct (b =? a); cbn [length]; lia.
  - intros i h H. rewrite recount_length. destruct (Nat.lt_ge_cases i (length (s_hs s))) as [L|L].
    + rewrite nth_error_app1 in H by exact L. exact (i_arc s V i h H).
    + rewrite nth_error_app2 in H by exact L. destruct (i - length (s_hs s)) as [|[|]]; cbn in H; try discriminate H. injection H as <-. exact A.
  - intros b B. rewrite recount_length. exact (i_map s V b B).
  - exact (i_nodup s V).
  - intros b c B B' E. rewrite !C in E. exact (i_keys s V b c B B' E).
  - intros i h H P. destruct (Nat.lt_ge_cases i (length (s_hs s))) as [L|L].
    + rewrite nth_error_app1 in H by exact L. exact (i_in s V i h H P).
    + rewrite nth_error_app2 in H by exact L. destruct (i - length (s_hs s)) as [|[|]]; cbn in H; try discriminate H. injection H as <-. exact I.
  - intros i h H P. destruct (Nat.lt_ge_cases i (length (s_hs s))) as [L|L].
    + rewrite nth_error_app1 in H by exact L. rewrite count_recount by exact A. destruct (Nat.eqb_spec (h_arc h) a) as [E|E]; [destruct (N i h H P E)|]. exact (i_sure s V i h H P).
    + rewrite nth_error_app2 in H by exact L. destruct (i - length (s_hs s)) as [|[|]]; cbn in H; try discriminate H. injection H as <-. discriminate P.
  - intros i h H P. rewrite C. destruct (Nat.lt_ge_cases i (length (s_hs s))) as [L|L].
    + rewrite nth_error_app1 in H by exact L. exact (i_lock s V i h H P).
    + rewrite nth_error_app2 in H by exact L. destruct (i - length (s_hs s)) as [|[|]]; cbn in H; try discriminate H. injection H as <-. discriminate P.
  - exact (i_alloc s V).
  - exact (i_panic s V).
Qed.
Lemma inv_new s c : inv s -> inv (intern sh c s).
Proof.
  intros V. unfold intern. destruct (s_lock s (sh c)) eqn:L; [exact V|]. destruct (lookup s c) as [a|] eqn:Q.
  - apply lookup_some in Q as (I & E). apply inv_add; auto. intros i h H P X. pose proof (i_lock s V i h H) as K. rewrite P in K. specialize (K eq_refl).
    unfold shard in K. rewrite X, E in K. congruence.
  - pose proof (lookup_none _ _ Q) as NL. set (a := length (s_cells s)).
    assert (C : forall b, b < a -> nth b (s_cells s ++ [mkC c 2]) (mkC 0 0) = cell_of s b) by (intros b B; unfold cell_of; apply app_nth1; exact B).
    assert (C' : nth a (s_cells s ++ [mkC c 2]) (mkC 0 0) = mkC c 2) by (unfold a; rewrite app_nth2, Nat.sub_diag; [reflexivity|lia]).
    assert (R0 : refs a (s_hs s) = 0).
    { destruct (refs a (s_hs s)) eqn:R; [reflexivity|]. destruct (refs_in a (s_hs s)) as (i & h & H & P); [lia|]. apply holds_iff in P as (P & _). pose proof (i_arc s V i h H). unfold a in P. lia. }
    constructor; cbn [s_cells s_map s_hs s_lock s_alloc s_panic]; unfold shard, cell_of; cbn [s_cells].
    + intros b B. rewrite app_length in B. cbn in B. rewrite refs_app. unfold refs at 2. cbn [filter]. unfold holds. cbn [h_arc h_phase]. rewrite andb_true_r.
      fold a in B |- *. destruct (Nat.eq_dec b a) as [-> |NE].
      * rewrite C', Nat.eqb_refl, R0. cbn. destruct (in_dec _ _ _) as [_|X]; [reflexivity|]. destruct X. apply in_or_app. right. left. reflexivity.
      * assert (B' : b < a) by lia. rewrite C by exact B'. destruct (Nat.eqb_spec a b); [congruence|]. cbn [length]. rewrite Nat.add_0_r.
        rewrite (i_count s V b B'). f_equal. destruct (in_dec Nat.eq_dec b (s_map s)) as [X|X], (in_dec Nat.eq_dec b (s_map s ++ [a])) as [Y|Y]; try reflexivity.
        -- destruct Y. apply in_or_app. left. exact X.
        -- apply in_app_or in Y as [Y|[Y|[]]]; [contradiction|]. congruence.
    + intros i h H. rewrite app_length. cbn [length]. destruct (Nat.lt_ge_cases i (length (s_hs s))) as [LI|LI].
      * rewrite nth_error_app1 in H by exact LI. pose proof (i_arc s V i h H). lia.
      * rewrite nth_error_app2 in H by exact LI. destruct (i - length (s_hs s)) as [|[|]]; cbn in H; try discriminate H. injection H as <-. cbn. unfold a. lia.
    + intros b B. rewrite app_length. cbn [length]. apply in_app_or in B as [B|[<-|[]]]; [pose proof (i_map s V b B); lia|unfold a; lia].
    + pose proof (NoDup_rev (i_nodup s V)) as ND. rewrite <- (rev_involutive (s_map s ++ [a])). apply NoDup_rev. rewrite rev_app_distr. cbn. constructor; [|exact ND].
      intros X. apply in_rev in X. pose proof (i_map s V a X). unfold a in *. lia.
    + intros b b' B B' E. apply in_app_or in B as [B|[<-|[]]]; apply in_app_or in B' as [B'|[<-|[]]].
      * rewrite !C in E by (apply (i_map s V); assumption). exact (i_keys s V b b' B B' E).
      * rewrite C', C in E by (apply (i_map s V); assumption). destruct (NL b B E).
      * rewrite C', C in E by (apply (i_map s V); assumption). destruct (NL b' B' (eq_sym E)).
      * reflexivity.
    + intros i h H P. apply in_or_app. destruct (Nat.lt_ge_cases i (length (s_hs s))) as [LI|LI].
      * rewrite nth_error_app1 in H by exact LI. left. exact (i_in s V i h H P).
      * rewrite nth_error_app2 in H by exact LI. destruct (i - length (s_hs s)) as [|[|]]; cbn in H; try discriminate H. injection H as <-. right. left. reflexivity.
    + intros i h H P. destruct (Nat.lt_ge_cases i (length (s_hs s))) as [LI|LI].
      * rewrite nth_error_app1 in H by exact LI. rewrite C by exact (i_arc s V i h H). exact (i_sure s V i h H P).
      * rewrite nth_error_app2 in H by exact LI. destruct (i - length (s_hs s)) as [|[|]]; cbn in H; try discriminate H. injection H as <-. discriminate P.
    + intros i h H P. destruct (Nat.lt_ge_cases i (length (s_hs s))) as [LI|LI].
      * rewrite nth_error_app1 in H by exact LI. rewrite C by exact (i_arc s V i h H). exact (i_lock s V i h H P).
      * rewrite nth_error_app2 in H by exact LI. destruct (i - length (s_hs s)) as [|[|]]; cbn in H; try discriminate H. injection H as <-. discriminate P.
    + rewrite app_length. cbn. pose proof (i_alloc s V). lia.
    + exact (i_panic s V).
Qed.
(** Two holders of a cell exclude that one of them is sure. *)
Lemma sure_alone s i j h g : inv s -> nth_error (s_hs s) i = Some h -> nth_error (s_hs s) j = Some g -> h_phase h = Sure -> present g -> h_arc g = h_arc h -> i = j.
Proof.
  intros V H G P Q E. destruct (Nat.eq_dec i j) as [N|N]; [exact N|]. exfalso.
  pose proof (refs_two (h_arc h) (s_hs s) i j h g H G N) as R.
  assert (holds (h_arc h) h = true) as R1 by (apply holds_iff; split; [reflexivity|unfold present; rewrite P; discriminate]).
  assert (holds (h_arc h) g = true) as R2 by (apply holds_iff; auto). specialize (R R1 R2).
  pose proof (i_sure s V i h H P) as S2. pose proof (i_count s V (h_arc h) (i_arc s V i h H)) as C. rewrite S2 in C.
  assert (In (h_arc h) (s_map s)) as I by (apply (i_in s V i h H); rewrite P; reflexivity).
  destruct (in_dec Nat.eq_dec (h_arc h) (s_map s)); [|contradiction]. cbn in C. lia.
Qed.
Lemma inv_clone s i : inv s -> inv (clone i s).
Proof.
  intros V. unfold clone. destruct (nth_error (s_hs s) i) as [[a []]|] eqn:H; try exact V.
  apply inv_add; [exact V|exact (i_in s V i _ H eq_refl)|]. intros j g G P E.
  assert (j = i) by (apply (sure_alone s j i g _ V G H P); [discriminate|cbn; congruence]). subst j. assert (g = mkH a Live) as -> by congruence. discriminate P.
Qed.
(** A handle moves between two phases. *)
Lemma nth_phase s i a ph ph' j g : nth_error (s_hs s) i = Some (mkH a ph) -> nth_error (s_hs (set_phase i ph' s)) j = Some g ->
  (j = i /\ g = mkH a ph') \/ (j <> i /\ nth_error (s_hs s) j = Some g).
Proof.
  intros H G. cbn in G. rewrite H in G. cbn [h_arc] in G. destruct (Nat.eq_dec j i) as [-> |N].
  - rewrite set_nth_eq in G by exact (nth_error_lt _ _ _ H). left. split; congruence.
  - rewrite set_nth_neq in G by exact N. right. auto.
Qed.
Lemma refs_phase s i a ph ph' b : nth_error (s_hs s) i = Some (mkH a ph) -> ph <> Gone -> ph' <> Gone -> refs b (s_hs (set_phase i ph' s)) = refs b (s_hs s).
Proof.
  intros H N N'. cbn [set_phase s_hs]. rewrite H. cbn [h_arc]. pose proof (refs_set b (s_hs s) i (mkH a ph) (mkH a ph') H) as R.
  assert (holds b (mkH a ph) = holds b (mkH a ph')) as E by (unfold holds; cbn; destruct ph, ph'; auto; contradiction). rewrite E in R. lia.
Qed.
Lemma inv_phase s i a ph ph' : inv s -> nth_error (s_hs s) i = Some (mkH a ph) -> ph <> Gone -> ph' <> Gone ->
  (inside ph' = true -> In a (s_map s)) -> (ph' = Sure -> c_count (cell_of s a) = 2) -> (held ph' = true -> s_lock s (shard sh s a) = Some i) ->
  inv (set_phase i ph' s).
Proof.
  intros V H N N' X1 X2 X3.
  constructor.
  - intros b B. rewrite (refs_phase s i a ph ph' b H N N'). exact (i_count s V b B).
  - intros j g G. destruct (nth_phase s i a ph ph' j g H G) as [(-> & ->)|(_ & G')]; [exact (i_arc s V i _ H)|exact (i_arc s V j g G')].
  - exact (i_map s V).
  - exact (i_nodup s V).
  - exact (i_keys s V).
  - intros j g G P. destruct (nth_phase s i a ph ph' j g H G) as [(-> & ->)|(_ & G')]; [exact (X1 P)|exact (i_in s V j g G' P)].
  - intros j g G P. destruct (nth_phase s i a ph ph' j g H G) as [(-> & ->)|(_ & G')]; [exact (X2 P)|exact (i_sure s V j g G' P)].
  - intros j g G P. destruct (nth_phase s i a ph ph' j g H G) as [(-> & ->)|(_ & G')]; [exact (X3 P)|exact (i_lock s V j g G' P)].
  - exact (i_alloc s V).
  - exact (i_panic s V).
Qed.
Lemma remove_in a b l : In b (remove_key a l) <-> In b l /\ b <> a.
Proof. unfold remove_key. rewrite filter_In, negb_true_iff, Nat.eqb_neq. reflexivity. Qed.
Lemma remove_length a l : NoDup l -> In a l -> S (length (remove_key a l)) = length l.
Proof.
  induction l as [|x l IH]; intros N I; [destruct I|]. cbn. inversion N as [|? ? N1 N2]; subst. destruct (Nat.eqb_spec x a) as [-> |D]; cbn.
  - f_equal. unfold remove_key. clear -N1. induction l as [|y l IH]; [reflexivity|]. cbn. destruct (Nat.eqb_spec y a) as [-> |D]; [destruct N1; left; reflexivity|].
    cbn. f_equal. apply IH. intros I. apply N1. right. exact I.
  - f_equal. apply IH; [exact N2|]. destruct I as [I|I]; [congruence|exact I].
Qed.
(** The removal from the table. *)
Lemma inv_remove s i a : inv s -> nth_error (s_hs s) i = Some (mkH a Sure) ->
  inv (set_phase i Unlock (mkSt (recount a pred (s_cells s)) (remove_key a (s_map s)) (s_hs s) (s_lock s) (pred (s_alloc s)) (s_panic s))).
Proof.
  intros V H. assert (I : In a (s_map s)) by exact (i_in s V i _ H eq_refl). assert (A : a < length (s_cells s)) by exact (i_map s V a I).
  pose proof (i_sure s V i _ H eq_refl) as S2. cbn [h_arc] in S2.
  set (s' := mkSt (recount a pred (s_cells s)) (remove_key a (s_map s)) (s_hs s) (s_lock s) (pred (s_alloc s)) (s_panic s)).
  assert (C : forall b, c_content (cell_of s' b) = c_content (cell_of s b)) by (intros b; apply content_recount).
  constructor.
  - intros b B. cbn in B. rewrite recount_length in B. rewrite (refs_phase s' i a Sure Unlock b H ltac:(discriminate) ltac:(discriminate)).
    change (cell_of (set_phase i Unlock s') b) with (cell_of s' b). change (s_map (set_phase i Unlock s')) with (remove_key a (s_map s)).
    unfold cell_of, s'. cbn [s_cells s_hs]. rewrite count_recount by exact A. pose proof (i_count s V b B) as K. unfold cell_of in K. rewrite K.
    destruct (Nat.eqb_spec b a) as [-> |D].
    + destruct (in_dec Nat.eq_dec a (s_map s)); [|contradiction]. destruct (in_dec Nat.eq_dec a (remove_key a (s_map s))) as [X|X]; [apply remove_in in X as (_ & X); contradiction|]. cbn. reflexivity.
    + f_equal. f_equal. destruct (in_dec Nat.eq_dec b (s_map s)) as [X|X], (in_dec Nat.eq_dec b (remove_key a (s_map s))) as [Y|Y]; try reflexivity.
      * destruct Y. apply remove_in. auto.
      * apply remove_in in Y as (Y & _). contradiction.
  - intros j g G. cbn [set_phase s_cells]. unfold s' at 1. cbn [s_cells]. rewrite recount_length.
    destruct (nth_phase s' i a Sure Unlock j g H G) as [(-> & ->)|(_ & G')]; [exact A|exact (i_arc s V j g G')].
  - intros b B. cbn in *. rewrite recount_length. apply remove_in in B as (B & _). exact (i_map s V b B).
  - cbn. apply NoDup_filter. exact (i_nodup s V).
  - intros b b' B B' E. change (cell_of (set_phase i Unlock s')) with (cell_of s') in E. rewrite !C in E. cbn in B, B'. apply remove_in in B as (B & _). apply remove_in in B' as (B' & _).
    exact (i_keys s V b b' B B' E).
  - intros j g G P. destruct (nth_phase s' i a Sure Unlock j g H G) as [(-> & ->)|(N & G')]; [discriminate P|]. cbn. apply remove_in. split; [exact (i_in s V j g G' P)|].
    intros E. apply N. symmetry. apply (sure_alone s i j (mkH a Sure) g V H G' eq_refl); [|exact E]. unfold present. destruct (h_phase g); discriminate.
  - intros j g G P. destruct (nth_phase s' i a Sure Unlock j g H G) as [(-> & ->)|(N & G')]; [discriminate P|].
    change (cell_of (set_phase i Unlock s')) with (cell_of s'). unfold cell_of, s'. cbn [s_cells]. rewrite count_recount by exact A.
    destruct (Nat.eqb_spec (h_arc g) a) as [E|E]; [|exact (i_sure s V j g G' P)]. exfalso. apply N. symmetry.
    apply (sure_alone s i j (mkH a Sure) g V H G' eq_refl); [|exact E]. unfold present. rewrite P. discriminate.
  - intros j g G P. unfold shard. change (cell_of (set_phase i Unlock s')) with (cell_of s'). rewrite C.
    destruct (nth_phase s' i a Sure Unlock j g H G) as [(-> & ->)|(N & G')]; [exact (i_lock s V i _ H eq_refl)|exact (i_lock s V j g G' P)].
  - cbn. rewrite (i_alloc s V). pose proof (remove_length a (s_map s) (i_nodup s V) I). lia.
  - exact (i_panic s V).
Qed.
(** The field is dropped. *)
Lemma inv_gone s i a : inv s -> nth_error (s_hs s) i = Some (mkH a Leave) ->
  inv (set_phase i Gone (mkSt (recount a pred (s_cells s)) (s_map s) (s_hs s) (s_lock s) (s_alloc s) (s_panic s))).
Proof.
  intros V H. assert (A : a < length (s_cells s)) by exact (i_arc s V i _ H).
  set (s' := mkSt (recount a pred (s_cells s)) (s_map s) (s_hs s) (s_lock s) (s_alloc s) (s_panic s)).
  assert (C : forall b, c_content (cell_of s' b) = c_content (cell_of s b)) by (intros b; apply content_recount).
  constructor.
  - intros b B. cbn in B. rewrite recount_length in B. change (cell_of (set_phase i Gone s') b) with (cell_of s' b). change (s_map (set_phase i Gone s')) with (s_map s).
    assert (s_hs (set_phase i Gone s') = set_nth i (mkH a Gone) (s_hs s)) as -> by (cbn; rewrite H; reflexivity). pose proof (refs_set b (s_hs s) i _ (mkH a Gone) H) as R.
    unfold cell_of, s'. cbn [s_cells]. rewrite count_recount by exact A. pose proof (i_count s V b B) as K. unfold cell_of in K. rewrite K.
    unfold holds in R. cbn [h_arc h_phase] in R. rewrite andb_false_r, andb_true_r in R. cbn [b2n] in R. rewrite (Nat.eqb_sym a b) in R.
    pose proof (refs_one b (s_hs s) i _ H) as R1. unfold holds in R1. cbn [h_arc h_phase] in R1. rewrite andb_true_r, (Nat.eqb_sym a b) in R1.
    destruct (b =? a); cbn [b2n] in R; [specialize (R1 eq_refl)|]; lia.
  - intros j g G. cbn [set_phase s_cells]. unfold s' at 1. cbn [s_cells]. rewrite recount_length.
    destruct (nth_phase s' i a Leave Gone j g H G) as [(-> & ->)|(_ & G')]; [exact A|exact (i_arc s V j g G')].
  - intros b B. cbn in *. rewrite recount_length. exact (i_map s V b B).
  - exact (i_nodup s V).
  - intros b b' B B' E. change (cell_of (set_phase i Gone s')) with (cell_of s') in E. rewrite !C in E. exact (i_keys s V b b' B B' E).
  - intros j g G P. destruct (nth_phase s' i a Leave Gone j g H G) as [(-> & ->)|(N & G')]; [discriminate P|exact (i_in s V j g G' P)].
  - intros j g G P. destruct (nth_phase s' i a Leave Gone j g H G) as [(-> & ->)|(N & G')]; [discriminate P|].
    change (cell_of (set_phase i Gone s')) with (cell_of s'). unfold cell_of, s'. cbn [s_cells]. rewrite count_recount by exact A.
    destruct (Nat.eqb_spec (h_arc g) a) as [E|E]; [|exact (i_sure s V j g G' P)]. exfalso. apply N.
    apply (sure_alone s j i g (mkH a Leave) V G' H P); [discriminate|cbn; congruence].
  - intros j g G P. unfold shard. change (cell_of (set_phase i Gone s')) with (cell_of s'). rewrite C.
    destruct (nth_phase s' i a Leave Gone j g H G) as [(-> & ->)|(N & G')]; [discriminate P|exact (i_lock s V j g G' P)].
  - exact (i_alloc s V).
  - exact (i_panic s V).
Qed.
Lemma inv_setlock s k x : inv s -> (forall i h, nth_error (s_hs s) i = Some h -> held (h_phase h) = true -> shard sh s (h_arc h) = k -> x = Some i) -> inv (set_lock k x s).
Proof.
  intros V N. constructor; [exact (i_count s V)|exact (i_arc s V)|exact (i_map s V)|exact (i_nodup s V)|exact (i_keys s V)|exact (i_in s V)|exact (i_sure s V)| |exact (i_alloc s V)|exact (i_panic s V)].
  intros i h H P. change (shard sh (set_lock k x s)) with (shard sh s). cbn [set_lock s_lock].
  destruct (Nat.eqb_spec (shard sh s (h_arc h)) k) as [E|E]; [exact (N i h H P E)|exact (i_lock s V i h H P)].
Qed.
Lemma inv_drop s i : inv s -> inv (dropping sh i s).
Proof.
  intros V. unfold dropping. destruct (nth_error (s_hs s) i) as [[a ph]|] eqn:H; [|exact V]. destruct ph.
  - assert (In a (s_map s)) as I by exact (i_in s V i _ H eq_refl).
    destruct (_ =? 2); apply (inv_phase s i a Live); auto; discriminate.
  - assert (In a (s_map s)) as I by exact (i_in s V i _ H eq_refl).
    destruct (s_lock s (shard sh s a)) eqn:L; [exact V|]. apply (inv_phase _ i a Slow); auto; try discriminate.
    + apply inv_setlock; [exact V|]. intros j g G P E. pose proof (i_lock s V j g G P) as K. rewrite E in K. congruence.
    + intros _. cbn. unfold shard, cell_of. cbn. rewrite Nat.eqb_refl. reflexivity.
  - assert (In a (s_map s)) as I by exact (i_in s V i _ H eq_refl). pose proof (i_lock s V i _ H eq_refl) as K.
    destruct (Nat.eqb_spec (c_count (cell_of s a)) 2) as [E|E]; apply (inv_phase s i a Locked); auto; discriminate.
  - rewrite (lookup_in s a V (i_in s V i _ H eq_refl)). apply inv_remove; assumption.
  - change (inv (set_lock (shard sh s a) None (set_phase i Leave s))). apply inv_setlock.
    + apply (inv_phase s i a Unlock); auto; discriminate.
    + intros j g G P E. change (shard sh (set_phase i Leave s)) with (shard sh s) in E.
      destruct (nth_phase s i a Unlock Leave j g H G) as [(-> & ->)|(N & G')]; [discriminate P|].
      pose proof (i_lock s V j g G' P) as K. rewrite E in K. pose proof (i_lock s V i _ H eq_refl) as K'. cbn [h_arc] in K'. congruence.
  - apply inv_gone; assumption.
  - exact V.
Qed.
Lemma inv_step s e : inv s -> inv (step sh s e).
Proof. destruct e; cbn; [apply inv_new|apply inv_clone|apply inv_drop]. Qed.
Lemma run_app s a b : run sh s (a ++ b) = run sh (run sh s a) b.
Proof. unfold run. apply fold_left_app. Qed.
Lemma inv_run es : forall s, inv s -> inv (run sh s es).
Proof. induction es as [|e es IH]; intros s V; [exact V|]. cbn. apply IH, inv_step, V. Qed.
Lemma inv_reach es : inv (run sh init es).
Proof. apply inv_run, inv_init. Qed.

(** * Who holds the locks *)
Definition holders (s : st) : Prop := forall k i, s_lock s k = Some i -> exists h, nth_error (s_hs s) i = Some h /\ held (h_phase h) = true /\ shard sh s (h_arc h) = k.
Lemma holders_app s cs l m h al p : holders s -> (forall i g, nth_error (s_hs s) i = Some g -> c_content (nth (h_arc g) cs (mkC 0 0)) = c_content (cell_of s (h_arc g))) -> l = s_lock s ->
  holders (mkSt cs m (s_hs s ++ [h]) l al p).
Proof.
  intros V C -> k i L. cbn in L. destruct (V k i L) as (g & G & P & E). exists g. cbn [s_hs]. repeat split; auto.
  - rewrite nth_error_app1; [exact G|exact (nth_error_lt _ _ _ G)].
  - unfold shard, cell_of. cbn [s_cells]. rewrite (C i g G). exact E.
Qed.
Lemma holders_phase s s' i a ph ph' : nth_error (s_hs s) i = Some (mkH a ph) -> (held ph = true -> held ph' = true) -> s_hs s' = s_hs s -> s_lock s' = s_lock s ->
  (forall b, c_content (cell_of s' b) = c_content (cell_of s b)) -> holders s -> holders (set_phase i ph' s').
Proof.
  intros H M E1 E2 C V k j L. cbn in L. rewrite E2 in L. destruct (V k j L) as (g & G & P & E). cbn [set_phase s_hs]. rewrite E1, H. cbn [h_arc].
  unfold shard. change (cell_of (set_phase i ph' s')) with (cell_of s').
  destruct (Nat.eq_dec j i) as [-> |N].
  - assert (g = mkH a ph) as -> by congruence. exists (mkH a ph'). rewrite set_nth_eq by exact (nth_error_lt _ _ _ H). cbn. rewrite C. repeat split; auto.
  - exists g. rewrite set_nth_neq by exact N. rewrite C. auto.
Qed.
Lemma holders_step s e : inv s -> holders s -> holders (step sh s e).
Proof.
  intros V W. destruct e as [c|i|i]; cbn [step].
  - unfold intern. destruct (s_lock s (sh c)); [exact W|]. destruct (lookup s c) as [a|].
    + apply holders_app; auto. intros i g G. apply content_recount.
    + apply holders_app; auto. intros i g G. unfold cell_of. rewrite app_nth1; [reflexivity|exact (i_arc s V i g G)].
  - unfold clone. destruct (nth_error (s_hs s) i) as [[a []]|]; try exact W. apply holders_app; auto. intros j g G. apply content_recount.
  - unfold dropping. destruct (nth_error (s_hs s) i) as [[a ph]|] eqn:H; [|exact W]. destruct ph.
    + apply (holders_phase s s i a Live); auto; discriminate.
    + destruct (s_lock s (shard sh s a)) eqn:L; [exact W|]. intros k j K. cbn in K. destruct (Nat.eqb_spec k (shard sh s a)) as [-> |N].
      * injection K as <-. exists (mkH a Locked). cbn [set_phase s_hs set_lock]. rewrite H. cbn [h_arc]. rewrite set_nth_eq by exact (nth_error_lt _ _ _ H). repeat split.
      * destruct (W k j K) as (g & G & P & E). exists g. cbn [set_phase s_hs set_lock]. rewrite H. cbn [h_arc]. destruct (Nat.eq_dec j i) as [-> |D]; [|rewrite set_nth_neq by exact D; auto].
        assert (g = mkH a Slow) as -> by congruence. discriminate P.
    + apply (holders_phase s s i a Locked); auto. intros _. destruct (_ =? 2); reflexivity.
    + rewrite (lookup_in s a V (i_in s V i _ H eq_refl)). apply (holders_phase s _ i a Sure); auto. intros b. apply content_recount.
    + intros k j K. cbn in K. destruct (Nat.eqb_spec k (shard sh s a)) as [-> |N]; [discriminate K|]. destruct (W k j K) as (g & G & P & E). exists g.
      cbn [set_phase s_hs set_lock]. rewrite H. cbn [h_arc]. destruct (Nat.eq_dec j i) as [-> |D]; [|rewrite set_nth_neq by exact D; auto].
      assert (g = mkH a Unlock) as -> by congruence. cbn [h_arc] in E. congruence.
    + apply (holders_phase s _ i a Leave); auto. intros b. apply content_recount.
    + exact W.
Qed.
Lemma both_run es : forall s, inv s -> holders s -> inv (run sh s es) /\ holders (run sh s es).
Proof. induction es as [|e es IH]; intros s V W; [auto|]. cbn. apply IH; [apply inv_step, V|apply holders_step; assumption]. Qed.
Lemma holders_reach es : holders (run sh init es).
Proof. apply both_run; [apply inv_init|]. intros k i L. discriminate L. Qed.

(** * C88 *)
Theorem equal_iff es i j h g : let s := run sh init es in nth_error (s_hs s) i = Some h -> nth_error (s_hs s) j = Some g -> h_phase h = Live -> h_phase g = Live ->
  (same h g = true <-> content s h = content s g).
Proof.
  intros s H G P Q. pose proof (inv_reach es) as V. fold s in V. unfold same, content. rewrite Nat.eqb_eq. split; [intros ->; reflexivity|].
  intros E. apply (i_keys s V); auto; [apply (i_in s V i h H)|apply (i_in s V j g G)]; [rewrite P|rewrite Q]; reflexivity.
Qed.
Lemma alive es i h : let s := run sh init es in nth_error (s_hs s) i = Some h -> present h -> 1 <= count s h.
Proof.
  intros s H P. pose proof (inv_reach es) as V. fold s in V. unfold count. rewrite (i_count s V) by exact (i_arc s V i h H).
  pose proof (refs_one (h_arc h) (s_hs s) i h H) as R. assert (holds (h_arc h) h = true) as E by (apply holds_iff; auto). specialize (R E). lia.
Qed.
Lemma keeps_step s e i h : inv s -> nth_error (s_hs s) i = Some h -> exists h', nth_error (s_hs (step sh s e)) i = Some h' /\ h_arc h' = h_arc h /\ content (step sh s e) h' = content s h.
Proof.
  intros V H. assert (L : i < length (s_hs s)) by exact (nth_error_lt _ _ _ H).
  assert (PH : forall s' k a ph ph', s_hs s' = s_hs s -> nth_error (s_hs s) k = Some (mkH a ph) -> (forall b, c_content (cell_of s' b) = c_content (cell_of s b)) ->
    exists h', nth_error (s_hs (set_phase k ph' s')) i = Some h' /\ h_arc h' = h_arc h /\ content (set_phase k ph' s') h' = content s h).
  { intros s' k a ph ph' E K C. cbn [set_phase s_hs]. rewrite E, K. cbn [h_arc]. unfold content. change (cell_of (set_phase k ph' s')) with (cell_of s'). destruct (Nat.eq_dec i k) as [-> |N].
    - exists (mkH a ph'). rewrite set_nth_eq by exact L. assert (h = mkH a ph) as -> by congruence. cbn. rewrite C. auto.
    - exists h. rewrite set_nth_neq by exact N. rewrite C. auto. }
  destruct e as [c|k|k]; cbn [step].
  - unfold intern. destruct (s_lock s (sh c)); [exists h; auto|]. destruct (lookup s c) as [a|]; exists h; cbn [s_hs]; rewrite nth_error_app1 by exact L; repeat split; auto; unfold content, cell_of; cbn [s_cells].
    + apply content_recount.
    + rewrite app_nth1; [reflexivity|exact (i_arc s V i h H)].
  - unfold clone. destruct (nth_error (s_hs s) k) as [[a []]|]; try (exists h; auto; fail). exists h. cbn [s_hs]. rewrite nth_error_app1 by exact L. repeat split; auto. apply content_recount.
  - unfold dropping. destruct (nth_error (s_hs s) k) as [[a ph]|] eqn:K; [|exists h; auto]. destruct ph.
    + apply (PH s k a Live); auto.
    + destruct (s_lock s (shard sh s a)); [exists h; auto|]. apply (PH _ k a Slow); auto.
    + apply (PH s k a Locked); auto.
    + rewrite (lookup_in s a V (i_in s V k _ K eq_refl)). apply (PH _ k a Sure); auto. intros b. apply content_recount.
    + apply (PH _ k a Unlock); auto.
    + apply (PH _ k a Leave); auto. intros b. apply content_recount.
    + exists h; auto.
Qed.
Lemma keeps es : forall s i h, inv s -> nth_error (s_hs s) i = Some h -> exists h', nth_error (s_hs (run sh s es)) i = Some h' /\ h_arc h' = h_arc h /\ content (run sh s es) h' = content s h.
Proof.
  induction es as [|e es IH]; intros s i h V H; [exists h; auto|]. destruct (keeps_step s e i h V H) as (h1 & H1 & E1 & C1).
  destruct (IH (step sh s e) i h1 (inv_step s e V) H1) as (h2 & H2 & E2 & C2). exists h2. change (run sh s (e :: es)) with (run sh (step sh s e) es). repeat split; auto; congruence.
Qed.
(** A freed cell is never taken up again. *)
Lemma freed_step s e a : inv s -> a < length (s_cells s) -> c_count (cell_of s a) = 0 -> a < length (s_cells (step sh s e)) /\ c_count (cell_of (step sh s e) a) = 0.
Proof.
  intros V A Z. pose proof (i_count s V a A) as K. rewrite Z in K.
  assert (NI : ~ In a (s_map s)) by (intros I; destruct (in_dec Nat.eq_dec a (s_map s)); [cbn in K; lia|contradiction]).
  assert (UP : forall b, In b (s_map s) -> a < length (recount b S (s_cells s)) /\ c_count (nth a (recount b S (s_cells s)) (mkC 0 0)) = 0).
  { intros b B. rewrite recount_length, count_recount by exact (i_map s V b B). split; [exact A|]. destruct (Nat.eqb_spec a b) as [-> |]; [contradiction|exact Z]. }
  assert (DN : forall b, b < length (s_cells s) -> a < length (recount b pred (s_cells s)) /\ c_count (nth a (recount b pred (s_cells s)) (mkC 0 0)) = 0).
  { intros b B. rewrite recount_length, count_recount by exact B. split; [exact A|]. destruct (a =? b); unfold cell_of in Z; rewrite Z; reflexivity. }
  destruct e as [c|k|k]; cbn [step].
  - unfold intern. destruct (s_lock s (sh c)); [auto|]. destruct (lookup s c) as [b|] eqn:Q; unfold cell_of; cbn [s_cells].
    + apply UP. apply lookup_some in Q as (Q & _). exact Q.
    + rewrite app_length, app_nth1 by exact A. split; [lia|exact Z].
  - unfold clone. destruct (nth_error (s_hs s) k) as [[b []]|] eqn:H; try auto. apply UP. exact (i_in s V k _ H eq_refl).
  - unfold dropping. destruct (nth_error (s_hs s) k) as [[b ph]|] eqn:H; [|auto]. destruct ph; auto.
    + destruct (s_lock s (shard sh s b)); auto.
    + rewrite (lookup_in s b V (i_in s V k _ H eq_refl)). apply DN. exact (i_arc s V k _ H).
    + apply DN. exact (i_arc s V k _ H).
Qed.
Lemma freed es : forall s a, inv s -> a < length (s_cells s) -> c_count (cell_of s a) = 0 -> a < length (s_cells (run sh s es)) /\ c_count (cell_of (run sh s es) a) = 0.
Proof.
  induction es as [|e es IH]; intros s a V A Z; [auto|]. destruct (freed_step s e a V A Z) as (A1 & Z1). exact (IH _ a (inv_step s e V) A1 Z1).
Qed.
Lemma new_handle es c : let s := run sh init es in let s' := step sh s (New c) in s_lock s (sh c) = None ->
  exists h, s_hs s' = s_hs s ++ [h] /\ h_phase h = Live /\ content s' h = c.
Proof.
  intros s s' L. unfold s', step, intern. rewrite L. destruct (lookup s c) as [a|] eqn:Q; (eexists; split; [reflexivity|]); split; try reflexivity; unfold content, cell_of; cbn [s_cells h_arc].
  - rewrite content_recount. apply lookup_some in Q as (_ & Q). exact Q.
  - rewrite app_nth2, Nat.sub_diag by lia. reflexivity.
Qed.
(** A holder never waits. *)
Lemma unblocked es k i : let s := run sh init es in s_lock s k = Some i -> s_lock (run sh s [Drop i; Drop i; Drop i]) k = None.
Proof.
  intros s L. destruct (holders_reach es k i L) as (h & H & P & E). fold s in H, E. pose proof (inv_reach es) as V. fold s in V.
  assert (U : forall s1 n, inv s1 -> nth_error (s_hs s1) i = Some (mkH (h_arc h) Unlock) -> c_content (cell_of s1 (h_arc h)) = c_content (cell_of s (h_arc h)) -> n <= 2 -> s_lock (run sh s1 (repeat (Drop i) (S n))) k = None).
  { intros s1 n V1 H1 C1 N. assert (L1 : s_lock (step sh s1 (Drop i)) k = None).
    { cbn [step]. unfold dropping. rewrite H1. cbn. unfold shard in *. rewrite C1, E, Nat.eqb_refl. reflexivity. }
    assert (D : forall m s2, m <= 2 -> s_lock s2 k = None -> (exists ph, nth_error (s_hs s2) i = Some (mkH (h_arc h) ph) /\ (ph = Leave \/ ph = Gone)) -> s_lock (run sh s2 (repeat (Drop i) m)) k = None).
    { induction m as [|m IHm]; intros s2 M L2 (ph & H2 & D); [exact L2|]. cbn [repeat run fold_left]. apply IHm; [lia| |].
      - cbn [step]. unfold dropping. rewrite H2. destruct D as [-> | ->]; exact L2.
      - exists Gone. split; [|auto]. cbn [step]. unfold dropping. rewrite H2. destruct D as [-> | ->]; [|exact H2]. cbn [set_phase s_hs]. rewrite H2. cbn [h_arc].
        apply set_nth_eq. exact (nth_error_lt _ _ _ H2). }
    cbn [repeat run fold_left]. apply D; [exact N|exact L1|]. exists Leave. split; [|auto]. cbn [step]. unfold dropping. rewrite H1. cbn [set_phase s_hs set_lock]. rewrite H1. cbn [h_arc].
    apply set_nth_eq. exact (nth_error_lt _ _ _ H1). }
  assert (Z : forall s1, nth_error (s_hs s1) i = Some (mkH (h_arc h) Sure) -> inv s1 -> c_content (cell_of s1 (h_arc h)) = c_content (cell_of s (h_arc h)) -> forall n, n <= 2 -> s_lock (run sh s1 (Drop i :: repeat (Drop i) (S n))) k = None).
  { intros s1 H1 V1 C1 n N. cbn [run fold_left]. apply U; [apply inv_step; exact V1| | |exact N]; cbn [step]; unfold dropping; rewrite H1, (lookup_in s1 (h_arc h) V1 (i_in s1 V1 i _ H1 eq_refl)).
    - cbn [set_phase s_hs]. rewrite H1. cbn [h_arc]. apply set_nth_eq. exact (nth_error_lt _ _ _ H1).
    - etransitivity; [apply content_recount|exact C1]. }
  destruct h as [a ph]. destruct ph; try discriminate P.
  - change [Drop i; Drop i; Drop i] with (Drop i :: [Drop i; Drop i]). cbn [run fold_left]. cbn [h_arc] in *.
    destruct (c_count (cell_of s a) =? 2) eqn:Q.
    + assert (step sh s (Drop i) = set_phase i Sure s) as -> by (cbn [step]; unfold dropping; rewrite H, Q; reflexivity).
      apply (Z (set_phase i Sure s)) with (n := 0); [|apply (inv_phase s i a Locked); auto; try discriminate| |lia].
      * cbn [set_phase s_hs]. rewrite H. cbn [h_arc]. apply set_nth_eq. exact (nth_error_lt _ _ _ H).
      * intros _. exact (i_in s V i _ H eq_refl).
      * intros _. apply Nat.eqb_eq. exact Q.
      * intros _. rewrite E. exact L.
      * reflexivity.
    + assert (step sh s (Drop i) = set_phase i Unlock s) as -> by (cbn [step]; unfold dropping; rewrite H, Q; reflexivity).
      apply (U (set_phase i Unlock s) 1); [apply (inv_phase s i a Locked); auto; try discriminate| | |lia].
      * intros _. rewrite E. exact L.
      * cbn [set_phase s_hs]. rewrite H. cbn [h_arc]. apply set_nth_eq. exact (nth_error_lt _ _ _ H).
      * reflexivity.
  - apply (Z s H V eq_refl 1). lia.
  - apply (U s 2 V H eq_refl). lia.
Qed.
Lemma no_panic es : s_panic (run sh init es) = false.
Proof. apply i_panic, inv_reach. Qed.
Lemma alloc es : let s := run sh init es in s_alloc s = length (s_map s) /\ NoDup (map (fun a => c_content (cell_of s a)) (s_map s)).
Proof.
  intros s. pose proof (inv_reach es) as V. fold s in V. split; [exact (i_alloc s V)|]. pose proof (i_nodup s V) as N. pose proof (i_keys s V) as K.
  induction (s_map s) as [|a l IH]; [constructor|]. inversion N as [|? ? N1 N2]; subst. cbn. constructor.
  - intros I. apply in_map_iff in I as (b & E & B). apply N1. rewrite (K a b); [exact B|left; reflexivity|right; exact B|symmetry; exact E].
  - apply IH; [exact N2|]. intros x y X Y. apply K; right; assumption.
Qed.

(** * C89 *)
Definition backed (s : st) : Prop := forall i a ph, nth_error (s_hs s) i = Some (mkH a ph) -> ph = Leave \/ ph = Unlock -> In a (s_map s) ->
  exists j, j <> i /\ nth_error (s_hs s) j = Some (mkH a Live).
Definition lean' (s : st) : Prop := forall a, In a (s_map s) -> exists i h, nth_error (s_hs s) i = Some h /\ holds a h = true.
Lemma keep_backed s s' k b ph ph' : s_hs s' = s_hs s -> (forall a, In a (s_map s') -> In a (s_map s)) -> nth_error (s_hs s) k = Some (mkH b ph) -> ph' <> Live -> ph' <> Gone -> ph <> Gone ->
  solo (set_phase k ph' s') -> lean' s -> backed s ->
  (ph' = Leave \/ ph' = Unlock -> In b (s_map s') -> exists j g, j <> k /\ nth_error (s_hs s) j = Some g /\ holds b g = true) ->
  lean' (set_phase k ph' s') /\ backed (set_phase k ph' s').
Proof.
  intros E1 E2 K N1 N2 N3 SO LE BA X.
  assert (HS : s_hs (set_phase k ph' s') = set_nth k (mkH b ph') (s_hs s)) by (cbn; rewrite E1, K; reflexivity).
  assert (AT : nth_error (s_hs (set_phase k ph' s')) k = Some (mkH b ph')) by (rewrite HS; apply set_nth_eq; exact (nth_error_lt _ _ _ K)).
  assert (OFF : forall j, j <> k -> nth_error (s_hs (set_phase k ph' s')) j = nth_error (s_hs s) j) by (intros j N; rewrite HS; apply set_nth_neq; exact N).
  split.
  - intros a I. cbn [set_phase s_map] in I. destruct (LE a (E2 a I)) as (i & h & H & P). destruct (Nat.eq_dec i k) as [-> |N].
    + exists k, (mkH b ph'). split; [exact AT|]. assert (h = mkH b ph) as -> by congruence. apply holds_iff in P as (P & _). apply holds_iff. cbn in *. split; [exact P|exact N2].
    + exists i, h. rewrite OFF by exact N. auto.
  - intros i a q H Q I. cbn [set_phase s_map] in I. destruct (Nat.eq_dec i k) as [-> |N].
    + rewrite AT in H. injection H as <- <-. destruct (X Q I) as (j & g & D & G & P). exists j. split; [exact D|]. rewrite OFF by exact D. rewrite G. apply holds_iff in P as (P1 & P2).
      destruct g as [c p]. cbn in P1. subst c. unfold present in P2. cbn in P2. destruct p; try reflexivity; try contradiction; exfalso; apply D;
        apply (SO j k _ _ ltac:(rewrite OFF by exact D; exact G) AT); cbn; auto; split; auto; discriminate.
    + rewrite OFF in H by exact N. destruct (BA i a q H Q (E2 a I)) as (j & D & G). exists j. split; [exact D|]. destruct (Nat.eq_dec j k) as [-> |D']; [|rewrite OFF by exact D'; exact G].
      exfalso. apply D. symmetry. apply (SO i k (mkH a q) (mkH b ph')); [rewrite OFF by exact N; exact H|exact AT| |split; auto|].
      * split; cbn; destruct Q as [-> | ->]; discriminate.
      * cbn. congruence.
Qed.
Lemma other_ref s k b ph : inv s -> nth_error (s_hs s) k = Some (mkH b ph) -> ph <> Gone -> In b (s_map s) -> c_count (cell_of s b) <> 2 -> exists j g, j <> k /\ nth_error (s_hs s) j = Some g /\ holds b g = true.
Proof.
  intros V K N I C. apply (refs_other b (s_hs s) k _ K). pose proof (i_count s V b (i_map s V b I)) as E. destruct (in_dec Nat.eq_dec b (s_map s)); [|contradiction]. cbn in E.
  pose proof (refs_one b (s_hs s) k _ K ltac:(apply holds_iff; split; [reflexivity|exact N])). lia.
Qed.
Lemma lean_step s e : inv s -> solo (step sh s e) -> lean' s -> backed s -> lean' (step sh s e) /\ backed (step sh s e).
Proof.
  intros V SO LE BA. destruct e as [c|k|k]; cbn [step] in *.
  - unfold intern in *. destruct (s_lock s (sh c)); [auto|]. destruct (lookup s c) as [a|] eqn:Q.
    + apply lookup_some in Q as (Q & _). split.
      * intros b I. cbn in I. destruct (LE b I) as (i & h & H & P). exists i, h. cbn. rewrite nth_error_app1; [auto|exact (nth_error_lt _ _ _ H)].
      * intros i b ph H P I. cbn in H, I. destruct (Nat.lt_ge_cases i (length (s_hs s))) as [L|L].
        -- rewrite nth_error_app1 in H by exact L. destruct (BA i b ph H P I) as (j & D & G). exists j. split; [exact D|]. cbn. rewrite nth_error_app1; [exact G|exact (nth_error_lt _ _ _ G)].
        -- rewrite nth_error_app2 in H by exact L. destruct (i - length (s_hs s)) as [|[|]]; cbn in H; try discriminate H. injection H as <- <-. destruct P; discriminate.
    + split.
      * intros b I. cbn in I. apply in_app_or in I as [I|[<-|[]]].
        -- destruct (LE b I) as (i & h & H & P). exists i, h. cbn. rewrite nth_error_app1; [auto|exact (nth_error_lt _ _ _ H)].
        -- exists (length (s_hs s)), (mkH (length (s_cells s)) Live). cbn. rewrite nth_error_app2, Nat.sub_diag by lia. split; [reflexivity|]. apply holds_iff. split; [reflexivity|discriminate].
      * intros i b ph H P I. cbn in H, I. destruct (Nat.lt_ge_cases i (length (s_hs s))) as [L|L].
        -- rewrite nth_error_app1 in H by exact L. apply in_app_or in I as [I|[I|[]]]; [|pose proof (i_arc s V i _ H) as A; cbn in A; lia].
           destruct (BA i b ph H P I) as (j & D & G). exists j. split; [exact D|]. cbn. rewrite nth_error_app1; [exact G|exact (nth_error_lt _ _ _ G)].
        -- rewrite nth_error_app2 in H by exact L. destruct (i - length (s_hs s)) as [|[|]]; cbn in H; try discriminate H. injection H as <- <-. destruct P; discriminate.
  - unfold clone in *. destruct (nth_error (s_hs s) k) as [[a []]|] eqn:K; try (auto; fail). split.
    + intros b I. cbn in I. destruct (LE b I) as (i & h & H & P). exists i, h. cbn. rewrite nth_error_app1; [auto|exact (nth_error_lt _ _ _ H)].
    + intros i b ph H P I. cbn in H, I. destruct (Nat.lt_ge_cases i (length (s_hs s))) as [L|L].
      * rewrite nth_error_app1 in H by exact L. destruct (BA i b ph H P I) as (j & D & G). exists j. split; [exact D|]. cbn. rewrite nth_error_app1; [exact G|exact (nth_error_lt _ _ _ G)].
      * rewrite nth_error_app2 in H by exact L. destruct (i - length (s_hs s)) as [|[|]]; cbn in H; try discriminate H. injection H as <- <-. destruct P; discriminate.
  - unfold dropping in *. destruct (nth_error (s_hs s) k) as [[a ph]|] eqn:K; [|auto]. destruct ph.
    + destruct (Nat.eqb_spec (c_count (cell_of s a)) 2) as [C|C].
      * apply (keep_backed s s k a Live); auto; try discriminate. intros [Q|Q]; discriminate Q.
      * apply (keep_backed s s k a Live); auto; try discriminate. intros _ I. apply (other_ref s k a Live V K ltac:(discriminate) I C).
    + destruct (s_lock s (shard sh s a)); [auto|]. apply (keep_backed s _ k a Slow); auto; try discriminate. intros [Q|Q]; discriminate Q.
    + destruct (Nat.eqb_spec (c_count (cell_of s a)) 2) as [C|C].
      * apply (keep_backed s s k a Locked); auto; try discriminate. intros [Q|Q]; discriminate Q.
      * apply (keep_backed s s k a Locked); auto; try discriminate. intros _ I. apply (other_ref s k a Locked V K ltac:(discriminate) I C).
    + rewrite (lookup_in s a V (i_in s V k _ K eq_refl)) in *. apply (keep_backed s _ k a Sure); auto; try discriminate.
      * intros b I. cbn in I. apply remove_in in I as (I & _). exact I.
      * intros _ I. cbn in I. apply remove_in in I as (_ & I). contradiction.
    + apply (keep_backed s _ k a Unlock); auto; try discriminate. intros _ I. destruct (BA k a Unlock K ltac:(auto) I) as (j & D & G). exists j, (mkH a Live). split; [exact D|]. split; [exact G|]. apply holds_iff. split; [reflexivity|discriminate].
    + set (s' := mkSt _ _ _ _ _ _) in *.
      assert (HS : s_hs (set_phase k Gone s') = set_nth k (mkH a Gone) (s_hs s)) by (cbn; rewrite K; reflexivity).
      assert (OFF : forall j, j <> k -> nth_error (s_hs (set_phase k Gone s')) j = nth_error (s_hs s) j) by (intros j N; rewrite HS; apply set_nth_neq; exact N).
      split.
      * intros b I. cbn in I. destruct (LE b I) as (i & h & H & P). destruct (Nat.eq_dec i k) as [-> |N]; [|exists i, h; rewrite OFF by exact N; auto].
        assert (h = mkH a Leave) as -> by congruence. apply holds_iff in P as (P & _). cbn in P. subst b. destruct (BA k a Leave K ltac:(auto) I) as (j & D & G).
        exists j, (mkH a Live). rewrite OFF by exact D. split; [exact G|]. apply holds_iff. split; [reflexivity|discriminate].
      * intros i b q H Q I. cbn in I. destruct (Nat.eq_dec i k) as [-> |N].
        -- rewrite HS, set_nth_eq in H by exact (nth_error_lt _ _ _ K). injection H as <- <-. destruct Q; discriminate.
        -- rewrite OFF in H by exact N. destruct (BA i b q H Q I) as (j & D & G). exists j. split; [exact D|]. rewrite OFF; [exact G|]. intros ->. congruence.
    + auto.
Qed.
Lemma lean_run es : forall s, inv s -> lean' s -> backed s -> (forall n, solo (run sh s (firstn n es))) -> lean' (run sh s es).
Proof.
  induction es as [|e es IH]; intros s V LE BA SO; [exact LE|]. pose proof (SO 1) as S1. cbn in S1. destruct (lean_step s e V S1 LE BA) as (LE1 & BA1).
  apply (IH (step sh s e)); auto; [apply inv_step, V|]. intros n. exact (SO (S n)).
Qed.
Lemma lean_iff s : lean' s -> lean s.
Proof. intros H a I. destruct (H a I) as (i & h & E & P). apply holds_iff in P as (P1 & P2). exists h. split; [exact (nth_error_In _ _ E)|auto]. Qed.
Lemma clean es : (forall n, solo (run sh init (firstn n es))) -> lean (run sh init es).
Proof. intros SO. apply lean_iff, lean_run; auto; [apply inv_init| |]; intros a; cbn; [contradiction|]. intros a0 ph H. destruct a; discriminate H. Qed.

(** One thread. *)
Definition quiet (s : st) : Prop := forall i h, nth_error (s_hs s) i = Some h -> ~ in_drop h.
Definition only (k : nat) (s : st) : Prop := forall i h, nth_error (s_hs s) i = Some h -> in_drop h -> i = k.
Lemma only_solo k s : only k s -> solo s.
Proof. intros O i j h g H G P Q _. rewrite (O i h H P), (O j g G Q). reflexivity. Qed.
Lemma quiet_only k s : quiet s -> only k s.
Proof. intros Q i h H P. destruct (Q i h H P). Qed.
Lemma hs_drop k s j : j <> k -> nth_error (s_hs (dropping sh k s)) j = nth_error (s_hs s) j.
Proof.
  intros N. unfold dropping. destruct (nth_error (s_hs s) k) as [[a ph]|] eqn:K; [|reflexivity].
  destruct ph; try reflexivity; [| destruct (s_lock s (shard sh s a)); [reflexivity|] | | destruct (lookup s _); [|reflexivity] | |];
    cbn [set_phase s_hs set_lock]; rewrite K; apply set_nth_neq; exact N.
Qed.
Lemma only_drop k s : only k s -> only k (step sh s (Drop k)).
Proof.
  intros O i h H P. destruct (Nat.eq_dec i k) as [E|E]; [exact E|]. cbn [step] in H. rewrite hs_drop in H by exact E. exact (O i h H P).
Qed.
Definition rank (ph : phase) : nat := match ph with Live => 6 | Slow => 5 | Locked => 4 | Sure => 3 | Unlock => 2 | Leave => 1 | Gone => 0 end.
Lemma rank_drop k s h : inv s -> holders s -> only k s -> nth_error (s_hs s) k = Some h ->
  exists h', nth_error (s_hs (step sh s (Drop k))) k = Some h' /\ rank (h_phase h') <= pred (rank (h_phase h)).
Proof.
  intros V W O H. destruct h as [a ph]. cbn [step h_phase]. unfold dropping. rewrite H.
  assert (AT : forall s' ph', s_hs s' = s_hs s -> nth_error (s_hs (set_phase k ph' s')) k = Some (mkH a ph')).
  { intros s' ph' E. cbn [set_phase s_hs]. rewrite E, H. cbn [h_arc]. apply set_nth_eq. exact (nth_error_lt _ _ _ H). }
  destruct ph.
  - eexists. split; [apply AT; reflexivity|]. destruct (_ =? 2); cbn; lia.
  - destruct (s_lock s (shard sh s a)) as [j|] eqn:L.
    + destruct (W _ j L) as (g & G & P & _). assert (j = k) as -> by (apply (O j g G); split; destruct (h_phase g); discriminate). assert (g = mkH a Slow) as -> by congruence. discriminate P.
    + eexists. split; [apply AT; reflexivity|]. cbn. lia.
  - eexists. split; [apply AT; reflexivity|]. destruct (_ =? 2); cbn; lia.
  - rewrite (lookup_in s a V (i_in s V k _ H eq_refl)). eexists. split; [apply AT; reflexivity|]. cbn. lia.
  - eexists. split; [apply AT; reflexivity|]. cbn. lia.
  - eexists. split; [apply AT; reflexivity|]. cbn. lia.
  - exists (mkH a Gone). split; [exact H|]. cbn. lia.
Qed.
Lemma drops_rank k : forall n s, inv s -> holders s -> only k s ->
  only k (run sh s (repeat (Drop k) n)) /\ forall h, nth_error (s_hs s) k = Some h -> exists h', nth_error (s_hs (run sh s (repeat (Drop k) n))) k = Some h' /\ rank (h_phase h') <= rank (h_phase h) - n.
Proof.
  induction n as [|n IH]; intros s V W O.
  - split; [exact O|]. intros h H. exists h. cbn. split; [exact H|lia].
  - destruct (IH (step sh s (Drop k)) (inv_step s _ V) (holders_step s _ V W) (only_drop k s O)) as (O' & R). split; [exact O'|].
    intros h H. destruct (rank_drop k s h V W O H) as (h1 & H1 & R1). destruct (R h1 H1) as (h2 & H2 & R2). exists h2. split; [exact H2|]. lia.
Qed.
Lemma len_drop k s : length (s_hs (dropping sh k s)) = length (s_hs s).
Proof.
  unfold dropping. destruct (nth_error (s_hs s) k) as [[a ph]|] eqn:K; [|reflexivity].
  destruct ph; try reflexivity; [| destruct (s_lock s (shard sh s a)); [reflexivity|] | | destruct (lookup s _); [|reflexivity] | |];
    cbn [set_phase s_hs set_lock]; rewrite K; apply set_nth_length.
Qed.
Lemma len_drops k : forall n s, length (s_hs (run sh s (repeat (Drop k) n))) = length (s_hs s).
Proof. induction n as [|n IH]; intros s; [reflexivity|]. cbn. etransitivity; [apply IH|]. apply len_drop. Qed.
Lemma quiet_app s h : quiet s -> h_phase h = Live -> forall i g, nth_error (s_hs s ++ [h]) i = Some g -> ~ in_drop g.
Proof.
  intros Q E i g G. destruct (Nat.lt_ge_cases i (length (s_hs s))) as [L|L].
  - rewrite nth_error_app1 in G by exact L. exact (Q i g G).
  - rewrite nth_error_app2 in G by exact L. destruct (i - length (s_hs s)) as [|[|]]; cbn in G; try discriminate G. injection G as <-. intros (P & _). contradiction.
Qed.
Lemma quiet_act x s : inv s -> holders s -> quiet s -> quiet (run sh s (events_of x)) /\ forall n, solo (run sh s (firstn n (events_of x))).
Proof.
  intros V W Q. assert (Z : solo s) by exact (only_solo 0 s (quiet_only 0 s Q)). destruct x as [c|k|k]; cbn [events_of].
  - assert (Q1 : quiet (run sh s [New c])).
    { cbn. unfold intern. destruct (s_lock s (sh c)); [exact Q|]. destruct (lookup s c) as [a|]; intros i g G; cbn [s_hs] in G; revert G; apply quiet_app; auto. }
    split; [exact Q1|]. intros [|[|n]]; [exact Z|..]; exact (only_solo 0 _ (quiet_only 0 _ Q1)).
  - assert (Q1 : quiet (run sh s [Clone k])).
    { cbn. unfold clone. destruct (nth_error (s_hs s) k) as [[a []]|]; try exact Q. intros i g G. exact (quiet_app s (mkH a Live) Q eq_refl i g G). }
    split; [exact Q1|]. intros [|[|n]]; [exact Z|..]; exact (only_solo 0 _ (quiet_only 0 _ Q1)).
  - unfold drops. split.
    + destruct (drops_rank k 6 s V W (quiet_only k s Q)) as (O & R). intros i h H P. assert (i = k) as -> by exact (O i h H P).
      pose proof (nth_error_lt _ _ _ H) as L. rewrite len_drops in L. destruct (nth_error (s_hs s) k) as [g|] eqn:G; [|apply nth_error_None in G; lia].
      destruct (R g eq_refl) as (h' & H' & R'). assert (h' = h) as -> by congruence. destruct P as (_ & P). apply P.
      assert (rank (h_phase g) <= 6) by (destruct (h_phase g); cbn; lia). destruct (h_phase h); cbn in R'; try lia. reflexivity.
    + intros n. assert (exists m, firstn n (repeat (Drop k) 6) = repeat (Drop k) m) as (m & ->).
      { generalize 6 as t. revert n. induction n as [|n IH]; intros t; [exists 0; reflexivity|]. destruct t as [|t]; [exists 0; reflexivity|]. destruct (IH t) as (m & E). exists (S m). cbn. rewrite E. reflexivity. }
      apply (only_solo k). apply drops_rank; auto. apply quiet_only, Q.
Qed.
Lemma firstn_cat {A} (l m : list A) : forall n, (exists k, firstn n (l ++ m) = firstn k l) \/ (exists k, firstn n (l ++ m) = l ++ firstn k m).
Proof.
  intros n. rewrite firstn_app. destruct (Nat.le_gt_cases n (length l)) as [L|L].
  - left. exists n. replace (n - length l) with 0 by lia. rewrite app_nil_r. reflexivity.
  - right. exists (n - length l). rewrite firstn_all2 by lia. reflexivity.
Qed.
Lemma quiet_acts xs : forall s, inv s -> holders s -> quiet s -> quiet (run sh s (flat_map events_of xs)) /\ forall n, solo (run sh s (firstn n (flat_map events_of xs))).
Proof.
  induction xs as [|x xs IH]; intros s V W Q.
  - split; [exact Q|]. intros n. cbn. rewrite firstn_nil. exact (only_solo 0 s (quiet_only 0 s Q)).
  - destruct (quiet_act x s V W Q) as (Q1 & S1). destruct (both_run (events_of x) s V W) as (V1 & W1). destruct (IH _ V1 W1 Q1) as (Q2 & S2).
    cbn [flat_map]. split; [rewrite run_app; exact Q2|]. intros n. destruct (firstn_cat (events_of x) (flat_map events_of xs) n) as [(k & ->)|(k & ->)]; [apply S1|rewrite run_app; apply S2].
Qed.
Lemma sequential xs : let s := run sh init (flat_map events_of xs) in lean s /\ (forall k, s_lock s k = None) /\ (forall h, In h (s_hs s) -> h_phase h = Live \/ h_phase h = Gone).
Proof.
  intros s. assert (Q0 : quiet init) by (intros i h H; destruct i; discriminate H).
  destruct (quiet_acts xs init (inv_init) (holders_reach []) Q0) as (Q & S). split; [apply clean, S|]. fold s in Q.
  assert (QQ : forall h, In h (s_hs s) -> h_phase h = Live \/ h_phase h = Gone).
  { intros h I. apply In_nth_error in I as (i & H). pose proof (Q i h H) as D. unfold in_drop in D. destruct (h_phase h); auto; destruct D; split; discriminate. }
  split; [|exact QQ]. intros k. destruct (s_lock s k) as [i|] eqn:L; [|reflexivity]. destruct (holders_reach _ k i L) as (h & H & P & _).
  destruct (QQ h (nth_error_In _ _ H)) as [E|E]; rewrite E in P; discriminate P.
Qed.
(** A drop of the last handle. *)
Lemma last_drop s n a : inv s -> nth_error (s_hs s) n = Some (mkH a Live) -> c_count (cell_of s a) = 2 -> s_lock s (shard sh s a) = None ->
  let s' := run sh s (drops n) in s_map s' = remove_key a (s_map s) /\ c_count (cell_of s' a) = 0 /\ nth_error (s_hs s') n = Some (mkH a Gone).
Proof.
  intros V H C L. assert (I : In a (s_map s)) by exact (i_in s V n _ H eq_refl). assert (A : a < length (s_cells s)) by exact (i_map s V a I).
  assert (NT : forall s1 ph ph', nth_error (s_hs s1) n = Some (mkH a ph) -> nth_error (s_hs (set_phase n ph' s1)) n = Some (mkH a ph')).
  { intros s1 ph ph' H1. cbn [set_phase s_hs]. rewrite H1. apply set_nth_eq. exact (nth_error_lt _ _ _ H1). }
  cbn [drops repeat run fold_left step].
  set (s1 := dropping sh n s). assert (E1 : s1 = set_phase n Slow s) by (unfold s1, dropping; rewrite H, C; reflexivity).
  assert (H1 : nth_error (s_hs s1) n = Some (mkH a Slow)) by (rewrite E1; exact (NT s Live Slow H)).
  set (s2 := dropping sh n s1). assert (E2 : s2 = set_phase n Locked (set_lock (shard sh s a) (Some n) s1)).
  { unfold s2, dropping. rewrite H1. change (shard sh s1 a) with (shard sh (dropping sh n s) a). fold s1. rewrite E1 at 1. cbn [s_lock set_phase]. rewrite E1 at 1. change (shard sh (set_phase n Slow s) a) with (shard sh s a). rewrite L, E1. reflexivity. }
  assert (H2 : nth_error (s_hs s2) n = Some (mkH a Locked)) by (rewrite E2; exact (NT (set_lock (shard sh s a) (Some n) s1) Slow Locked H1)).
  assert (C2 : cell_of s2 a = cell_of s a) by (rewrite E2, E1; reflexivity).
  set (s3 := dropping sh n s2). assert (E3 : s3 = set_phase n Sure s2) by (unfold s3, dropping; rewrite H2, C2, C; reflexivity).
  assert (H3 : nth_error (s_hs s3) n = Some (mkH a Sure)) by (rewrite E3; exact (NT s2 Locked Sure H2)).
  assert (C3 : forall b, cell_of s3 b = cell_of s b) by (intros b; rewrite E3, E2, E1; reflexivity).
  assert (M3 : s_map s3 = s_map s) by (rewrite E3, E2, E1; reflexivity).
  assert (K3 : s_cells s3 = s_cells s) by (rewrite E3, E2, E1; reflexivity).
  assert (V3 : inv s3) by (unfold s3, s2, s1; apply inv_drop, inv_drop, inv_drop, V).
  set (s4 := dropping sh n s3). assert (E4 : s4 = set_phase n Unlock (mkSt (recount a pred (s_cells s3)) (remove_key a (s_map s3)) (s_hs s3) (s_lock s3) (pred (s_alloc s3)) (s_panic s3))).
  { unfold s4, dropping. rewrite H3. rewrite (lookup_in s3 a V3); [reflexivity|rewrite M3; exact I]. }
  assert (H4 : nth_error (s_hs s4) n = Some (mkH a Unlock)) by (rewrite E4; exact (NT (mkSt _ _ (s_hs s3) _ _ _) Sure Unlock H3)).
  set (s5 := dropping sh n s4). assert (E5 : s5 = set_phase n Leave (set_lock (shard sh s4 a) None s4)) by (unfold s5, dropping; rewrite H4; reflexivity).
  assert (H5 : nth_error (s_hs s5) n = Some (mkH a Leave)) by (rewrite E5; exact (NT (set_lock (shard sh s4 a) None s4) Unlock Leave H4)).
  assert (E6 : dropping sh n s5 = set_phase n Gone (mkSt (recount a pred (s_cells s5)) (s_map s5) (s_hs s5) (s_lock s5) (s_alloc s5) (s_panic s5))) by (unfold dropping at 1; rewrite H5; reflexivity).
  rewrite E6. split; [|split].
  - cbn [set_phase s_map]. rewrite E5. cbn [set_phase set_lock s_map]. rewrite E4. cbn [set_phase s_map]. rewrite M3. reflexivity.
  - unfold cell_of. cbn [set_phase s_cells]. rewrite E5. cbn [set_phase set_lock s_cells]. rewrite E4. cbn [set_phase s_cells]. rewrite K3.
    rewrite count_recount by (rewrite recount_length; exact A). rewrite Nat.eqb_refl, count_recount by exact A. rewrite Nat.eqb_refl. unfold cell_of in C. rewrite C. reflexivity.
  - exact (NT (mkSt _ _ (s_hs s5) _ _ _) Leave Gone H5).
Qed.
Lemma recovers es c : let s := run sh init es in let s' := run sh s (New c :: drops (length (s_hs s))) in
  s_lock s (sh c) = None -> (forall h, In h (s_hs s) -> present h -> content s h <> c) ->
  forall b, In b (s_map s') <-> In b (s_map s) /\ c_content (cell_of s b) <> c.
Proof.
  intros s s' L N. pose proof (inv_reach es) as V. fold s in V. set (s1 := step sh s (New c)).
  assert (V1 : inv s1) by apply inv_step, V.
  assert (E' : s' = run sh s1 (drops (length (s_hs s)))) by reflexivity.
  destruct (lookup s c) as [a|] eqn:Q.
  - assert (E1 : s1 = mkSt (recount a S (s_cells s)) (s_map s) (s_hs s ++ [mkH a Live]) (s_lock s) (s_alloc s) (s_panic s)) by (unfold s1; cbn [step]; unfold intern; rewrite L, Q; reflexivity).
    apply lookup_some in Q as (I & C). assert (R : refs a (s_hs s) = 0).
    { destruct (refs a (s_hs s)) eqn:R; [reflexivity|]. destruct (refs_in a (s_hs s)) as (i & h & H & P); [lia|]. apply holds_iff in P as (P & P'). destruct (N h (nth_error_In _ _ H) P'). unfold content. rewrite P. exact C. }
    destruct (last_drop s1 (length (s_hs s)) a V1) as (M & _).
    + rewrite E1. cbn [s_hs]. rewrite nth_error_app2, Nat.sub_diag by lia. reflexivity.
    + rewrite E1. unfold cell_of. cbn [s_cells]. rewrite count_recount by exact (i_map s V a I). rewrite Nat.eqb_refl. pose proof (i_count s V a (i_map s V a I)) as K. unfold cell_of in K. rewrite K, R.
      destruct (in_dec Nat.eq_dec a (s_map s)); [reflexivity|contradiction].
    + rewrite E1. unfold shard, cell_of. cbn [s_cells s_lock]. rewrite content_recount. unfold cell_of in C. rewrite C. exact L.
    + rewrite E', M, E1. cbn [s_map]. intros b. rewrite remove_in. split; intros (B & D); split; auto.
      * intros X. apply D. apply (i_keys s V b a B I). congruence.
      * intros ->. contradiction.
  - set (a := length (s_cells s)). assert (E1 : s1 = mkSt (s_cells s ++ [mkC c 2]) (s_map s ++ [a]) (s_hs s ++ [mkH a Live]) (s_lock s) (S (s_alloc s)) (s_panic s)) by (unfold s1; cbn [step]; unfold intern; rewrite L, Q; reflexivity).
    assert (C1 : cell_of s1 a = mkC c 2) by (rewrite E1; unfold cell_of; cbn [s_cells]; unfold a; rewrite app_nth2, Nat.sub_diag by lia; reflexivity).
    destruct (last_drop s1 (length (s_hs s)) a V1) as (M & _).
    + rewrite E1. cbn [s_hs]. rewrite nth_error_app2, Nat.sub_diag by lia. reflexivity.
    + rewrite C1. reflexivity.
    + unfold shard. rewrite C1. rewrite E1. exact L.
    + rewrite E', M, E1. cbn [s_map]. intros b. rewrite remove_in, in_app_iff. split.
      * intros ([B|[B|[]]] & D); [|congruence]. split; [exact B|]. exact (lookup_none _ _ Q b B).
      * intros (B & D). split; [auto|]. pose proof (i_map s V b B). unfold a. lia.
Qed.
End Shards.
