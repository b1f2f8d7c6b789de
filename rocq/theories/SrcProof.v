(** * Proofs about the tables of worlds *)

From Coq Require Import List Arith Bool Lia.
From Verif Require Import SrcModel SrcSpec.
Import ListNotations.

Local Arguments Nat.ltb : simpl never.

Lemma set_length {A} (i : nat) (x : A) l : length (set i x l) = length l.
Proof.
  revert i. induction l as [|y l IH]; intros [|i]; cbn; auto.
Qed.

Lemma set_same {A} (i : nat) (x : A) l : i < length l -> nth_error (set i x l) i = Some x.
Proof.
  revert i. induction l as [|y l IH]; intros [|i] H; cbn in *; try lia; auto.
  apply IH. lia.
Qed.

Lemma set_other {A} (i j : nat) (x : A) l : i <> j -> nth_error (set i x l) j = nth_error l j.
Proof.
  revert i j. induction l as [|y l IH]; intros [|i] [|j] H; cbn; auto; try lia.
Qed.

Lemma nth_of_error {A} (l : list A) i d x : nth_error l i = Some x -> nth i l d = x.
Proof. apply nth_error_nth. Qed.

Lemma set_nth_same {A} (i : nat) (x d : A) l : i < length l -> nth i (set i x l) d = x.
Proof. intro H. apply nth_of_error. apply set_same. exact H. Qed.

Lemma set_nth_other {A} (i j : nat) (x d : A) l : i <> j -> nth j (set i x l) d = nth j l d.
Proof.
  revert i j. induction l as [|y l IH]; intros [|i] [|j] H; cbn; auto; try lia.
Qed.

Lemma kind_eqb_ok a b : kind_eqb a b = true <-> a = b.
Proof. destruct a, b; cbn; split; intro H; try discriminate; auto. Qed.

(** ** Looking into a table *)

Fixpoint get (f : nat) (t : list slot) : option slot :=
  match t with
  | [] => None
  | s :: t' => if Nat.eqb (s_file s) f then Some s else get f t'
  end.

Definition cell_of (t : list slot) (k : kind) (f : nat) : option res :=
  match get f t with Some s => cell k s | None => None end.

Definition touched_of (t : list slot) (f : nat) : bool :=
  match get f t with Some s => s_touched s | None => false end.

Definition own (t : list slot) : Prop := NoDup (map s_file t).

Lemma get_in f t s : get f t = Some s -> In s t /\ s_file s = f.
Proof.
  induction t as [|y t IH]; cbn; [discriminate|].
  destruct (Nat.eqb (s_file y) f) eqn:E.
  - intro H. injection H as ->. apply Nat.eqb_eq in E. auto.
  - intro H. destruct (IH H). auto.
Qed.

Lemma get_own t s : own t -> In s t -> get (s_file s) t = Some s.
Proof.
  unfold own. induction t as [|y t IH]; cbn; [tauto|].
  intros HN HI. inversion HN as [|a b Hn Hr]; subst.
  destruct HI as [->|HI].
  - rewrite Nat.eqb_refl. reflexivity.
  - destruct (Nat.eqb (s_file y) (s_file s)) eqn:E.
    + apply Nat.eqb_eq in E. exfalso. apply Hn. rewrite E. apply in_map. exact HI.
    + apply IH; assumption.
Qed.

Lemma dependencies_ok t f : own t -> (In f (dependencies t) <-> touched_of t f = true).
Proof.
  intro HN. unfold dependencies, touched_of. split.
  - intro H. apply in_map_iff in H. destruct H as (s & <- & Hs).
    apply filter_In in Hs. destruct Hs as (Hs & Ht).
    rewrite (get_own _ _ HN Hs). exact Ht.
  - destruct (get f t) as [s|] eqn:E; [|discriminate].
    intro Ht. destruct (get_in _ _ _ E) as (Hs & <-).
    apply in_map. apply filter_In. auto.
Qed.

Lemma dependencies_once t : own t -> NoDup (dependencies t).
Proof.
  unfold own, dependencies. induction t as [|s t IH]; cbn; [intro; constructor|].
  intro H. inversion H as [|a b Hn Hr]; subst.
  destruct (s_touched s); cbn; auto. constructor; auto.
  intro HI. apply Hn. apply in_map_iff in HI. destruct HI as (y & E & Hy).
  apply filter_In in Hy. rewrite <- E. apply in_map. tauto.
Qed.

Lemma mark_file c s : s_file (mark c s) = s_file s.
Proof. unfold mark. destruct (c && negb (s_touched s)); reflexivity. Qed.
Lemma mark_cell c s k : cell k (mark c s) = cell k s.
Proof. unfold mark. destruct (c && negb (s_touched s)); destruct k; reflexivity. Qed.
Lemma mark_touched c s : s_touched (mark c s) = c || s_touched s.
Proof. unfold mark. destruct c, (s_touched s) eqn:E; cbn; auto. Qed.

Lemma compute_facts k r s x s' : compute k r s = (x, s') ->
  s_file s' = s_file s /\ s_touched s' = s_touched s /\
  x = (match cell k s with Some y => y | None => r end) /\
  cell k s' = Some x /\ (forall k', k' <> k -> cell k' s' = cell k' s).
Proof.
  unfold compute. destruct (cell k s) as [y|] eqn:E; intro H; injection H as <- <-.
  - repeat split; auto.
  - destruct k; cbn; repeat split; auto; intros [|] H; auto; contradiction.
Qed.

Lemma read_files c k f r t x t' : read c k f r t = (x, t') ->
  map s_file t' = if existsb (Nat.eqb f) (map s_file t) then map s_file t
                  else map s_file t ++ [f].
Proof.
  revert x t'. induction t as [|s t IH]; cbn; intros x t' H.
  - destruct (compute k r (mark c (fresh c f))) as [y s'] eqn:E. injection H as <- <-.
    apply compute_facts in E. cbn. destruct E as (E & _). rewrite E, mark_file. reflexivity.
  - rewrite (Nat.eqb_sym f). destruct (Nat.eqb (s_file s) f) eqn:E; cbn.
    + destruct (compute k r (mark c s)) as [y s'] eqn:E'. injection H as <- <-.
      apply compute_facts in E'. destruct E' as (E' & _). cbn. rewrite E', mark_file. reflexivity.
    + destruct (read c k f r t) as [y t''] eqn:E'. injection H as <- <-.
      cbn. rewrite (IH _ _ eq_refl).
      destruct (existsb (Nat.eqb f) (map s_file t)); reflexivity.
Qed.

Lemma read_own c k f r t x t' : read c k f r t = (x, t') -> own t -> own t'.
Proof.
  intros H HN. unfold own. rewrite (read_files _ _ _ _ _ _ _ H).
  destruct (existsb (Nat.eqb f) (map s_file t)) eqn:E; [exact HN|].
  assert (Hn : ~ In f (map s_file t)).
  { intro HI. assert (existsb (Nat.eqb f) (map s_file t) = true); [|congruence].
    apply existsb_exists. exists f. split; [exact HI|apply Nat.eqb_refl]. }
  clear E H. revert HN Hn. unfold own. generalize (map s_file t). intros l HN Hn.
  induction l as [|y l IH]; cbn; [constructor; [auto|constructor]|].
  inversion HN as [|a b Hy Hl]; subst. constructor.
  - intro HI. apply in_app_or in HI. destruct HI as [HI|[->|[]]]; [auto|].
    apply Hn. left. reflexivity.
  - apply IH; [exact Hl|]. intro HI. apply Hn. right. exact HI.
Qed.

Lemma read_get_other c k f r t x t' g : read c k f r t = (x, t') -> g <> f ->
  get g t' = get g t.
Proof.
  revert x t'. induction t as [|s t IH]; cbn; intros x t' H Hg.
  - destruct (compute k r (mark c (fresh c f))) as [y s'] eqn:E. injection H as <- <-.
    apply compute_facts in E. destruct E as (E & _). cbn. rewrite E, mark_file. cbn.
    destruct (Nat.eqb f g) eqn:E'; [apply Nat.eqb_eq in E'; congruence|reflexivity].
  - destruct (Nat.eqb (s_file s) f) eqn:E.
    + destruct (compute k r (mark c s)) as [y s'] eqn:E'. injection H as <- <-.
      apply compute_facts in E'. destruct E' as (E' & _). cbn. rewrite E', mark_file.
      apply Nat.eqb_eq in E. rewrite E.
      destruct (Nat.eqb f g) eqn:E''; [apply Nat.eqb_eq in E''; congruence|reflexivity].
    + destruct (read c k f r t) as [y t''] eqn:E'. injection H as <- <-.
      cbn. destruct (Nat.eqb (s_file s) g); [reflexivity|]. eapply IH; [reflexivity|exact Hg].
Qed.

Lemma read_get_same c k f r t x t' : read c k f r t = (x, t') ->
  exists s', get f t' = Some s' /\
    x = (match cell_of t k f with Some y => y | None => r end) /\
    cell k s' = Some x /\ (forall k', k' <> k -> cell k' s' = cell_of t k' f) /\
    s_touched s' = c || touched_of t f.
Proof.
  revert x t'. induction t as [|s t IH]; cbn; intros x t' H.
  - destruct (compute k r (mark c (fresh c f))) as [y s'] eqn:E. injection H as <- <-.
    apply compute_facts in E. destruct E as (E1 & E2 & E3 & E4 & E5).
    exists s'. cbn. rewrite E1, mark_file. cbn. rewrite Nat.eqb_refl. split; [reflexivity|].
    rewrite mark_cell in E3. unfold cell_of, touched_of. cbn.
    split; [destruct k; exact E3|]. split; [exact E4|]. split.
    + intros k' Hk. rewrite (E5 k' Hk), mark_cell. destruct k'; reflexivity.
    + rewrite E2, mark_touched. cbn. destruct c; reflexivity.
  - unfold cell_of, touched_of. cbn. destruct (Nat.eqb (s_file s) f) eqn:E.
    + destruct (compute k r (mark c s)) as [y s'] eqn:E'. injection H as <- <-.
      apply compute_facts in E'. destruct E' as (E1 & E2 & E3 & E4 & E5).
      exists s'. cbn. rewrite E1, mark_file, E. split; [reflexivity|].
      rewrite mark_cell in E3. split; [exact E3|]. split; [exact E4|]. split.
      * intros k' Hk. rewrite (E5 k' Hk), mark_cell. reflexivity.
      * rewrite E2, mark_touched. reflexivity.
    + destruct (read c k f r t) as [y t''] eqn:E'. injection H as <- <-.
      destruct (IH _ _ eq_refl) as (s' & H1 & H2). exists s'. cbn. rewrite E. auto.
Qed.

(** ** What a history knows *)

Definition reads_in (h : list event) (n p : nat) (k : kind) (f : nat) : bool :=
  (p <? count h) && (session h p =? n) && is_file k f.

Fixpoint known (h : list event) (n : nat) (k : kind) (f : nat) : option res :=
  match h with
  | [] => None
  | Read p k' f' :: h' =>
      match known h' n k f with
      | Some r => Some r
      | None => if kind_eqb k' k && (f' =? f) && reads_in h' n p k f
                then Some (sees h' p k f) else None
      end
  | _ :: h' => known h' n k f
  end.

Fixpoint dep (h : list event) (n f : nat) : bool :=
  match h with
  | [] => false
  | Read p k' f' :: h' =>
      ((f' =? f) && reads_in h' n p k' f && counts h' p) || dep h' n f
  | _ :: h' => dep h' n f
  end.

Lemma reads_in_ok h n p k f : reads_in h n p k f = true <->
  p < count h /\ session h p = n /\ is_file k f = true.
Proof.
  unfold reads_in. rewrite !andb_true_iff, Nat.ltb_lt, Nat.eqb_eq. tauto.
Qed.

Lemma known_none h n k f : known h n k f = None ->
  forall after before p, read_at h n p k f after before -> False.
Proof.
  induction h as [|e h IH]; intros H after before p (E & Hp & Hs & Hf).
  - destruct after; discriminate.
  - destruct after as [|e' after]; cbn in E; injection E as -> E.
    + subst before. cbn in H. destruct (known h n k f); [discriminate|].
      assert (G : reads_in h n p k f = true) by (apply reads_in_ok; auto).
      rewrite G, Nat.eqb_refl in H. destruct k; cbn in H; discriminate.
    + assert (K : known h n k f = None).
      { cbn in H. destruct e'; auto. destruct (known h n k f); [discriminate|reflexivity]. }
      apply (IH K after before p). repeat split; auto.
Qed.

Lemma known_some h n k f r : known h n k f = Some r ->
  exists after before p, read_at h n p k f after before /\
    known before n k f = None /\ r = sees before p k f.
Proof.
  induction h as [|e h IH]; [discriminate|]. intro H.
  assert (D : known h n k f = Some r \/
    (known h n k f = None /\ exists p, e = Read p k f /\ reads_in h n p k f = true /\
       r = sees h p k f)).
  { cbn in H. destruct e as [v|p c|p b|p|p v|p k' f'|p|p c]; auto.
    destruct (known h n k f) as [r'|]; [left; exact H|].
    right. split; [reflexivity|].
    destruct (kind_eqb k' k && (f' =? f) && reads_in h n p k f) eqn:E; [|discriminate].
    injection H as <-. apply andb_true_iff in E. destruct E as (E & E3).
    apply andb_true_iff in E. destruct E as (E1 & E2).
    apply kind_eqb_ok in E1. apply Nat.eqb_eq in E2. subst. exists p. auto. }
  destruct D as [D|(D & p & -> & G & ->)].
  - destruct (IH D) as (after & before & p & (E & R) & K & Hr).
    exists (e :: after), before, p. split; [|auto]. split; [|exact R]. rewrite E. reflexivity.
  - exists [], h, p. split; [|auto]. apply reads_in_ok in G.
    destruct G as (G1 & G2 & G3). repeat split; auto.
Qed.

Lemma known_later after before n k f r :
  known before n k f = Some r -> known (after ++ before) n k f = Some r.
Proof.
  intro H. induction after as [|e after IH]; [exact H|].
  cbn. destruct e; auto. rewrite IH. reflexivity.
Qed.

Lemma known_first h n k f after before p :
  read_at h n p k f after before -> known before n k f = None ->
  known h n k f = Some (sees before p k f).
Proof.
  intros (E & Hp & Hs & Hf) K. subst h. apply known_later. cbn. rewrite K.
  assert (G : reads_in before n p k f = true) by (apply reads_in_ok; auto).
  rewrite G, Nat.eqb_refl. destruct k; reflexivity.
Qed.

Lemma dep_ok h n f : dep h n f = true <->
  exists k p after before, read_at h n p k f after before /\ counts before p = true.
Proof.
  induction h as [|e h IH].
  - cbn. split; [discriminate|]. intros (k & p & [|e after] & before & (E & _) & _); discriminate.
  - split.
    + intro H.
      assert (D : dep h n f = true \/ exists p k, e = Read p k f /\
                reads_in h n p k f = true /\ counts h p = true).
      { cbn in H. destruct e as [v|p c|p b|p|p v|p k' f'|p|p c]; auto.
        apply orb_true_iff in H. destruct H as [H|H]; [|auto].
        apply andb_true_iff in H. destruct H as (H & H3).
        apply andb_true_iff in H. destruct H as (H1 & H2).
        apply Nat.eqb_eq in H1. subst. right. exists p, k'. auto. }
      destruct D as [D|(p & k & -> & G & C)].
      * apply IH in D. destruct D as (k & p & after & before & (E & R) & C).
        exists k, p, (e :: after), before. split; [|exact C].
        split; [|exact R]. rewrite E. reflexivity.
      * exists k, p, [], h. split; [|exact C]. apply reads_in_ok in G.
        destruct G as (G1 & G2 & G3). repeat split; auto.
    + intros (k & p & [|e' after] & before & (E & Hp & Hs & Hf) & C); cbn in E; injection E as -> E.
      * subst before. cbn. apply orb_true_iff. left.
        assert (G : reads_in h n p k f = true) by (apply reads_in_ok; auto).
        rewrite G, C, Nat.eqb_refl. reflexivity.
      * assert (D : dep h n f = true).
        { apply IH. exists k, p, after, before. repeat split; auto. }
        cbn. destruct e'; auto. rewrite D, orb_true_r. reflexivity.
Qed.

(** ** The state agrees with the history *)

Record agrees (h : list event) (s : state) : Prop := {
  a_count : length (worlds s) = count h;
  a_world : forall i w, nth_error (worlds s) i = Some w ->
    w_compiling w = counts h i /\ w_view w = sees h i /\
    w_now w = fetched h (origin h i) /\ w_table w < length (tables s) /\
    session h i < length h /\ origin h i < length h;
  a_share : forall i w j v, nth_error (worlds s) i = Some w -> nth_error (worlds s) j = Some v ->
    (w_table w = w_table v <-> session h i = session h j);
  a_root : forall i j, i < count h -> j < count h -> origin h i = origin h j ->
    fetched h (origin h i) = None -> i = j;
  a_own : forall n, own (nth n (tables s) []);
  a_table : forall i w, nth_error (worlds s) i = Some w ->
    (forall k f, cell_of (nth (w_table w) (tables s) []) k f = known h (session h i) k f) /\
    (forall f, touched_of (nth (w_table w) (tables s) []) f = dep h (session h i) f)
}.

Lemma nth_lt {A} (l : list A) i x : nth_error l i = Some x -> i < length l.
Proof. intro H. apply nth_error_Some. congruence. Qed.

Lemma known_ahead h n k f : length h <= n ->
  (forall h', (exists a, h = a ++ h') -> forall i, i < count h' -> session h' i < length h') ->
  known h n k f = None.
Proof.
  intros Hn HS. induction h as [|e h IH]; [reflexivity|].
  assert (K : known h n k f = None).
  { apply IH; [cbn in Hn; lia|]. intros h' (a & E). apply HS. exists (e :: a). rewrite E. reflexivity. }
  cbn. destruct e; auto. rewrite K.
  destruct (kind_eqb k0 k && (f0 =? f) && reads_in h n w k f) eqn:E; [|reflexivity].
  apply andb_true_iff in E. destruct E as (_ & G). apply reads_in_ok in G.
  destruct G as (G1 & G2 & _). exfalso.
  assert (session h w < length h). { apply HS; [exists [Read w k0 f0]; reflexivity|exact G1]. }
  cbn in Hn. lia.
Qed.

Lemma session_bound h : forall i, i < count h -> session h i < length h.
Proof.
  induction h as [|e h IH]; cbn; intros i Hi; [lia|].
  destruct e as [v|p c|p b|p|p v|p k f|p|p c]; try (specialize (IH i Hi); lia).
  - destruct (Nat.eqb_spec i (count h)); [lia|]. specialize (IH i ltac:(lia)). lia.
  - destruct (Nat.ltb_spec p (count h)); cbn.
    + destruct (Nat.eqb_spec i (count h)).
      * specialize (IH p H). lia.
      * specialize (IH i ltac:(lia)). lia.
    + specialize (IH i Hi). lia.
  - destruct (p =? i); [lia|]. specialize (IH i Hi). lia.
Qed.

Lemma origin_bound h : forall i, i < count h -> origin h i < length h.
Proof.
  induction h as [|e h IH]; cbn; intros i Hi; [lia|].
  destruct e as [v|p c|p b|p|p v|p k f|p|p c]; try (specialize (IH i Hi); lia).
  - destruct (Nat.eqb_spec i (count h)); [lia|]. specialize (IH i ltac:(lia)). lia.
  - destruct (Nat.ltb_spec p (count h)); cbn.
    + destruct (Nat.eqb_spec i (count h)).
      * specialize (IH p H). lia.
      * specialize (IH i ltac:(lia)). lia.
    + specialize (IH i Hi). lia.
Qed.

Lemma known_new h n k f : length h <= n -> known h n k f = None.
Proof. intro H. apply known_ahead; [exact H|]. intros h' _. apply session_bound. Qed.

Lemma dep_new h n f : length h <= n -> dep h n f = false.
Proof.
  intro H. destruct (dep h n f) eqn:E; [|reflexivity].
  apply dep_ok in E. destruct E as (k & p & after & before & (E & Hp & Hs & _) & _).
  pose proof (session_bound _ _ Hp). subst h. rewrite app_length in H. cbn in H. lia.
Qed.

Lemma fetched_new h o : length h <= o -> fetched h o = None.
Proof.
  intro H. induction h as [|e h IH]; [reflexivity|].
  assert (K : fetched h o = None) by (apply IH; cbn in H; lia).
  cbn. destruct e as [v|p c|p b|p|p v|p k f|p|p c]; auto; rewrite K;
  (destruct (Nat.ltb_spec p (count h)) as [L|L]; cbn; [|reflexivity]);
  (destruct (Nat.eqb_spec (origin h p) o) as [G|G]; [|reflexivity]);
  pose proof (origin_bound h p L); cbn in H; lia.
Qed.

Lemma cell_empty k f : cell_of [] k f = None. Proof. reflexivity. Qed.

Lemma nth_snoc {A} (l : list A) x d n : nth n (l ++ [x]) d =
  if n =? length l then x else nth n l d.
Proof.
  destruct (Nat.eqb_spec n (length l)) as [->|H].
  - rewrite app_nth2, Nat.sub_diag; [reflexivity|lia].
  - destruct (Nat.lt_ge_cases n (length l)).
    + apply app_nth1. assumption.
    + rewrite !nth_overflow; auto; rewrite ?app_length; cbn; lia.
Qed.

Lemma nth_error_snoc {A} (l : list A) x n y : nth_error (l ++ [x]) n = Some y ->
  (n < length l /\ nth_error l n = Some y) \/ (n = length l /\ y = x).
Proof.
  intro H. destruct (Nat.lt_ge_cases n (length l)) as [L|L].
  - rewrite nth_error_app1 in H; auto.
  - right. rewrite nth_error_app2 in H; [|exact L].
    destruct (n - length l) as [|m] eqn:E; cbn in H.
    + injection H as <-. split; [lia|reflexivity].
    + destruct m; discriminate.
Qed.

Lemma nth_error_set {A} (l : list A) i x j y : i < length l -> nth_error (set i x l) j = Some y ->
  (j = i /\ y = x) \/ (j <> i /\ nth_error l j = Some y).
Proof.
  intros L H. destruct (Nat.eq_dec j i) as [->|N].
  - left. rewrite set_same in H; [|exact L]. injection H as <-. auto.
  - right. rewrite set_other in H; auto.
Qed.
