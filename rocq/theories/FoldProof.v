(** Proofs about folding ranges (C45). *)
From Coq Require Import List Arith Bool Lia.
From Verif Require Import FoldModel FoldSpec.
Import ListNotations.

Lemma hier_ind2 (P : hier -> Prop) : (forall k n a b c d cs, Forall P cs -> P (Hier k n a b c d cs)) -> forall h, P h.
Proof. intros H. fix IH 1. intros [k n a b c d cs]. apply H. induction cs; constructor; [apply IH|assumption]. Qed.
Lemma within_cs last k n a b c d cs : within last (Hier k n a b c d cs) <-> a <= c /\ c <= last /\ Forall (within last) cs.
Proof.
  cbn [within]. assert (E : forall l, (fix go l := match l with [] => True | c :: r => within last c /\ go r end) l <-> Forall (within last) l).
  { induction l as [|x l IH]; [split; auto|]. rewrite Forall_cons_iff, IH. reflexivity. }
  rewrite E. reflexivity.
Qed.

(** * Candidates *)
Definition okr last (r : fr) : Prop := f_sl r <= f_el r /\ f_el r <= last.
Lemma calc_with_ok last f l : Forall (fun h => within last h -> forall next, match next with Some x => fst x <= last | None => True end -> Forall (okr last) (f h next)) l -> Forall (within last) l -> Forall (okr last) (calc_with f l).
Proof.
  induction l as [|h l IH]; intros F W; cbn [calc_with]; [constructor|]. apply Forall_app. split; [|apply IH; [exact (Forall_inv_tail F)|exact (Forall_inv_tail W)]].
  apply (Forall_inv F (Forall_inv W)). destruct l as [|[k n a b c d cs] l]; cbn; [trivial|]. pose proof (Forall_inv (Forall_inv_tail W)) as X. apply within_cs in X. lia.
Qed.
Lemma node_ok last ll h : fst ll <= last -> forall pl is_last next, fst pl <= last -> match next with Some x => fst x <= last | None => True end -> within last h -> Forall (okr last) (calc_node pl ll is_last h next).
Proof.
  intros L. induction h as [k n a b c d cs IH] using hier_ind2. intros pl is_last next P X W. apply within_cs in W as (W1 & W2 & W3). cbn [calc_node]. apply Forall_app. split.
  - apply calc_with_ok; [|exact W3]. rewrite Forall_forall in *. intros h I Wh next' X'. apply IH; auto. destruct next; cbn; lia.
  - constructor; [|constructor]. unfold okr. cbn [f_sl f_el]. destruct k, next as [x|], is_last; cbn [negb orb fst] in *; lia.
Qed.
Lemma calc_ok last lc hs : fst lc <= last -> Forall (within last) hs -> Forall (okr last) (calc lc lc true hs).
Proof.
  intros L W. unfold calc. apply calc_with_ok; [|exact W]. apply Forall_forall. intros h _ Wh next X. now apply node_ok.
Qed.

(** * Retaining *)
Lemma set_true_spec v : forall i, i < length v -> exists v', set_true v i = Some v' /\ length v' = length v /\ forall k, nth_error v' k = if k =? i then Some true else nth_error v k.
Proof.
  induction v as [|b v IH]; intros i H; [cbn in H; lia|]. destruct i as [|i]; cbn [set_true].
  - eexists. split; [reflexivity|]. split; [reflexivity|]. intros [|k]; reflexivity.
  - destruct (IH i) as (v' & E & L & N); [cbn in H; lia|]. rewrite E. cbn [option_map]. eexists. split; [reflexivity|]. split; [cbn; lia|]. intros [|k]; cbn; [reflexivity|apply N].
Qed.
Lemma retain_ok l : forall cov pairs, Forall (fun r => f_sl r <= f_el r /\ f_el r < length cov) l -> exists rs, retain cov pairs l = Some rs /\ subseq rs l.
Proof.
  induction l as [|r l IH]; intros cov pairs F; cbn [retain]; [exists []; split; [reflexivity|constructor]|]. pose proof (Forall_inv F) as [A B]. pose proof (Forall_inv_tail F) as F'.
  destruct (has_pair pairs _). { destruct (IH cov pairs F') as (rs & E & S). exists rs. split; [exact E|now constructor]. }
  destruct (nth_error cov (f_sl r)) as [cs|] eqn:E1; [|apply nth_error_None in E1; lia]. destruct (nth_error cov (f_el r)) as [ce|] eqn:E2; [|apply nth_error_None in E2; lia].
  set (s := if cs then _ else _). set (e := if ce then _ else _). destruct (Nat.leb_spec e s). { destruct (IH cov pairs F') as (rs & E & S). exists rs. split; [exact E|now constructor]. }
  assert (SE : f_sl r <= s <= f_sl r + 1 /\ f_el r - 1 <= e <= f_el r) by (unfold s, e; destruct cs, ce; lia).
  destruct (set_true_spec cov s) as (cov' & E & L & _); [lia|]. rewrite E. destruct (IH cov' ((s, e) :: pairs)) as (rs & R & S); [now rewrite L|]. rewrite R. cbn [option_map]. eexists. split; [reflexivity|].
  constructor; [|exact S]. unfold from. cbn [f_sl f_el f_sc f_ec f_comment f_name]. repeat split; auto; lia.
Qed.
Lemma subseq_app a b c d : subseq a b -> subseq c d -> subseq (a ++ c) (b ++ d).
Proof. intros H K. induction H; cbn; [exact K|now constructor|now constructor]. Qed.
Lemma subseq_rev a b : subseq a b -> subseq (rev a) (rev b).
Proof.
  intros H. induction H; cbn; [constructor| |].
  - rewrite <- (app_nil_r (rev rs)). apply subseq_app; [exact IHsubseq|repeat constructor].
  - apply subseq_app; [exact IHsubseq|]. constructor; [assumption|constructor].
Qed.
Lemma max_le l : forall m, m <= fold_left Nat.max l m /\ forall x, In x l -> x <= fold_left Nat.max l m.
Proof.
  induction l as [|y l IH]; intros m; cbn; [split; [lia|tauto]|]. destruct (IH (Nat.max m y)) as [A B]. split; [lia|]. intros x [<-|I]; [lia|auto].
Qed.
Theorem line_only_ok l : Forall (fun r => f_sl r <= f_el r) l -> exists rs, line_only l = Some rs /\ subseq rs (map strip l).
Proof.
  intros F. unfold line_only. fold strip. set (l' := map (fun r => mkFr (f_sl r) None (f_el r) None (f_comment r) (f_name r)) l). change (map strip l) with l'.
  destruct (retain_ok (rev l') (repeat false (fold_left Nat.max (map f_el l') 0 + 1)) []) as (rs & E & S).
  - apply Forall_rev. unfold l'. rewrite Forall_map. cbn [f_sl f_el]. rewrite Forall_forall in *. intros r I. split; [now apply F|]. rewrite repeat_length.
    assert (X : f_el r <= fold_left Nat.max (map f_el l') 0); [|unfold l' in X; lia]. apply max_le. unfold l'. rewrite map_map. cbn [f_el]. now apply in_map.
  - rewrite E. cbn [option_map]. exists (rev rs). split; [reflexivity|]. apply subseq_rev in S. now rewrite rev_involutive in S.
Qed.
Lemma subseq_in rs cs : subseq rs cs -> forall r, In r rs -> exists c, In c cs /\ from r c.
Proof. intros H. induction H; intros q I; [destruct I|destruct (IHsubseq q I) as (c' & A & B); exists c'; split; [now right|exact B]|]. destruct I as [<-|I]; [exists c; split; [now left|assumption]|]. destruct (IHsubseq q I) as (c' & A & B). exists c'. split; [now right|exact B]. Qed.
Theorem request_ok b last lc hs : fst lc <= last -> Forall (within last) hs -> exists rs, request b lc hs = Some rs /\
  Forall (fun r => f_el r <= last /\ if b then f_sl r < f_el r /\ f_sc r = None /\ f_ec r = None else f_sl r <= f_el r) rs.
Proof.
  intros L W. pose proof (calc_ok last lc hs L W) as C. unfold request. destruct b.
  - destruct (line_only_ok (calc lc lc true hs)) as (rs & E & S). { rewrite Forall_forall in *. intros r I. apply (C r I). }
    exists rs. split; [exact E|]. apply Forall_forall. intros r I. destruct (subseq_in _ _ S r I) as (c & K & (A & B & D & X & Y & _)). apply in_map_iff in K as (c0 & <- & K). rewrite Forall_forall in C. destruct (C c0 K). cbn [strip f_el f_sl f_sc f_ec] in *. repeat split; auto. lia.
  - eexists. split; [reflexivity|]. rewrite Forall_forall in *. intros r I. destruct (C r I). auto.
Qed.

(** * Distinct results *)
(** Later candidates (as pushed) that start later start after the end of earlier ones. *)
Definition ordered (l : list fr) : Prop := forall a r b q c, l = a ++ r :: b ++ q :: c -> f_sl r < f_sl q -> f_el r <= f_sl q.
Definition inv (seen : list fr) (cov : list bool) (kept : list fr) : Prop :=
  (forall k, nth_error cov k = Some true <-> In k (map f_sl kept)) /\ forall r, In r kept -> exists c, In c seen /\ from r c.
Lemma retain_distinct l : forall cov pairs seen kept rs, Forall (fun r => f_sl r <= f_el r /\ f_el r < length cov) l -> NoDup (map f_sl (seen ++ l)) ->
  (forall c r, In c seen -> In r l -> f_sl r < f_sl c -> f_el r <= f_sl c) -> (forall a r b q c, l = a ++ r :: b ++ q :: c -> f_sl q < f_sl r -> f_el q <= f_sl r) ->
  inv seen cov kept -> retain cov pairs l = Some rs -> NoDup (map f_sl kept) -> NoDup (map f_sl kept ++ map f_sl rs).
Proof.
  induction l as [|r l IH]; intros cov pairs seen kept rs F ND O1 O2 (I1 & I2) E NK; cbn [retain] in E; [injection E as <-; cbn; now rewrite app_nil_r|].
  pose proof (Forall_inv F) as [A B]. pose proof (Forall_inv_tail F) as F'. assert (ND' : NoDup (map f_sl ((seen ++ [r]) ++ l))) by (now rewrite <- app_assoc).
  assert (O1' : forall c q, In c (seen ++ [r]) -> In q l -> f_sl q < f_sl c -> f_el q <= f_sl c).
  { intros c q C Q. apply in_app_or in C as [C|[<-|[]]]; [apply O1; [exact C|now right]|]. apply in_split in Q as (u & v & ->). now apply (O2 [] r u q v). }
  assert (O2' : forall a q b p c, l = a ++ q :: b ++ p :: c -> f_sl p < f_sl q -> f_el p <= f_sl q). { intros a q b p c ->. apply (O2 (r :: a) q b p c). reflexivity. }
  assert (SEEN : forall kept' cov', inv (seen) cov' kept' -> inv (seen ++ [r]) cov' kept'). { intros kept' cov' [X Y]. split; [exact X|]. intros q Q. destruct (Y q Q) as (c & C & G). exists c. split; [apply in_or_app; now left|exact G]. }
  destruct (has_pair pairs _). { apply (IH cov pairs (seen ++ [r]) kept); auto. apply SEEN. now split. }
  destruct (nth_error cov (f_sl r)) as [cs|] eqn:E1; [|discriminate]. destruct (nth_error cov (f_el r)) as [ce|] eqn:E2; [|discriminate].
  set (s := if cs then _ else _) in *. set (e := if ce then _ else _) in *. destruct (Nat.leb_spec e s) as [|SE]. { apply (IH cov pairs (seen ++ [r]) kept); auto. apply SEEN. now split. }
  assert (SS : f_sl r <= s <= f_sl r + 1 /\ f_el r - 1 <= e <= f_el r) by (unfold s, e; destruct cs, ce; lia).
  destruct (set_true_spec cov s) as (cov' & EC & LC & NC); [lia|]. rewrite EC in E. destruct (retain cov' ((s, e) :: pairs) l) as [rs'|] eqn:ER; [|discriminate]. cbn [option_map] in E. injection E as <-.
  set (r' := mkFr s (f_sc r) e (f_ec r) (f_comment r) (f_name r)). assert (FR : from r' r) by (unfold from, r'; cbn; repeat split; auto; lia).
  assert (NEW : ~ In s (map f_sl kept)).
  { intros I. pose proof I as I'. apply in_map_iff in I as (k & KS & KI). destruct (I2 k KI) as (c & CI & (G1 & G2 & G3 & _)). unfold s in *. destruct cs.
    - assert (NE : f_sl c <> f_sl r). { intros X. rewrite map_app in ND. cbn [map] in ND. apply NoDup_remove_2 in ND. apply ND. apply in_or_app. left. rewrite <- X. now apply in_map. }
      assert (f_sl c = f_sl r + 1) by lia. pose proof (O1 c r CI (or_introl eq_refl)). lia.
    - apply I1 in I'. congruence. }
  assert (R := IH cov' ((s, e) :: pairs) (seen ++ [r]) (kept ++ [r']) rs'). rewrite (map_app f_sl kept [r']) in R. cbn [map] in R. change (f_sl r') with s in R. rewrite <- (app_assoc (map f_sl kept) [s] (map f_sl rs')) in R. cbn [map]. apply R; auto.
  - now rewrite LC.
  - split.
    + intros k. rewrite NC, map_app, in_app_iff. cbn [map]. change (f_sl r') with s. destruct (Nat.eqb_spec k s); [split; [intros _; right; now left|reflexivity]|]. rewrite I1. split; [now left|]. intros [X|[X|[]]]; [exact X|congruence].
    + intros q Q. apply in_app_or in Q as [Q|[<-|[]]]; [destruct (I2 q Q) as (c & C & G); exists c; split; [apply in_or_app; now left|exact G]|]. exists r. split; [apply in_or_app; right; now left|exact FR].
  - clear - NEW NK. induction (map f_sl kept) as [|x xs IHx]; cbn; [repeat constructor; intros []|]. inversion NK; subst. constructor; [|apply IHx; auto; intros I; apply NEW; now right]. intros I. apply in_app_or in I as [I|[<-|[]]]; [contradiction|]. apply NEW. now left.
Qed.
Theorem line_only_distinct l rs : Forall (fun r => f_sl r <= f_el r) l -> ordered l -> NoDup (map f_sl l) -> line_only l = Some rs -> NoDup (map f_sl rs).
Proof.
  intros F O ND. unfold line_only. set (l' := map (fun r => mkFr (f_sl r) None (f_el r) None (f_comment r) (f_name r)) l). assert (M : map f_sl l' = map f_sl l) by (unfold l'; now rewrite map_map).
  destruct (retain _ [] (rev l')) as [ks|] eqn:E; [|discriminate]. cbn [option_map]. intros H. injection H as <-. rewrite map_rev. apply NoDup_rev.
  apply (retain_distinct (rev l') _ [] [] [] ks) in E; cbn [app map] in *; auto.
  - apply Forall_rev. unfold l'. rewrite Forall_map. cbn [f_sl f_el]. rewrite Forall_forall in *. intros r I. split; [now apply F|]. rewrite repeat_length.
    assert (X : f_el r <= fold_left Nat.max (map f_el l') 0); [|unfold l' in X; lia]. apply max_le. unfold l'. rewrite map_map. cbn [f_el]. now apply in_map.
  - rewrite map_rev, M. now apply NoDup_rev.
  - intros c r [].
  - intros a q b p c E' L. apply (f_equal (@rev fr)) in E'. rewrite rev_involutive, !rev_app_distr in E'. cbn [rev] in E'. rewrite rev_app_distr in E'. cbn [rev] in E'. rewrite <- !app_assoc in E'. cbn [app] in E'.
    unfold l' in E'. apply map_eq_app in E' as (l1 & l2 & -> & E1 & E2). destruct l2 as [|p0 l2]; [discriminate|]. cbn [map] in E2. injection E2 as E2 E3. apply map_eq_app in E3 as (l3 & l4 & -> & E4 & E5). destruct l4 as [|q0 l4]; [discriminate|]. cbn [map] in E5. injection E5 as E5 E6.
    subst p q. cbn [f_sl f_el] in *. exact (O l1 p0 l3 q0 l4 eq_refl L).
  - split; [|intros r []]. intros k. split; [|intros []]. intros K. exfalso. apply nth_error_In, repeat_spec in K. discriminate.
  - constructor.
Qed.

(** * Nested hierarchies *)
Definition hl (h : hier) : nat * nat := match h with Hier _ _ sl _ el _ _ => (sl, el) end.
Definition apart (x y : nat * nat) : Prop := fst x < fst y -> snd x <= fst y.
Definition nested_in : nat -> nat -> list hier -> Prop :=
  fun hi => fix go lo l := match l with [] => lo <= hi | Hier _ _ s _ e _ _ as c :: r => lo <= s /\ nested c /\ go e r end.
Lemma nested_eq k n a b c d cs : nested (Hier k n a b c d cs) <-> k <> KHeading /\ a <= c /\ nested_in c a cs.
Proof. reflexivity. Qed.
Lemma fop_app {A} (R : A -> A -> Prop) xs ys : ForallOrdPairs R xs -> ForallOrdPairs R ys -> (forall x y, In x xs -> In y ys -> R x y) -> ForallOrdPairs R (xs ++ ys).
Proof.
  intros H K X. induction H as [|x xs F H IH]; cbn; [exact K|]. constructor; [|apply IH; intros; apply X; auto; now right]. apply Forall_app. split; [exact F|]. apply Forall_forall. intros y I. apply X; [now left|exact I].
Qed.
Definition inside (lo hi : nat) (x : nat * nat) : Prop := lo <= fst x /\ fst x <= snd x /\ snd x <= hi.
Definition good (h : hier) : Prop := Forall (inside (fst (hl h)) (snd (hl h))) (map hl (every h)) /\ ForallOrdPairs apart (map hl (every h)).
Lemma in_good hi cs : Forall (fun h => nested h -> good h) cs -> forall lo, nested_in hi lo cs -> lo <= hi /\ Forall (inside lo hi) (map hl (flat_map every cs)) /\ ForallOrdPairs apart (map hl (flat_map every cs)).
Proof.
  induction cs as [|[k n a b c d ds] cs IH]; intros F lo N; cbn [nested_in flat_map map] in *; [repeat split; [exact N|constructor|constructor]|].
  destruct N as (L & NC & NR). destruct (IH (Forall_inv_tail F) c NR) as (X1 & X2 & X3). destruct (Forall_inv F NC) as (G1 & G2). cbn [hl fst snd] in G1. apply nested_eq in NC as (_ & AC & _). split; [lia|]. rewrite map_app. split.
  - apply Forall_app. split; [apply Forall_impl with (2 := G1)|apply Forall_impl with (2 := X2)]; unfold inside; intros; lia.
  - apply fop_app; auto. rewrite Forall_forall in *. intros x y X Y E. apply G1 in X. apply X2 in Y. unfold inside in *. lia.
Qed.
Lemma nested_good h : nested h -> good h.
Proof.
  induction h as [k n a b c d cs IH] using hier_ind2. intros N. apply nested_eq in N as (_ & AC & N). destruct (in_good c cs IH a N) as (X1 & X2 & X3). unfold good. cbn [every hl fst snd]. rewrite map_app. cbn [map hl]. split.
  - apply Forall_app. split; [exact X2|]. constructor; [|constructor]. unfold inside. cbn. lia.
  - apply fop_app; auto; [repeat constructor|]. rewrite Forall_forall in X2. intros x y X [<-|[]] E. apply X2 in X. unfold inside in X. cbn in E. lia.
Qed.
Lemma all_good l : forall lo, nested_all lo l -> Forall (inside lo (fold_left Nat.max (map (fun h => snd (hl h)) l) lo)) (map hl (flat_map every l)) /\ ForallOrdPairs apart (map hl (flat_map every l)).
Proof.
  induction l as [|[k n a b c d cs] l IH]; intros lo N; cbn [nested_all flat_map map] in *; [split; constructor|]. destruct N as (L & N & R). destruct (IH c R) as (X1 & X2). destruct (nested_good _ N) as (G1 & G2). cbn [hl fst snd] in G1.
  apply nested_eq in N as (_ & AC & _). cbn [fold_left hl snd]. rewrite map_app. assert (M : Nat.max lo c = c) by lia. rewrite M. destruct (max_le (map (fun h => snd (hl h)) l) c) as [Q _]. split.
  - apply Forall_app. split; [apply Forall_impl with (2 := G1)|apply Forall_impl with (2 := X1)]; unfold inside; intros; lia.
  - apply fop_app; auto. rewrite Forall_forall in *. intros x y X Y E. apply G1 in X. apply X1 in Y. unfold inside in *. lia.
Qed.
Lemma calc_lines_with f l : Forall (fun h => nested h -> forall next, map lines (f h next) = map hl (every h)) l -> Forall nested l -> map lines (calc_with f l) = map hl (flat_map every l).
Proof.
  induction l as [|h l IH]; intros F N; cbn [calc_with flat_map map]; [reflexivity|]. rewrite !map_app. f_equal; [apply (Forall_inv F (Forall_inv N))|exact (IH (Forall_inv_tail F) (Forall_inv_tail N))].
Qed.
Lemma nested_in_all hi l : forall lo, nested_in hi lo l -> Forall nested l.
Proof. induction l as [|[k n a b c d cs] l IH]; intros lo N; constructor; cbn [nested_in] in N; [apply N|now apply (IH c)]. Qed.
Lemma nested_all_all l : forall lo, nested_all lo l -> Forall nested l.
Proof. induction l as [|[k n a b c d cs] l IH]; intros lo N; constructor; cbn [nested_all] in N; [apply N|now apply (IH c)]. Qed.
Lemma node_lines ll h : nested h -> forall pl il next, map lines (calc_node pl ll il h next) = map hl (every h).
Proof.
  induction h as [k n a b c d cs IH] using hier_ind2. intros N pl il next. apply nested_eq in N as (K & AC & N). cbn [calc_node every]. rewrite !map_app. cbn [map hl lines f_sl f_el]. f_equal; [|destruct k; [congruence|reflexivity|reflexivity]].
  apply calc_lines_with; [|exact (nested_in_all _ _ _ N)]. rewrite Forall_forall in *. intros h I NH next'. now apply IH.
Qed.
Lemma fop_split {A} (R : A -> A -> Prop) l : ForallOrdPairs R l -> forall a x b y c, l = a ++ x :: b ++ y :: c -> R x y.
Proof.
  intros H. induction H as [|z l F H IH]; intros a x b y c E; [destruct a; discriminate|]. destruct a as [|w a]; injection E as -> E; [|now apply (IH a x b y c)]. rewrite Forall_forall in F. apply F. rewrite E. apply in_or_app. right. now left.
Qed.
Theorem request_distinct lc hs rs : nested_all 0 hs -> NoDup (map first_line (flat_map every hs)) -> request true lc hs = Some rs -> NoDup (map lines rs).
Proof.
  intros N ND E. unfold request in E. assert (L : map lines (calc lc lc true hs) = map hl (flat_map every hs)).
  { apply calc_lines_with; [|exact (nested_all_all _ _ N)]. apply Forall_forall. intros h _ NH next. now apply node_lines. }
  destruct (all_good hs 0 N) as (G1 & G2). assert (S : map f_sl (calc lc lc true hs) = map first_line (flat_map every hs)).
  { transitivity (map fst (map lines (calc lc lc true hs))); [now rewrite map_map|]. rewrite L, map_map. apply map_ext. intros [k n a b c d cs]. reflexivity. }
  apply line_only_distinct in E.
  - assert (X : map f_sl rs = map fst (map lines rs)) by (now rewrite map_map). rewrite X in E. now apply NoDup_map_inv in E.
  - rewrite <- L in G1. rewrite Forall_map in G1. apply Forall_impl with (2 := G1). intros r (_ & A & _). exact A.
  - intros a r b q c EQ LT. rewrite <- L in G2. rewrite EQ in G2. rewrite map_app in G2. cbn [map] in G2. rewrite map_app in G2. cbn [map] in G2. exact (fop_split _ _ G2 _ _ _ _ _ eq_refl LT).
  - now rewrite S.
Qed.

(** * What is dropped *)
Lemma has_pair_in ps x : has_pair ps x = true -> In x ps.
Proof. unfold has_pair. intros H. apply existsb_exists in H as (y & I & E). apply andb_prop in E as [A B]. apply Nat.eqb_eq in A, B. destruct x, y. cbn in *. now subst. Qed.
Lemma retain_complete l : forall cov pairs rs, retain cov pairs l = Some rs -> forall c, In c l -> f_sl c + 2 < f_el c -> (exists r, In r rs /\ from r c) \/ In (lines c) (pairs ++ map lines rs).
Proof.
  induction l as [|r l IH]; intros cov pairs rs E c I L; [destruct I|]. cbn [retain] in E. destruct (has_pair pairs _) eqn:HP.
  { destruct I as [<-|I]; [|now apply (IH cov pairs)]. right. apply in_or_app. left. now apply has_pair_in in HP. }
  destruct (nth_error cov (f_sl r)) as [cs|]; [|discriminate]. destruct (nth_error cov (f_el r)) as [ce|]; [|discriminate]. set (s := if cs then _ else _) in *. set (e := if ce then _ else _) in *.
  assert (SS : f_sl r <= s <= f_sl r + 1 /\ f_el r - 1 <= e <= f_el r) by (unfold s, e; destruct cs, ce; lia).
  destruct (Nat.leb_spec e s) as [|SE]. { destruct I as [<-|I]; [lia|]. now apply (IH cov pairs). }
  destruct (set_true cov s) as [cov'|]; [|discriminate]. destruct (retain cov' ((s, e) :: pairs) l) as [rs'|] eqn:R; [|discriminate]. cbn [option_map] in E. injection E as <-.
  destruct I as [<-|I]. { left. eexists. split; [now left|]. unfold from. cbn [f_sl f_el f_sc f_ec f_comment f_name]. repeat split; auto; lia. }
  destruct (IH _ _ _ R c I L) as [(q & Q & G)|Q]; [left; exists q; split; [now right|exact G]|]. right. cbn [app map lines] in *. apply in_or_app. destruct Q as [Q|Q]; [right; left; exact Q|]. apply in_app_or in Q as [Q|Q]; [now left|right; now right].
Qed.
Theorem line_only_complete l rs c : line_only l = Some rs -> In c l -> f_sl c + 2 < f_el c -> (exists r, In r rs /\ from r (strip c)) \/ In (lines c) (map lines rs).
Proof.
  intros E I L. unfold line_only in E. destruct (retain _ _ _) as [ks|] eqn:R; [|discriminate]. cbn [option_map] in E. injection E as <-.
  destruct (retain_complete _ _ _ _ R (strip c)) as [(r & Q & F)|Q].
  - apply in_rev. rewrite rev_involutive. apply in_map_iff. now exists c.
  - exact L.
  - left. exists r. split; [now apply -> in_rev|exact F].
  - right. rewrite map_rev. now apply -> in_rev.
Qed.
Lemma retain_exact l : forall cov pairs seen, (forall c, In c l -> f_sl c <= f_el c /\ f_el c < length cov) -> NoDup (map f_sl (seen ++ l)) -> (forall c d, In c l -> In d (seen ++ l) -> f_sl c < f_el c -> f_el c <> f_sl d) ->
  (forall k, nth_error cov k = Some true -> In k (map f_sl seen)) -> (forall x, In x pairs -> In (fst x) (map f_sl seen)) -> (forall c, In c l -> f_sc c = None /\ f_ec c = None) ->
  retain cov pairs l = Some (filter (fun r => f_sl r <? f_el r) l).
Proof.
  induction l as [|r l IH]; intros cov pairs seen F ND D C P Z; cbn [retain filter]; [reflexivity|].
  assert (NS : ~ In (f_sl r) (map f_sl seen)). { intros I. rewrite map_app in ND. cbn [map] in ND. apply NoDup_remove_2 in ND. apply ND. apply in_or_app. now left. }
  destruct (F r (or_introl eq_refl)) as [A B]. assert (HP : has_pair pairs (f_sl r, f_el r) = false). { destruct (has_pair _ _) eqn:H; [|reflexivity]. apply has_pair_in, P in H. cbn in H. contradiction. }
  rewrite HP. destruct (nth_error cov (f_sl r)) as [cs|] eqn:E1; [|apply nth_error_None in E1; lia]. destruct (nth_error cov (f_el r)) as [ce|] eqn:E2; [|apply nth_error_None in E2; lia].
  assert (cs = false). { destruct cs; [|reflexivity]. now apply C in E1. } subst cs.
  assert (REST : forall cov' pairs', length cov' = length cov -> (forall k, nth_error cov' k = Some true -> In k (map f_sl (seen ++ [r]))) -> (forall x, In x pairs' -> In (fst x) (map f_sl (seen ++ [r]))) -> retain cov' pairs' l = Some (filter (fun r => f_sl r <? f_el r) l)).
  { intros cov' pairs' LC C' P'. apply (IH cov' pairs' (seen ++ [r])); auto.
    - intros c I. rewrite LC. apply F. now right.
    - now rewrite <- app_assoc.
    - intros c d I J. rewrite <- app_assoc in J. apply D; [now right|exact J].
    - intros c I. apply Z. now right. }
  assert (W : forall k, In k (map f_sl seen) -> In k (map f_sl (seen ++ [r]))) by (intros k K; rewrite map_app; apply in_or_app; now left).
  assert (W2 : In (f_sl r) (map f_sl (seen ++ [r]))) by (rewrite map_app; apply in_or_app; right; now left).
  destruct (Nat.ltb_spec (f_sl r) (f_el r)) as [LT|GE].
  - assert (ce = false). { destruct ce; [|reflexivity]. apply C in E2. apply in_map_iff in E2 as (d & E & I). exfalso. apply (D r d); auto; [now left|apply in_or_app; now left]. } subst ce.
    destruct (Nat.leb_spec (f_el r) (f_sl r)); [lia|]. destruct (set_true_spec cov (f_sl r)) as (cov' & EC & LC & NC); [lia|]. rewrite EC, REST; auto.
    + cbn [option_map]. do 2 f_equal. destruct (Z r (or_introl eq_refl)) as [Z1 Z2]. destruct r. cbn in *. congruence.
    + intros k K. rewrite NC in K. destruct (Nat.eqb_spec k (f_sl r)) as [X|X]; [now rewrite X|auto].
    + intros x [<-|I]; [exact W2|]. apply W. now apply P.
  - destruct (Nat.leb_spec (if ce then f_el r - 1 else f_el r) (f_sl r)); [|destruct ce; lia]. apply REST; auto.
Qed.
Theorem line_only_exact l : Forall (fun r => f_sl r <= f_el r) l -> NoDup (map f_sl l) -> (forall c d, In c l -> In d l -> f_sl c < f_el c -> f_el c <> f_sl d) ->
  line_only l = Some (filter (fun r => f_sl r <? f_el r) (map strip l)).
Proof.
  intros F ND D. unfold line_only. fold strip. change (map (fun r => mkFr (f_sl r) None (f_el r) None (f_comment r) (f_name r)) l) with (map strip l). rewrite (retain_exact (rev (map strip l)) _ [] []).
  - cbn [option_map]. f_equal. induction (map strip l) as [|x xs IH]; [reflexivity|]. cbn [rev]. rewrite filter_app, rev_app_distr, IH. cbn [filter]. now destruct (f_sl x <? f_el x).
  - intros c I. apply in_rev in I. apply in_map_iff in I as (c0 & <- & I). rewrite Forall_forall in F. split; [exact (F c0 I)|]. rewrite repeat_length. cbn [strip f_el].
    assert (X : f_el c0 <= fold_left Nat.max (map f_el (map strip l)) 0); [|lia]. apply max_le. rewrite map_map. change (fun x => f_el (strip x)) with f_el. now apply in_map.
  - cbn [app]. rewrite map_rev. apply NoDup_rev. rewrite map_map. exact ND.
  - cbn [app]. intros c d I J. apply in_rev in I, J. apply in_map_iff in I as (c0 & <- & I). apply in_map_iff in J as (d0 & <- & J). intros LT. exact (D c0 d0 I J LT).
  - intros k K. apply nth_error_In, repeat_spec in K. discriminate.
  - intros x [].
  - intros c I. apply in_rev in I. apply in_map_iff in I as (c0 & <- & I). now split.
Qed.
