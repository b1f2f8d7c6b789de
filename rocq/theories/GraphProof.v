(** Proofs about the computations of a world. *)
From Coq Require Import List Arith Bool Lia.
From Verif Require Import GraphModel GraphSpec.
Import ListNotations.

(** * Lists *)
Lemma nth_set {A} : forall n m (x : A) l, nth_error (set_nth n x l) m = if n =? m then match nth_error l n with Some _ => Some x | None => None end else nth_error l m.
Proof.
  induction n as [|n IH]; intros [|m] x [|y l]; cbn; try reflexivity.
  - destruct (n =? m); reflexivity.
  - rewrite IH. destruct (n =? m); reflexivity.
Qed.
Lemma len_set {A} : forall n (x : A) l, length (set_nth n x l) = length l.
Proof. induction n as [|n IH]; intros x [|y l]; cbn; auto. Qed.
Lemma nthd_err {A} (l : list A) n d : nth n l d = match nth_error l n with Some x => x | None => d end.
Proof. revert n. induction l as [|x l IH]; intros [|n]; cbn; auto. Qed.
Lemma nth_snoc {A} (l : list A) x n : nth_error (l ++ [x]) n = if n =? length l then Some x else nth_error l n.
Proof.
  destruct (Nat.eqb_spec n (length l)) as [-> |N]; [rewrite nth_error_app2, Nat.sub_diag by lia; reflexivity|].
  destruct (Nat.lt_ge_cases n (length l)) as [L|L]; [apply nth_error_app1; exact L|]. transitivity (@None A); [|symmetry]; apply nth_error_None; [rewrite app_length; cbn|]; lia.
Qed.
Lemma task_eqb_spec a b : reflect (a = b) (task_eqb a b).
Proof. destruct a as [x|x|x|], b as [y|y|y|]; cbn; try (constructor; discriminate); try (destruct x, y; constructor; congruence). constructor. reflexivity. Qed.
(** * Contents and entries *)
Lemma content_put c x s d : content (put c x s) d = if (c =? d) && (c <? length (s_cells s)) then x else content s d.
Proof.
  unfold content, put. cbn [s_cells]. rewrite !nthd_err, nth_set. destruct (Nat.eqb_spec c d) as [-> |N]; [|reflexivity]. cbn [andb]. destruct (Nat.ltb_spec d (length (s_cells s))) as [L|L].
  - destruct (nth_error (s_cells s) d) eqn:E; [reflexivity|]. apply nth_error_None in E. lia.
  - apply nth_error_None in L. rewrite L. reflexivity.
Qed.
Lemma content_range s c : length (s_cells s) <= c -> content s c = Empty.
Proof. intros L. unfold content. rewrite nthd_err. apply nth_error_None in L. rewrite L. reflexivity. Qed.
Lemma content_lt s c : content s c <> Empty -> c < length (s_cells s).
Proof. intros H. destruct (Nat.lt_ge_cases c (length (s_cells s))) as [L|L]; [exact L|]. apply content_range in L. contradiction. Qed.
Lemma content_put_eq c x s : c < length (s_cells s) -> content (put c x s) c = x.
Proof. intros L. rewrite content_put, Nat.eqb_refl. apply Nat.ltb_lt in L. rewrite L. reflexivity. Qed.
Lemma content_put_ne c x s d : c <> d -> content (put c x s) d = content s d.
Proof. intros N. rewrite content_put. apply Nat.eqb_neq in N. rewrite N. reflexivity. Qed.
Lemma find_cons T c T' l : find_entry T' ((T, c) :: l) = if task_eqb T T' then Some c else find_entry T' l.
Proof. unfold find_entry. cbn. destruct (task_eqb T T'); reflexivity. Qed.
Lemma computed_entry g T s s1 c : g < length (s_graphs s) -> computed g T s = (s1, c) -> entry s1 g T = Some c.
Proof.
  intros L E. unfold computed in E. destruct (entry s g T) as [d|] eqn:Q; [injection E as <- <-; exact Q|]. destruct (nth_error (s_graphs s) g) as [x|] eqn:G; [|apply nth_error_None in G; lia].
  injection E as <- <-. unfold entry. cbn. rewrite nth_set, Nat.eqb_refl, G. cbn. rewrite find_cons. destruct (task_eqb_spec T T); congruence.
Qed.
(** * What stays *)
Record ext (s s1 : st) : Prop := {
  x_entry : forall g T c, entry s g T = Some c -> entry s1 g T = Some c;
  x_full : forall c v, content s c = Full v -> content s1 c = Full v;
  x_runs : forall n m, nth_error (s_runs s) n = Some m -> nth_error (s_runs s1) n = Some m;
  x_len : length (s_graphs s) <= length (s_graphs s1) }.
Lemma ext_refl s : ext s s.
Proof. constructor; auto. Qed.
Lemma ext_trans a b c : ext a b -> ext b c -> ext a c.
Proof. intros [A1 A2 A3 A4] [B1 B2 B3 B4]. constructor; eauto. lia. Qed.
Lemma ext_done s s1 g T v : ext s s1 -> done s g T v -> done s1 g T v.
Proof. intros X (c & E & F). exists c. split; [eapply x_entry|eapply x_full]; eauto. Qed.
Lemma done_same s g T v w : done s g T v -> done s g T w -> v = w.
Proof. intros (c & E & F) (d & E' & F'). congruence. Qed.
(** * The invariant *)
Section Inv.
Context (O : nat -> outcome).
Definition just (s : st) (g : nat) (T : task) (c : nat) (v : value) : Prop :=
  match T with
  | Flag _ => exists b, v = VFlag b
  | Comp h => v = VErr \/ (v = VComp None /\ done s g (Flag h) (VFlag false)) \/ exists n, v = VComp (Some n) /\ done s g (Flag h) (VFlag true) /\ nth_error (s_runs s) n = Some (mkM g h c)
  | Doc h => exists w, done s g (Comp h) w /\ ((w = VErr /\ v = VErr) \/ exists r, w = VComp r /\ v = VDoc (doc_of O r))
  | Diag => exists w, done s g (Comp false) w /\ ((w = VErr /\ v = VErr) \/ exists r, w = VComp r /\ exists w', done s g (Comp true) w' /\
      ((w' = VErr /\ v = VErr) \/ exists q, w' = VComp q /\ v = VDiag (diags_of O r) (diags_of O q)))
  end.
Definition gotok (s : st) (g : nat) (T : task) (c : nat) (got : list value) : Prop :=
  match T with
  | Flag _ => got = []
  | Comp h => got = [] \/ got = [VErr] \/ (exists b, got = [VFlag b] /\ done s g (Flag h) (VFlag b)) \/
      exists n, got = [VFlag true; VComp (Some n)] /\ done s g (Flag h) (VFlag true) /\ nth_error (s_runs s) n = Some (mkM g h c)
  | Doc h => got = [] \/ exists w, got = [w] /\ done s g (Comp h) w
  | Diag => got = [] \/ (exists w, got = [w] /\ done s g (Comp false) w) \/ exists r w, got = [VComp r; w] /\ done s g (Comp false) (VComp r) /\ done s g (Comp true) w
  end.
Definition okf (s : st) (t : nat) (f : frame) : Prop :=
  f_graph f < length (s_graphs s) /\ entry s (f_graph f) (f_task f) = Some (f_cell f) /\
  match f_pc f with Enter => True | Inside got => content s (f_cell f) = Busy t /\ gotok s (f_graph f) (f_task f) (f_cell f) got end.
Inductive chain (s : st) (t : nat) : list frame -> Prop :=
| ch_nil : chain s t []
| ch_one f : okf s t f -> chain s t [f]
| ch_two f1 f2 got h : okf s t f1 -> okf s t f2 -> f_graph f1 = f_graph f2 -> f_pc f2 = Inside got -> next O (f_task f2) got = Need (f_task f1) -> f_task f1 = Comp h -> chain s t [f1; f2].
Record Inv (s : st) : Prop := {
  I_range : forall g T c, entry s g T = Some c -> c < length (s_cells s);
  I_task : forall g T c g' T', entry s g T = Some c -> entry s g' T' = Some c -> T = T';
  I_stack : forall t l, nth_error (s_threads s) t = Some l -> chain s t l;
  I_busy : forall c t, content s c = Busy t -> exists l f got, nth_error (s_threads s) t = Some l /\ In f l /\ f_cell f = c /\ f_pc f = Inside got;
  I_full : forall c v, content s c = Full v -> exists g T, entry s g T = Some c /\ just s g T c v;
  I_runs : forall n m, nth_error (s_runs s) n = Some m -> entry s (m_graph m) (Comp (m_kind m)) = Some (m_cell m) /\ done s (m_graph m) (Flag (m_kind m)) (VFlag true);
  I_ans : forall a, In a (s_answers s) -> done s (a_graph a) (a_task a) (a_value a) }.
Lemma just_ext s s1 g T c v : ext s s1 -> just s g T c v -> just s1 g T c v.
Proof.
  intros X. pose proof (fun g T v => ext_done s s1 g T v X) as D. destruct T as [h|h|h|]; cbn.
  - auto.
  - intros [A|[(A & B)|(n & A & B & C)]]; [auto|right; left; auto|]. right; right. exists n. split; [exact A|]. split; [auto|]. eapply x_runs; eauto.
  - intros (w & A & B). exists w. auto.
  - intros (w & A & B). exists w. split; [auto|]. destruct B as [B|(r & B & w' & C & E)]; [auto|]. right. exists r. split; [exact B|]. exists w'. auto.
Qed.
Lemma gotok_ext s s1 g T c got : ext s s1 -> gotok s g T c got -> gotok s1 g T c got.
Proof.
  intros X. pose proof (fun g T v => ext_done s s1 g T v X) as D. destruct T as [h|h|h|]; cbn.
  - auto.
  - intros [A|[A|[(b & A & B)|(n & A & B & C)]]]; auto; [right; right; left; eauto|]. right; right; right. exists n. split; [exact A|]. split; [auto|]. eapply x_runs; eauto.
  - intros [A|(w & A & B)]; eauto.
  - intros [A|[(w & A & B)|(r & w & A & B & C)]]; [auto|right; left; eauto|]. right; right. exists r, w. auto.
Qed.
Lemma okf_ext s s1 t f : ext s s1 -> (forall c, content s c = Busy t -> content s1 c = Busy t) -> okf s t f -> okf s1 t f.
Proof.
  intros X B (A1 & A2 & A3). split; [pose proof (x_len _ _ X); lia|]. split; [eapply x_entry; eauto|]. destruct (f_pc f); [exact A3|]. destruct A3 as (A3 & A4). split; [auto|]. eapply gotok_ext; eauto.
Qed.
Lemma chain_ext s s1 t l : ext s s1 -> (forall c, content s c = Busy t -> content s1 c = Busy t) -> chain s t l -> chain s1 t l.
Proof. intros X B H. pose proof (fun f => okf_ext s s1 t f X B) as K. destruct H; [constructor|constructor; auto|econstructor; eauto]. Qed.
Lemma done_just s g T v : Inv s -> done s g T v -> exists g' c, entry s g T = Some c /\ entry s g' T = Some c /\ content s c = Full v /\ just s g' T c v.
Proof. intros I (c & E & F). destruct (I_full _ I c v F) as (g' & T' & E' & J). assert (T = T') as <- by (eapply I_task; eauto). eauto 8. Qed.
Lemma done_comp s g h v : Inv s -> done s g (Comp h) v -> v = VErr \/ exists r, v = VComp r.
Proof. intros I D. destruct (done_just _ _ _ _ I D) as (g' & c & _ & _ & _ & J). cbn in J. destruct J as [J|[(J & _)|(n & J & _)]]; eauto. Qed.
Lemma done_flag s g h v : Inv s -> done s g (Flag h) v -> exists b, v = VFlag b.
Proof. intros I D. destruct (done_just _ _ _ _ I D) as (g' & c & _ & _ & _ & J). exact J. Qed.

(** * Parts of a step *)
(** A change that only adds. *)
Lemma Inv_grow s s1 : Inv s -> ext s s1 ->
  (forall g T c, entry s1 g T = Some c -> c < length (s_cells s1)) ->
  (forall g T c g' T', entry s1 g T = Some c -> entry s1 g' T' = Some c -> T = T') ->
  (forall c, content s1 c = content s c) -> s_threads s1 = s_threads s -> s_runs s1 = s_runs s -> s_answers s1 = s_answers s -> Inv s1.
Proof.
  intros I X A B C D E F. constructor; auto.
  - intros t l H. rewrite D in H. eapply chain_ext; [exact X| |exact (I_stack _ I t l H)]. intros c. rewrite C. auto.
  - intros c t H. rewrite C in H. rewrite D. exact (I_busy _ I c t H).
  - intros c v H. rewrite C in H. destruct (I_full _ I c v H) as (g & T & E1 & J). exists g, T. split; [eapply x_entry; eauto|eapply just_ext; eauto].
  - intros n m H. rewrite E in H. destruct (I_runs _ I n m H) as (E1 & D1). split; [eapply x_entry; eauto|eapply ext_done; eauto].
  - intros a H. rewrite F in H. eapply ext_done; [exact X|]. exact (I_ans _ I a H).
Qed.
Lemma computed_ok g T s s1 c : Inv s -> g < length (s_graphs s) -> computed g T s = (s1, c) ->
  Inv s1 /\ ext s s1 /\ entry s1 g T = Some c /\ s_threads s1 = s_threads s /\ (forall d, content s1 d = content s d) /\ s_runs s1 = s_runs s /\ s_answers s1 = s_answers s /\ s_panics s1 = s_panics s /\ length (s_graphs s1) = length (s_graphs s) /\
  (forall g' T' d, entry s1 g' T' = Some d -> entry s g' T' = Some d \/ (g' = g /\ T' = T /\ d = c /\ length (s_cells s) <= d)).
Proof.
  intros I L E. pose proof (computed_entry g T s s1 c L E) as EE. unfold computed in E. destruct (entry s g T) as [d|] eqn:Q.
  { injection E as <- <-. repeat (split; [first [exact I|exact (ext_refl s)|exact EE|reflexivity]|]). auto. }
  destruct (nth_error (s_graphs s) g) as [x|] eqn:G; [|apply nth_error_None in G; lia]. injection E as <- <-.
  assert (EN : forall g' T', entry (mkSt (s_cells s ++ [Empty]) (set_nth g (mkG (g_snap x) ((T, length (s_cells s)) :: g_entries x)) (s_graphs s)) (s_threads s) (s_runs s) (s_answers s) (s_panics s)) g' T' =
    if (g =? g') && task_eqb T T' then Some (length (s_cells s)) else entry s g' T').
  { intros g' T'. unfold entry. cbn [s_graphs]. rewrite nth_set, G. destruct (Nat.eqb_spec g g') as [<-|N]; cbn; [|reflexivity]. rewrite find_cons. destruct (task_eqb T T'); [reflexivity|]. rewrite G. reflexivity. }
  assert (CO : forall d, content (mkSt (s_cells s ++ [Empty]) (set_nth g (mkG (g_snap x) ((T, length (s_cells s)) :: g_entries x)) (s_graphs s)) (s_threads s) (s_runs s) (s_answers s) (s_panics s)) d = content s d).
  { intros d. unfold content. cbn [s_cells]. rewrite !nthd_err, nth_snoc. destruct (Nat.eqb_spec d (length (s_cells s))) as [-> |N]; [|reflexivity]. rewrite (proj2 (nth_error_None (s_cells s) _)) by lia. reflexivity. }
  set (s1 := mkSt _ _ _ _ _ _) in *.
  assert (X : ext s s1).
  { constructor; auto; [|intros d v; rewrite CO; auto|unfold s1; cbn; rewrite len_set; lia].
    intros g' T' d H. rewrite EN. destruct (Nat.eqb_spec g g') as [<-|N]; [|exact H]. cbn. destruct (task_eqb_spec T T') as [<-|N]; [congruence|exact H]. }
  assert (K : forall g' T' d, entry s1 g' T' = Some d -> entry s g' T' = Some d \/ (g' = g /\ T' = T /\ d = length (s_cells s) /\ length (s_cells s) <= d)).
  { intros g' T' d. rewrite EN. destruct (Nat.eqb_spec g g') as [<-|N]; cbn; [|auto]. destruct (task_eqb_spec T T') as [<-|N]; [|auto]. intros H. injection H as <-. auto. }
  split; [|split; [exact X|split; [exact EE|split; [reflexivity|split; [exact CO|split; [reflexivity|split; [reflexivity|split; [reflexivity|split; [unfold s1; cbn; apply len_set|exact K]]]]]]]]].
  apply (Inv_grow s s1 I X); auto.
  - intros g' T' d H. unfold s1. cbn [s_cells]. rewrite app_length. cbn. destruct (K _ _ _ H) as [A|(_ & _ & -> & _)]; [apply (I_range _ I) in A|]; lia.
  - intros g1 T1 d g2 T2 H1 H2. destruct (K _ _ _ H1) as [A|(_ & -> & -> & _)], (K _ _ _ H2) as [B|(_ & -> & E & _)]; auto.
    + eapply I_task; eauto.
    + subst d. apply (I_range _ I) in A. lia.
    + apply (I_range _ I) in B. lia.
Qed.
(** A new graph with the entries of one, or none. *)
Lemma graph_ok s snap l : Inv s -> (l = [] \/ exists g x, nth_error (s_graphs s) g = Some x /\ l = g_entries x) ->
  let s1 := mkSt (s_cells s) (s_graphs s ++ [mkG snap l]) (s_threads s) (s_runs s) (s_answers s) (s_panics s) in Inv s1 /\ ext s s1 /\
  (forall g T c, entry s1 g T = Some c -> entry s g T = Some c \/ (g = length (s_graphs s) /\ find_entry T l = Some c)).
Proof.
  intros I L s1.
  assert (K : forall g T c, entry s1 g T = Some c -> entry s g T = Some c \/ (g = length (s_graphs s) /\ find_entry T l = Some c)).
  { intros g T c. unfold entry, s1. cbn [s_graphs]. rewrite nth_snoc. destruct (Nat.eqb_spec g (length (s_graphs s))) as [-> |N]; cbn; auto. }
  assert (K2 : forall g T c, entry s1 g T = Some c -> exists g', entry s g' T = Some c).
  { intros g T c H. destruct (K g T c H) as [A|(_ & A)]; [eauto|]. destruct L as [-> |(g' & x & G & ->)]; [discriminate A|]. exists g'. unfold entry. rewrite G. exact A. }
  assert (X : ext s s1).
  { constructor; auto; [|unfold s1; cbn; rewrite app_length; lia]. intros g T c H. unfold entry, s1 in *. cbn [s_graphs]. rewrite nth_snoc. destruct (Nat.eqb_spec g (length (s_graphs s))) as [-> |N]; [|exact H].
    rewrite (proj2 (nth_error_None (s_graphs s) _)) in H by lia. discriminate H. }
  split; [|split; [exact X|exact K]]. apply (Inv_grow s s1 I X); auto.
  - intros g T c H. destruct (K2 _ _ _ H) as (g' & A). exact (I_range _ I _ _ _ A).
  - intros g T c g' T' H1 H2. destruct (K2 _ _ _ H1) as (a & A). destruct (K2 _ _ _ H2) as (b & B). eapply I_task; eauto.
Qed.
Lemma entry_put c x s g T : entry (put c x s) g T = entry s g T.
Proof. reflexivity. Qed.
Lemma put_ext c x s : (forall v, content s c <> Full v) -> ext s (put c x s).
Proof. intros H. constructor; auto. intros d v F. destruct (Nat.eq_dec c d) as [<-|N]; [destruct (H v F)|]. rewrite content_put_ne by exact N. exact F. Qed.
(** An empty flag is filled. *)
Lemma flag_ok s g h c b : Inv s -> entry s g (Flag h) = Some c -> content s c = Empty -> Inv (put c (Full (VFlag b)) s) /\ ext s (put c (Full (VFlag b)) s).
Proof.
  intros I E F. pose proof (I_range _ I _ _ _ E) as R. assert (X : ext s (put c (Full (VFlag b)) s)) by (apply put_ext; intros v; rewrite F; discriminate). split; [|exact X].
  assert (NB : forall d t, content (put c (Full (VFlag b)) s) d = Busy t <-> content s d = Busy t).
  { intros d t. destruct (Nat.eq_dec c d) as [<-|N]; [rewrite content_put_eq by exact R; rewrite F; split; discriminate|]. rewrite content_put_ne by exact N. tauto. }
  constructor.
  - intros g' T d H. cbn. rewrite len_set. exact (I_range _ I _ _ _ H).
  - exact (I_task _ I).
  - intros t l H. eapply chain_ext; [exact X| |exact (I_stack _ I t l H)]. intros d. apply NB.
  - intros d t H. apply NB in H. exact (I_busy _ I d t H).
  - intros d v H. destruct (Nat.eq_dec c d) as [<-|N].
    + rewrite content_put_eq in H by exact R. injection H as <-. exists g, (Flag h). split; [exact E|]. cbn. eauto.
    + rewrite content_put_ne in H by exact N. destruct (I_full _ I d v H) as (g' & T & E' & J). exists g', T. split; [exact E'|]. eapply just_ext; eauto.
  - intros n m H. destruct (I_runs _ I n m H) as (A & B). split; [exact A|]. eapply ext_done; eauto.
  - intros a H. eapply ext_done; [exact X|]. exact (I_ans _ I a H).
Qed.
(** * Threads *)
Lemma need_cases T got T' : next O T got = Need T' -> (exists h, T = Doc h /\ got = [] /\ T' = Comp h) \/ (T = Diag /\ got = [] /\ T' = Comp false) \/ (exists r, T = Diag /\ got = [VComp r] /\ T' = Comp true).
Proof.
  destruct T as [h|h|h|].
  - discriminate.
  - destruct got as [|[[|]|r|d|p q|] [|[b'|r'|d'|p' q'|] [|? ?]]]; discriminate.
  - destruct got as [|[b|r|d|p q|] [|? ?]]; intros E; try discriminate E. injection E as <-. left. eauto.
  - destruct got as [|[b|r|d|p q|] [|[b'|r'|d'|p' q'|] [|? ?]]]; intros E; try discriminate E; injection E as <-; right; [left|right]; eauto.
Qed.
Lemma thread_at s t l t' : nth_error (s_threads (set_stack t l s)) t' = if t =? t' then match nth_error (s_threads s) t with Some _ => Some l | None => None end else nth_error (s_threads s) t'.
Proof. unfold set_stack. cbn. apply nth_set. Qed.
(** The stack of a thread is replaced; the cells that it fills are those of the new stack. *)
Lemma Inv_thread s s1 t l0 l : Inv s -> nth_error (s_threads s) t = Some l0 -> ext s s1 ->
  (forall g T, entry s1 g T = entry s g T) -> length (s_cells s1) = length (s_cells s) ->
  s_threads s1 = set_nth t l (s_threads s) ->
  (forall t' c, t' <> t -> (content s1 c = Busy t' <-> content s c = Busy t')) ->
  chain s1 t l ->
  (forall c, content s1 c = Busy t -> exists f got, In f l /\ f_cell f = c /\ f_pc f = Inside got) ->
  (forall c v, content s1 c = Full v -> content s c = Full v \/ exists g T, entry s g T = Some c /\ just s1 g T c v) ->
  (forall n m, nth_error (s_runs s1) n = Some m -> nth_error (s_runs s) n = Some m \/ (entry s (m_graph m) (Comp (m_kind m)) = Some (m_cell m) /\ done s (m_graph m) (Flag (m_kind m)) (VFlag true))) ->
  (forall a, In a (s_answers s1) -> In a (s_answers s) \/ done s1 (a_graph a) (a_task a) (a_value a)) -> Inv s1.
Proof.
  intros I T0 X E L T B C D F R A. constructor.
  - intros g T' c H. rewrite E in H. rewrite L. exact (I_range _ I _ _ _ H).
  - intros g T' c g' T'' H1 H2. rewrite E in *. eapply I_task; eauto.
  - intros t' l' H. rewrite T, nth_set in H. destruct (Nat.eqb_spec t t') as [<-|N].
    + rewrite T0 in H. injection H as <-. exact C.
    + eapply chain_ext; [exact X| |exact (I_stack _ I t' l' H)]. intros c. apply B. congruence.
  - intros c t' H. destruct (Nat.eq_dec t' t) as [-> |N].
    + destruct (D c H) as (f & got & D1 & D2 & D3). exists l, f, got. rewrite T, nth_set, Nat.eqb_refl, T0. auto.
    + apply B in H; [|exact N]. destruct (I_busy _ I c t' H) as (l' & f & got & H1 & H2). exists l', f, got. rewrite T, nth_set. destruct (Nat.eqb_spec t t'); [congruence|]. auto.
  - intros c v H. destruct (F c v H) as [H'|(g & T' & E' & J)].
    + destruct (I_full _ I c v H') as (g & T' & E' & J). exists g, T'. rewrite E. split; [exact E'|]. eapply just_ext; eauto.
    + exists g, T'. rewrite E. auto.
  - intros n m H. destruct (R n m H) as [H'|(H1 & H2)].
    + destruct (I_runs _ I n m H') as (H1 & H2). rewrite E. split; [exact H1|]. eapply ext_done; eauto.
    + rewrite E. split; [exact H1|]. eapply ext_done; eauto.
  - intros a H. destruct (A a H) as [H'|H']; [|exact H']. eapply ext_done; [exact X|]. exact (I_ans _ I a H').
Qed.
Lemma gotok_ret s g T c got v : Inv s -> gotok s g T c got -> next O T got = Ret v -> just s g T c v.
Proof.
  intros I G E. destruct T as [h|h|h|]; cbn [gotok just] in *.
  - subst got. discriminate E.
  - destruct G as [-> |[-> |[(b & -> & D)|(n & -> & D & N)]]]; try discriminate E.
    + injection E as <-. auto.
    + destruct b; [discriminate E|]. injection E as <-. auto.
    + injection E as <-. right; right. eauto.
  - destruct G as [-> |(w & -> & D)]; [discriminate E|]. exists w. split; [exact D|]. destruct (done_comp _ _ _ _ I D) as [-> |(r & ->)]; injection E as <-; [auto|right; eauto].
  - destruct G as [-> |[(w & -> & D)|(r & w & -> & D & D')]]; [discriminate E| |].
    + exists w. split; [exact D|]. destruct (done_comp _ _ _ _ I D) as [-> |(r & ->)]; [injection E as <-; auto|discriminate E].
    + exists (VComp r). split; [exact D|]. right. exists r. split; [reflexivity|]. exists w. split; [exact D'|]. destruct (done_comp _ _ _ _ I D') as [-> |(q & ->)]; injection E as <-; [auto|right; eauto].
Qed.
Lemma gotok_more s g T c got T' v : next O T got = Need T' -> gotok s g T c got -> done s g T' v -> gotok s g T c (got ++ [v]).
Proof.
  intros N G D. destruct (need_cases _ _ _ N) as [(h & -> & -> & ->)|[(-> & -> & ->)|(r & -> & -> & ->)]]; cbn in *.
  - right. eauto.
  - right. left. eauto.
  - right. right. destruct G as [G|[(w & G & D')|(r' & w & G & _)]]; try discriminate G. injection G as <-. eauto.
Qed.

Lemma busy_cell s t f below c : Inv s -> nth_error (s_threads s) t = Some (f :: below) -> content s c = Busy t -> (f_cell f <> c \/ f_pc f = Enter) ->
  exists f2 got, below = [f2] /\ f_cell f2 = c /\ f_pc f2 = Inside got.
Proof.
  intros I E B N. destruct (I_busy _ I c t B) as (l & x & got & L & H & C & P). rewrite E in L. injection L as <-. pose proof (I_stack _ I t _ E) as K. destruct H as [-> |H]; [destruct N; congruence|].
  inversion K; subst; [destruct H|]. destruct H as [<-|[]]. eauto.
Qed.
Lemma chain_cells s t f1 f2 : Inv s -> chain s t [f1; f2] -> f_cell f1 <> f_cell f2.
Proof.
  intros I K E. inversion K as [| |a b got h K1 K2 K3 K4 K5 K6]; subst. destruct K1 as (_ & K1 & _), K2 as (_ & K2 & _). rewrite E in K1. pose proof (I_task _ I _ _ _ _ _ K1 K2) as Q. rewrite <- Q, K6 in K5.
  destruct (need_cases _ _ _ K5) as [(x & X & _)|[(X & _)|(x & X & _)]]; discriminate X.
Qed.
Lemma chain_top s t f below : chain s t (f :: below) -> okf s t f.
Proof. intros K. inversion K; subst; auto. Qed.
Lemma full_other s t c : content s c = Busy t -> forall v, content s c <> Full v.
Proof. intros -> v. discriminate. Qed.
Lemma ret_ok s sp t f below v : Inv s -> nth_error (s_threads s) t = Some (f :: below) ->
  ((sp = s /\ f_pc f = Enter /\ content s (f_cell f) = Full v) \/ (sp = put (f_cell f) (Full v) s /\ exists got, f_pc f = Inside got /\ next O (f_task f) got = Ret v)) ->
  Inv (return_to t f below v sp) /\ ext s (return_to t f below v sp).
Proof.
  intros I E H. pose proof (I_stack _ I t _ E) as K. pose proof (chain_top _ _ _ _ K) as (KG & KE & KP). pose proof (I_range _ I _ _ _ KE) as KR.
  assert (P : ext s sp /\ content sp (f_cell f) = Full v /\ s_graphs sp = s_graphs s /\ length (s_cells sp) = length (s_cells s) /\ s_threads sp = s_threads s /\ s_runs sp = s_runs s /\ s_answers sp = s_answers s /\ (forall c, c <> f_cell f -> content sp c = content s c) /\
    (forall c w, content sp c = Full w -> content s c = Full w \/ exists g T, entry s g T = Some c /\ just sp g T c w) /\ (forall t' c, t' <> t -> content s c = Busy t' -> c <> f_cell f) /\ (forall c, content sp c = Busy t -> c <> f_cell f)).
  { destruct H as [(-> & P & F)|(-> & got & P & F)].
    - split; [apply ext_refl|]. repeat (split; [first [exact F|reflexivity]|]). split; [auto|]. split; intros; congruence.
    - rewrite P in KP. destruct KP as (KB & KK). assert (X : ext s (put (f_cell f) (Full v) s)) by (apply put_ext; exact (full_other _ _ _ KB)). split; [exact X|]. split; [apply content_put_eq; exact KR|]. split; [reflexivity|]. split; [cbn; apply len_set|]. split; [reflexivity|]. split; [reflexivity|]. split; [reflexivity|].
      split; [intros c N; apply content_put_ne; congruence|]. split; [|split].
      + intros c w Q. destruct (Nat.eq_dec (f_cell f) c) as [<-|N]; [|rewrite content_put_ne in Q by exact N; auto]. rewrite content_put_eq in Q by exact KR. injection Q as <-. right. exists (f_graph f), (f_task f). split; [exact KE|]. eapply just_ext; [exact X|]. eapply gotok_ret; eauto.
      + intros; congruence.
      + intros c Q ->. rewrite content_put_eq in Q by exact KR. discriminate Q. }
  destruct P as (X & PF & PG & PL & PT & PR & PA & PC & PJ & PB & PB').
  assert (EN : forall g T, entry sp g T = entry s g T) by (intros; unfold entry; rewrite PG; reflexivity).
  assert (BT : forall t' c, t' <> t -> (content sp c = Busy t' <-> content s c = Busy t')).
  { intros t' c N. destruct (Nat.eq_dec c (f_cell f)) as [-> |M]; [|rewrite PC by exact M; tauto]. rewrite PF. split; [discriminate|]. intros Q. destruct (PB t' _ N Q). reflexivity. }
  assert (D : done sp (f_graph f) (f_task f) v) by (exists (f_cell f); rewrite EN; auto).
  assert (BC : forall c, content sp c = Busy t -> exists f2 got, below = [f2] /\ f_cell f2 = c /\ f_pc f2 = Inside got).
  { intros c Q. pose proof (PB' c Q) as N. rewrite PC in Q by exact N. eapply busy_cell; eauto. }
  inversion K as [|? K1 |? f2 got h K1 K2 K3 K4 K5 K6]; subst below; subst.
  - set (s1 := return_to t f [] v sp). assert (X1 : ext s s1) by (destruct X; constructor; auto). split; [|exact X1].
    apply (Inv_thread s s1 t [f] [] I E X1); auto.
    + unfold s1. cbn. rewrite PT. reflexivity.
    + constructor.
    + intros c Q. destruct (BC c Q) as (f2 & got & Q1 & _). discriminate Q1.
    + intros n m. unfold s1. cbn. rewrite PR. auto.
    + intros a. unfold s1. cbn [return_to s_answers set_stack]. rewrite PA. rewrite in_app_iff. intros [Q|[<-|[]]]; [auto|right]. exact D.
  - destruct f2 as [g2 T2 c2 p2]. cbn [f_graph f_task f_cell f_pc] in *. subst p2. set (s1 := return_to t f [mkF g2 T2 c2 (Inside got)] v sp). assert (X1 : ext s s1) by (destruct X; constructor; auto). split; [|exact X1].
    apply (Inv_thread s s1 t [f; mkF g2 T2 c2 (Inside got)] [mkF g2 T2 c2 (Inside (got ++ [v]))] I E X1); auto.
    + unfold s1. cbn. rewrite PT. reflexivity.
    + apply ch_one. destruct K2 as (A & B & C & G). split; [cbn in *; rewrite PG; exact A|]. split; [exact (eq_trans (EN _ _) B)|]. split.
      * change (content sp c2 = Busy t). rewrite PC; [exact C|]. pose proof (chain_cells _ _ _ _ I K) as N. cbn in N. congruence.
      * change (gotok sp g2 T2 c2 (got ++ [v])). eapply gotok_more; [exact K5|eapply gotok_ext; eauto|]. rewrite <- K3. exact D.
    + intros c Q. destruct (BC c Q) as (f2 & got' & Q1 & Q2 & Q3). injection Q1 as <-. exists (mkF g2 T2 c2 (Inside (got ++ [v]))), (got ++ [v]). split; [left; reflexivity|]. auto.
    + intros n m. unfold s1. cbn. rewrite PR. auto.
    + intros a. unfold s1. cbn. rewrite PA. auto.
Qed.
(** The panic of a thread. *)
Lemma unwind_ok s t f below : Inv s -> nth_error (s_threads s) t = Some (f :: below) -> Inv (unwind t (f :: below) s) /\ ext s (unwind t (f :: below) s).
Proof.
  intros I E. pose proof (I_stack _ I t _ E) as K.
  set (z := fun (s : st) (x : frame) => match f_pc x with Inside _ => put (f_cell x) Empty s | Enter => s end).
  assert (Z : forall x s0, (forall got, f_pc x = Inside got -> content s0 (f_cell x) = Busy t \/ content s0 (f_cell x) = Empty) -> ext s0 (z s0 x) /\ s_threads (z s0 x) = s_threads s0 /\ s_runs (z s0 x) = s_runs s0 /\ s_answers (z s0 x) = s_answers s0 /\ s_graphs (z s0 x) = s_graphs s0 /\ length (s_cells (z s0 x)) = length (s_cells s0) /\
    (forall c, content (z s0 x) c = content s0 c \/ (content (z s0 x) c = Empty /\ content s0 c = Busy t)) /\ (forall got, f_pc x = Inside got -> content (z s0 x) (f_cell x) = Empty)).
  { intros x s0 B. unfold z. destruct (f_pc x) as [|got] eqn:P.
    - split; [apply ext_refl|]. repeat (split; [reflexivity|]). split; [auto|]. discriminate.
    - assert (B1 := B got eq_refl). split; [apply put_ext; intros v Q; destruct B1; congruence|]. repeat (split; [reflexivity|]). split; [cbn; apply len_set|]. split.
      + intros c. destruct (Nat.eq_dec (f_cell x) c) as [<-|N]; [|left; apply content_put_ne; exact N]. rewrite content_put, Nat.eqb_refl. cbn [andb]. destruct (_ <? _); destruct B1 as [B1|B1]; rewrite B1; auto.
      + intros _ _. destruct (Nat.lt_ge_cases (f_cell x) (length (s_cells s0))) as [L|L]; [apply content_put_eq; exact L|]. apply content_range. cbn. rewrite len_set. exact L. }
  assert (W : exists s0, fold_left z (f :: below) s = s0 /\ ext s s0 /\ s_threads s0 = s_threads s /\ s_runs s0 = s_runs s /\ s_answers s0 = s_answers s /\ s_graphs s0 = s_graphs s /\ length (s_cells s0) = length (s_cells s) /\
    (forall c, content s0 c = content s c \/ (content s0 c = Empty /\ content s c = Busy t)) /\ (forall x got, In x (f :: below) -> f_pc x = Inside got -> content s0 (f_cell x) = Empty)).
  { assert (OK : forall x got, okf s t x -> f_pc x = Inside got -> content s (f_cell x) = Busy t) by (intros x got (_ & _ & Q) P; rewrite P in Q; tauto).
    inversion K as [|? K1 |? f2 got h K1 K2 K3 K4 K5 K6]; subst.
    - destruct (Z f s) as (A1 & A2 & A3 & A4 & A5 & A6 & A7 & A8); [intros got P; left; eauto|]. exists (z s f). cbn [fold_left]. repeat (split; [first [reflexivity|assumption]|]). intros x got [<-|[]] P. eauto.
    - destruct (Z f s) as (A1 & A2 & A3 & A4 & A5 & A6 & A7 & A8); [intros got0 P; left; eauto|].
      destruct (Z f2 (z s f)) as (B1 & B2 & B3 & B4 & B5 & B6 & B7 & B8); [intros got0 P; destruct (A7 (f_cell f2)) as [-> |(Q & _)]; [left; eauto|right; exact Q]|].
      exists (z (z s f) f2). cbn [fold_left]. split; [reflexivity|]. split; [eapply ext_trans; eauto|]. split; [congruence|]. split; [congruence|]. split; [congruence|]. split; [congruence|]. split; [congruence|]. split.
      + intros c. destruct (B7 c) as [Q|(Q & Q')]; rewrite Q; [apply A7|]. destruct (A7 c) as [R|(R & R')]; [right; split; [reflexivity|congruence]|congruence].
      + intros x got0 [<-|[<-|[]]] P; [|eauto]. destruct (B7 (f_cell f)) as [Q|(Q & _)]; [rewrite Q; eauto|exact Q]. }
  destruct W as (s0 & W0 & W1 & W2 & W3 & W4 & W5 & W6 & W7 & W8). unfold unwind. fold z. rewrite W0.
  match goal with |- Inv ?x /\ _ => set (s1 := x) end. assert (X1 : ext s s1) by (destruct W1; constructor; auto). split; [|exact X1].
  apply (Inv_thread s s1 t (f :: below) [] I E X1).
  - intros g T. unfold s1, entry. cbn. rewrite W5. reflexivity.
  - exact W6.
  - unfold s1. cbn. rewrite W2. reflexivity.
  - intros t' c N. change (content s0 c = Busy t' <-> content s c = Busy t'). destruct (W7 c) as [-> |(-> & ->)]; [tauto|]. split; congruence.
  - constructor.
  - intros c Q. change (content s0 c = Busy t) in Q. destruct (W7 c) as [R|(R & _)]; [|congruence]. rewrite R in Q. destruct (I_busy _ I c t Q) as (l & x & got & L & H & C & P). rewrite E in L. injection L as <-. subst c. pose proof (W8 x got H P). congruence.
  - intros c v Q. change (content s0 c = Full v) in Q. destruct (W7 c) as [R|(R & _)]; [left; congruence|congruence].
  - intros n m. unfold s1. cbn. rewrite W3. auto.
  - intros a. unfold s1. cbn. rewrite W4. auto.
Qed.
Lemma advance_ok s t : Inv s -> Inv (advance O t s) /\ ext s (advance O t s).
Proof.
  intros I. unfold advance. destruct (nth_error (s_threads s) t) as [[|f below]|] eqn:E; try (split; [exact I|apply ext_refl]).
  pose proof (I_stack _ I t _ E) as K. pose proof (chain_top _ _ _ _ K) as (KG & KE & KP). pose proof (I_range _ I _ _ _ KE) as KR.
  destruct (f_pc f) as [|got] eqn:P.
  - destruct (content s (f_cell f)) as [|t'|v] eqn:F; [|split; [exact I|apply ext_refl]|apply (ret_ok s s t f below v I E); auto].
    set (f' := mkF (f_graph f) (f_task f) (f_cell f) (Inside [])). set (s1 := set_stack t (f' :: below) (put (f_cell f) (Busy t) s)).
    assert (X : ext s s1). { assert (X : ext s (put (f_cell f) (Busy t) s)) by (apply put_ext; congruence). destruct X. constructor; auto. }
    split; [|exact X]. assert (CE : content s1 (f_cell f) = Busy t) by (apply content_put_eq; exact KR). assert (CN : forall c, c <> f_cell f -> content s1 c = content s c) by (intros c N; apply content_put_ne; congruence).
    assert (BB : forall c, content s c = Busy t -> content s1 c = Busy t) by (intros c Q; rewrite CN; [exact Q|congruence]).
    assert (OKF : okf s1 t f'). { split; [exact KG|]. split; [exact KE|]. split; [exact CE|]. cbn. destruct (f_task f); cbn; auto. }
    apply (Inv_thread s s1 t (f :: below) (f' :: below) I E X); auto.
    + cbn. apply len_set.
    + intros t'' c N. destruct (Nat.eq_dec c (f_cell f)) as [-> |M]; [rewrite CE, F; split; congruence|]. rewrite CN by exact M. tauto.
    + inversion K as [|? K1 |? f2 got h K1 K2 K3 K4 K5 K6]; subst; [apply ch_one; exact OKF|]. eapply ch_two; eauto. eapply okf_ext; eauto.
    + intros c Q. destruct (Nat.eq_dec c (f_cell f)) as [-> |M]; [exists f', []; split; [left; reflexivity|]; auto|]. rewrite CN in Q by exact M. destruct (busy_cell s t f below c I E Q) as (f2 & got & -> & Q2 & Q3); [auto|]. exists f2, got. split; [right; left; reflexivity|]. auto.
    + intros c v Q. left. destruct (Nat.eq_dec c (f_cell f)) as [-> |M]; [congruence|]. rewrite CN in Q by exact M. exact Q.
  - destruct KP as (KB & KK).
    destruct (next O (f_task f) got) as [T|h|h|v|] eqn:N.
    + (* Need *)
      destruct (computed (f_graph f) T s) as [sc c] eqn:C. destruct (computed_ok _ _ _ _ _ I KG C) as (Ic & Xc & Ec & Tc & Cc & Rc & Ac & _ & _).
      set (f1 := mkF (f_graph f) T c Enter). set (s1 := set_stack t (f1 :: f :: below) sc). assert (X : ext sc s1) by (constructor; auto). split; [|eapply ext_trans; eauto].
      assert (Esc : nth_error (s_threads sc) t = Some (f :: below)) by (rewrite Tc; exact E). pose proof (I_stack _ Ic t _ Esc) as Kc.
      assert (B0 : below = []).
      { inversion K as [|? K1 |? f2 got2 h K1 K2 K3 K4 K5 K6]; subst; [reflexivity|]. rewrite K6 in N. destruct (need_cases _ _ _ N) as [(x & Y & _)|[(Y & _)|(x & Y & _)]]; discriminate Y. }
      subst below. apply (Inv_thread sc s1 t [f] [f1; f] Ic Esc X); auto.
      * intros t' d _. tauto.
      * assert (exists h, T = Comp h) as (h & HT) by (destruct (need_cases _ _ _ N) as [(x & _ & _ & Y)|[(_ & _ & Y)|(x & _ & _ & Y)]]; eauto).
        apply chain_top in Kc. apply (ch_two s1 t f1 f got h); [|exact Kc|reflexivity|exact P|exact N|exact HT]. split; [exact (proj1 Kc)|]. split; [exact Ec|exact Logic.I].
      * intros d Q. change (content sc d = Busy t) in Q. destruct (I_busy _ Ic d t Q) as (l & x & gx & L & H & C1 & P1). rewrite Esc in L. injection L as <-. exists x, gx. split; [right; exact H|]. auto.
    + (* MustGet *)
      unfold get. destruct (computed (f_graph f) (Flag h) s) as [sc c] eqn:C. destruct (computed_ok _ _ _ _ _ I KG C) as (Ic & Xc & Ec & Tc & Cc & Rc & Ac & _ & _).
      set (w := match content sc c with Full v => v | _ => VErr end).
      assert (Hw : match (match content sc c with Full v => Some v | _ => None end) with Some v => v | None => VErr end = w) by (unfold w; destruct (content sc c); reflexivity). rewrite Hw.
      set (f' := mkF (f_graph f) (f_task f) (f_cell f) (Inside (got ++ [w]))). set (s1 := set_stack t (f' :: below) sc). assert (X : ext sc s1) by (constructor; auto). split; [|eapply ext_trans; eauto].
      assert (Esc : nth_error (s_threads sc) t = Some (f :: below)) by (rewrite Tc; exact E). pose proof (I_stack _ Ic t _ Esc) as Kc.
      assert (FT : f_task f = Comp h /\ got = []).
      { clear -N KK. destruct (f_task f) as [x|x|x|]; cbn in KK.
        - subst got. discriminate N.
        - destruct KK as [-> |[-> |[(b & -> & _)|(n & -> & _)]]]; try destruct b; try discriminate N. injection N as ->. auto.
        - destruct KK as [-> |(w0 & -> & _)]; try destruct w0; discriminate N.
        - destruct KK as [-> |[(w0 & -> & _)|(r & w0 & -> & _)]]; try destruct w0; discriminate N. }
      destruct FT as (FT & ->).
      assert (OKF : okf s1 t f').
      { split; [exact (proj1 (chain_top _ _ _ _ Kc))|]. split; [exact (proj1 (proj2 (chain_top _ _ _ _ Kc)))|]. split; [cbn; change (content sc (f_cell f) = Busy t); rewrite Cc; exact KB|]. cbn. rewrite FT. cbn. unfold w. destruct (content sc c) as [|t'|v] eqn:Q; auto.
        assert (D : done sc (f_graph f) (Flag h) v) by (exists c; auto). destruct (done_flag _ _ _ _ Ic D) as (b & ->). right; right; left. exists b. auto. }
      apply (Inv_thread sc s1 t (f :: below) (f' :: below) Ic Esc X); auto.
      * intros t' d _. tauto.
      * inversion Kc as [|? K1 |? f2 got2 h2 K1 K2 K3 K4 K5 K6]; subst; [apply ch_one; exact OKF|]. eapply ch_two; eauto.
      * intros d Q. change (content sc d = Busy t) in Q. destruct (I_busy _ Ic d t Q) as (l & x & gx & L & H & C1 & P1). rewrite Esc in L. injection L as <-. destruct H as [<-|H]; [exists f', [w]; split; [left; reflexivity|]; auto|]. exists x, gx. split; [right; exact H|]. auto.
    + (* Execute *)
      assert (FT : f_task f = Comp h /\ got = [VFlag true] /\ done s (f_graph f) (Flag h) (VFlag true)).
      { clear -N KK. destruct (f_task f) as [x|x|x|]; cbn in KK.
        - subst got. discriminate N.
        - destruct KK as [-> |[-> |[(b & -> & D)|(n & -> & _)]]]; try destruct b; try discriminate N. injection N as ->. auto.
        - destruct KK as [-> |(w0 & -> & _)]; try destruct w0; discriminate N.
        - destruct KK as [-> |[(w0 & -> & _)|(r & w0 & -> & _)]]; try destruct w0; discriminate N. }
      destruct FT as (FT & -> & FD). cbv zeta. set (n := length (s_runs s)). set (f' := mkF (f_graph f) (f_task f) (f_cell f) (Inside ([VFlag true] ++ [VComp (Some n)]))).
      match goal with |- Inv ?x /\ _ => set (s1 := x) end.
      assert (X : ext s s1). { constructor; auto. intros m x Q. unfold s1. cbn. rewrite nth_snoc. destruct (Nat.eqb_spec m (length (s_runs s))) as [-> |M]; [|exact Q]. rewrite (proj2 (nth_error_None (s_runs s) _)) in Q by lia. discriminate Q. }
      split; [|exact X].
      assert (OKF : okf s1 t f').
      { split; [exact KG|]. split; [exact KE|]. split; [exact KB|]. cbn. rewrite FT. cbn. right; right; right. exists n. split; [reflexivity|]. split; [exact FD|]. rewrite nth_snoc. unfold n. rewrite Nat.eqb_refl. reflexivity. }
      apply (Inv_thread s s1 t (f :: below) (f' :: below) I E X); auto.
      * intros t' d _. tauto.
      * inversion K as [|? K1 |? f2 got2 h2 K1 K2 K3 K4 K5 K6]; subst; [apply ch_one; exact OKF|]. eapply ch_two; eauto. eapply okf_ext; eauto.
      * intros d Q. change (content s d = Busy t) in Q. destruct (I_busy _ I d t Q) as (l & x & gx & L & H & C1 & P1). rewrite E in L. injection L as <-. destruct H as [<-|H]; [exists f', ([VFlag true] ++ [VComp (Some n)]); split; [left; reflexivity|]; auto|]. exists x, gx. split; [right; exact H|]. auto.
      * intros m x Q. unfold s1 in Q. cbn in Q. rewrite nth_snoc in Q. destruct (Nat.eqb_spec m (length (s_runs s))) as [-> |M]; [|auto]. injection Q as <-. right. cbn. rewrite <- FT. auto.
    + (* Ret *) apply (ret_ok s _ t f below v I E). right. split; [reflexivity|]. eauto.
    + apply unwind_ok; auto.
Qed.
Lemma Inv_init : Inv init.
Proof.
  constructor.
  - intros g T c H. unfold entry in H. cbn in H. destruct g; discriminate H.
  - intros g T c g' T' H. unfold entry in H. cbn in H. destruct g; discriminate H.
  - intros [|t] l H; discriminate H.
  - intros [|c] t H; discriminate H.
  - intros [|c] v H; discriminate H.
  - intros [|n] m H; discriminate H.
  - intros a [].
Qed.
Lemma ask_ok s g T c : Inv s -> g < length (s_graphs s) -> entry s g T = Some c ->
  let s1 := mkSt (s_cells s) (s_graphs s) (s_threads s ++ [[mkF g T c Enter]]) (s_runs s) (s_answers s) (s_panics s) in Inv s1 /\ ext s s1.
Proof.
  intros I L E s1. assert (X : ext s s1) by (constructor; auto). split; [|exact X]. constructor.
  - exact (I_range _ I).
  - exact (I_task _ I).
  - intros t l H. unfold s1 in H. cbn in H. rewrite nth_snoc in H. destruct (Nat.eqb_spec t (length (s_threads s))) as [-> |N].
    + injection H as <-. apply ch_one. split; [exact L|]. split; [exact E|exact Logic.I].
    + eapply chain_ext; [exact X| |exact (I_stack _ I t l H)]. auto.
  - intros d t H. destruct (I_busy _ I d t H) as (l & f & got & H1 & H2). exists l, f, got. split; [|exact H2]. unfold s1. cbn. rewrite nth_snoc. destruct (Nat.eqb_spec t (length (s_threads s))) as [-> |N]; [|exact H1]. rewrite (proj2 (nth_error_None (s_threads s) _)) in H1 by lia. discriminate H1.
  - exact (I_full _ I).
  - exact (I_runs _ I).
  - exact (I_ans _ I).
Qed.
Lemma step_ok s e : Inv s -> Inv (step O s e) /\ ext s (step O s e).
Proof.
  intros I. destruct e as [snap|g snap|g T|g h b|g T|t|t]; cbn [step].
  - destruct (graph_ok s snap [] I) as (A & B & _); auto.
  - destruct (nth_error (s_graphs s) g) as [x|] eqn:G; [|split; [exact I|apply ext_refl]]. destruct (graph_ok s (match snap with Some y => y | None => g_snap x end) (g_entries x) I) as (A & B & _); eauto.
  - destruct (Nat.ltb_spec g (length (s_graphs s))) as [L|L]; [|split; [exact I|apply ext_refl]]. unfold get. destruct (computed g T s) as [sc c] eqn:C. destruct (computed_ok _ _ _ _ _ I L C) as (Ic & Xc & _). auto.
  - destruct (Nat.ltb_spec g (length (s_graphs s))) as [L|L]; [|split; [exact I|apply ext_refl]]. unfold provide. destruct (computed g (Flag h) s) as [sc c] eqn:C. destruct (computed_ok _ _ _ _ _ I L C) as (Ic & Xc & Ec & _).
    destruct (content sc c) as [|t|v] eqn:F; [|split; assumption|split; assumption]. destruct (flag_ok sc g h c b Ic Ec F) as (A & B). split; [exact A|]. eapply ext_trans; eauto.
  - destruct (Nat.ltb_spec g (length (s_graphs s))) as [L|L]; [|split; [exact I|apply ext_refl]]. destruct (computed g T s) as [sc c] eqn:C. destruct (computed_ok _ _ _ _ _ I L C) as (Ic & Xc & Ec & _ & _ & _ & _ & _ & Lc & _).
    destruct (ask_ok sc g T c Ic) as (A & B); [lia|exact Ec|]. split; [exact A|]. eapply ext_trans; eauto.
  - apply advance_ok. exact I.
  - destruct (nth_error (s_threads s) t) as [[|f below]|] eqn:E; try (split; [exact I|apply ext_refl]). destruct (f_pc f); [split; [exact I|apply ext_refl]|]. apply unwind_ok; auto.
Qed.
Lemma run_ok es : forall s, Inv s -> Inv (run O s es) /\ ext s (run O s es).
Proof.
  induction es as [|e es IH]; intros s I; [split; [exact I|apply ext_refl]|]. destruct (step_ok s e I) as (A & B). destruct (IH _ A) as (C & D). split; [exact C|]. eapply ext_trans; eauto.
Qed.
Lemma run_Inv es : Inv (run O init es).
Proof. apply run_ok. exact Inv_init. Qed.
End Inv.

(** * Each compilation once *)
Section Once.
Context (O : nat -> outcome).
Definition held (s : st) (n : nat) (c : nat) : Prop :=
  content s c = Full (VComp (Some n)) \/ exists t l f, nth_error (s_threads s) t = Some l /\ In f l /\ f_cell f = c /\ f_pc f = Inside [VFlag true; VComp (Some n)].
Definition U (s : st) : Prop := forall n m, nth_error (s_runs s) n = Some m -> held s n (m_cell m).
(** Who holds a compilation is at the top of its thread, about to return it. *)
Lemma held_top s t f below x n c g h : Inv O s -> nth_error (s_threads s) t = Some (f :: below) -> In x (f :: below) -> f_cell x = c -> entry s g (Comp h) = Some c -> f_pc x = Inside [VFlag true; VComp (Some n)] ->
  x = f /\ next O (f_task f) [VFlag true; VComp (Some n)] = Ret (VComp (Some n)).
Proof.
  intros I E H C G P. assert (K := I_stack _ _ I t _ E).
  assert (TX : forall y, okf s t y -> f_cell y = c -> f_task y = Comp h) by (intros y (_ & Y & _) <-; eapply I_task; eauto).
  inversion K as [|? K1 |? f2 got h2 K1 K2 K3 K4 K5 K6]; subst.
  - destruct H as [<-|[]]. split; [reflexivity|]. rewrite (TX _ K1 eq_refl). reflexivity.
  - destruct H as [<-|[<-|[]]].
    + split; [reflexivity|]. rewrite K6. reflexivity.
    + rewrite (TX _ K2 eq_refl) in K5. destruct (need_cases _ _ _ _ K5) as [(y & Y & _)|[(Y & _)|(y & Y & _)]]; discriminate Y.
Qed.
Lemma adv_other s t t' : t' <> t -> nth_error (s_threads (advance O t s)) t' = nth_error (s_threads s) t'.
Proof.
  intros N. assert (Z : forall l s0, nth_error (s_threads (set_stack t l s0)) t' = nth_error (s_threads s0) t') by (intros l s0; rewrite thread_at; destruct (Nat.eqb_spec t t'); [congruence|reflexivity]).
  assert (R : forall f l v s0, nth_error (s_threads (return_to t f l v s0)) t' = nth_error (s_threads s0) t').
  { intros f [|[g T c [|got]] l] v s0; cbn [return_to]; [apply (Z [] s0)|reflexivity|apply Z]. }
  assert (W : forall l s0, nth_error (s_threads (unwind t l s0)) t' = nth_error (s_threads s0) t').
  { intros l s0. unfold unwind. cbn [s_threads]. rewrite Z. revert s0. induction l as [|x l IH]; intros s0; [reflexivity|]. cbn [fold_left]. rewrite IH. destruct (f_pc x); reflexivity. }
  assert (CT : forall g T s0, s_threads (fst (computed g T s0)) = s_threads s0).
  { intros g T s0. unfold computed. destruct (entry s0 g T); [reflexivity|]. destruct (nth_error (s_graphs s0) g); reflexivity. }
  unfold advance. destruct (nth_error (s_threads s) t) as [[|f below]|]; try reflexivity. destruct (f_pc f) as [|got].
  - destruct (content s (f_cell f)); [rewrite Z; reflexivity|reflexivity|apply R].
  - destruct (next O (f_task f) got) as [T|h|h|v|].
    + specialize (CT (f_graph f) T s). destruct (computed (f_graph f) T s) as [s0 c]. cbn in CT. rewrite Z, CT. reflexivity.
    + unfold get. specialize (CT (f_graph f) (Flag h) s). destruct (computed (f_graph f) (Flag h) s) as [s0 c]. cbn in CT. rewrite Z, CT. reflexivity.
    + cbn [s_threads]. apply (Z _ s).
    + rewrite R. reflexivity.
    + apply W.
Qed.
Lemma ret_runs t f l v s0 : s_runs (return_to t f l v s0) = s_runs s0.
Proof. destruct l as [|[g T c [|got]] l]; reflexivity. Qed.
Lemma ret_content t f l v s0 c : content (return_to t f l v s0) c = content s0 c.
Proof. destruct l as [|[g T d [|got]] l]; reflexivity. Qed.
Lemma unwind_runs t l s0 : s_runs (unwind t l s0) = s_runs s0.
Proof. unfold unwind. cbn [s_runs set_stack]. revert s0. induction l as [|x l IH]; intros s0; [reflexivity|]. cbn [fold_left]. rewrite IH. destruct (f_pc x); reflexivity. Qed.
Lemma computed_runs g T s0 : s_runs (fst (computed g T s0)) = s_runs s0 /\ s_threads (fst (computed g T s0)) = s_threads s0.
Proof. unfold computed. destruct (entry s0 g T); [auto|]. destruct (nth_error (s_graphs s0) g); auto. Qed.
Lemma U_keep s s1 : ext s s1 -> s_runs s1 = s_runs s -> (forall t l, nth_error (s_threads s) t = Some l -> nth_error (s_threads s1) t = Some l) -> U s -> U s1.
Proof.
  intros X R T H n m E. rewrite R in E. destruct (H n m E) as [A|(t & l & f & A & B)]; [left; eapply x_full; eauto|]. right. exists t, l, f. auto.
Qed.
Lemma U_adv s t : Inv O s -> U s -> U (advance O t s).
Proof.
  intros I H n m E. destruct (advance_ok O s t I) as (_ & X).
  destruct (nth_error (s_runs s) n) as [m'|] eqn:Q.
  - assert (m' = m) as -> by (pose proof (x_runs _ _ X n m' Q); congruence). destruct (I_runs _ _ I n m Q) as (EC & _). destruct (H n m Q) as [A|(t' & l & x & A & B & C & D)]; [left; eapply x_full; eauto|].
    destruct (Nat.eq_dec t' t) as [-> |N]; [|right; exists t', l, x; rewrite adv_other by exact N; auto].
    destruct l as [|f below]; [destruct B|]. destruct (held_top s t f below x n (m_cell m) _ _ I A B C EC D) as (-> & NX). left. unfold advance. rewrite A, D, NX, ret_content, C. apply content_put_eq. exact (I_range _ _ I _ _ _ EC).
  - (* the new one *)
    unfold advance in E |- *. destruct (nth_error (s_threads s) t) as [[|f below]|] eqn:A; try congruence. destruct (f_pc f) as [|got] eqn:P.
    + destruct (content s (f_cell f)); try rewrite ret_runs in E; cbn in E; congruence.
    + destruct (next O (f_task f) got) as [T|h|h|v|] eqn:N.
      * pose proof (proj1 (computed_runs (f_graph f) T s)) as R. destruct (computed (f_graph f) T s) as [s0 c]. cbn in E, R. congruence.
      * unfold get in E. pose proof (proj1 (computed_runs (f_graph f) (Flag h) s)) as R. destruct (computed (f_graph f) (Flag h) s) as [s0 c]. cbn in E, R. congruence.
      * cbn [s_runs set_stack] in E. rewrite nth_snoc in E. destruct (Nat.eqb_spec n (length (s_runs s))) as [-> |M]; [|congruence]. injection E as <-. right. cbn [m_cell].
        exists t, (mkF (f_graph f) (f_task f) (f_cell f) (Inside (got ++ [VComp (Some (length (s_runs s)))])) :: below), (mkF (f_graph f) (f_task f) (f_cell f) (Inside (got ++ [VComp (Some (length (s_runs s)))]))).
        split; [cbn [s_threads]; rewrite thread_at, Nat.eqb_refl, A; reflexivity|]. split; [left; reflexivity|]. split; [reflexivity|]. cbn.
        assert (got = [VFlag true]) as ->; [|reflexivity]. pose proof (chain_top _ _ _ _ _ (I_stack _ _ I t _ A)) as (_ & _ & KP). rewrite P in KP. destruct KP as (_ & KK). clear -N KK. destruct (f_task f) as [x|x|x|]; cbn in KK.
        -- subst got. discriminate N.
        -- destruct KK as [-> |[-> |[(b & -> & D)|(n & -> & _)]]]; try destruct b; try discriminate N. reflexivity.
        -- destruct KK as [-> |(w0 & -> & _)]; try destruct w0; discriminate N.
        -- destruct KK as [-> |[(w0 & -> & _)|(r & w0 & -> & _)]]; try destruct w0; discriminate N.
      * rewrite ret_runs in E. cbn in E. congruence.
      * rewrite unwind_runs in E. congruence.
Qed.
Lemma U_step s e : Inv O s -> U s -> is_crash e = false -> U (step O s e).
Proof.
  intros I H N. pose proof (proj2 (step_ok O s e I)) as X. destruct e as [snap|g snap|g T|g h b|g T|t|t]; cbn [step] in *; try discriminate N.
  - apply (U_keep s); auto.
  - destruct (nth_error (s_graphs s) g) as [x|]; [|exact H]. apply (U_keep s); auto.
  - destruct (g <? length (s_graphs s)); [|exact H]. unfold get in *. destruct (computed_runs g T s) as (R1 & R2). destruct (computed g T s) as [s0 c]. cbn in *. apply (U_keep s); auto. congruence.
  - destruct (g <? length (s_graphs s)); [|exact H]. unfold provide in *. destruct (computed_runs g (Flag h) s) as (R1 & R2). destruct (computed g (Flag h) s) as [s0 c]. cbn in R1, R2. apply (U_keep s); auto; destruct (content s0 c); cbn; congruence.
  - destruct (g <? length (s_graphs s)); [|exact H]. destruct (computed_runs g T s) as (R1 & R2). destruct (computed g T s) as [s0 c]. cbn in *. apply (U_keep s); auto. intros t l E. cbn. rewrite nth_snoc. rewrite R2. destruct (Nat.eqb_spec t (length (s_threads s))) as [-> |M]; [|exact E]. rewrite (proj2 (nth_error_None (s_threads s) _)) in E by lia. discriminate E.
  - apply U_adv; auto.
Qed.
Lemma U_run es : forall s, Inv O s -> U s -> forallb (fun e => negb (is_crash e)) es = true -> U (run O s es).
Proof.
  induction es as [|e es IH]; intros s I H N; [exact H|]. cbn in N. apply andb_true_iff in N as (N1 & N2). apply negb_true_iff in N1. apply IH; [apply step_ok; exact I|apply U_step; auto|exact N2].
Qed.
Lemma U_inj s n1 n2 m1 m2 : Inv O s -> U s -> nth_error (s_runs s) n1 = Some m1 -> nth_error (s_runs s) n2 = Some m2 -> m_cell m1 = m_cell m2 -> n1 = n2.
Proof.
  intros I H E1 E2 C. destruct (I_runs _ _ I _ _ E1) as (G1 & _), (I_runs _ _ I _ _ E2) as (G2 & _).
  assert (HB : forall n m t l f, nth_error (s_threads s) t = Some l -> In f l -> f_cell f = m -> f_pc f = Inside [VFlag true; VComp (Some n)] -> content s m = Busy t).
  { intros n m t l f A B <- D. pose proof (I_stack _ _ I t _ A) as K.
    assert (OK : okf s t f) by (inversion K as [|? K1 |? f2 got h K1 K2 K3 K4 K5 K6]; subst; [destruct B|destruct B as [<-|[]]; exact K1|destruct B as [<-|[<-|[]]]; [exact K1|exact K2]]).
    destruct OK as (_ & _ & OK). rewrite D in OK. tauto. }
  destruct (H _ _ E1) as [A1|(t1 & l1 & f1 & A1 & B1 & C1 & D1)], (H _ _ E2) as [A2|(t2 & l2 & f2 & A2 & B2 & C2 & D2)].
  - congruence.
  - pose proof (HB _ _ _ _ _ A2 B2 C2 D2). congruence.
  - pose proof (HB _ _ _ _ _ A1 B1 C1 D1). congruence.
  - pose proof (HB _ _ _ _ _ A1 B1 C1 D1). pose proof (HB _ _ _ _ _ A2 B2 C2 D2). assert (t1 = t2) as <- by congruence. assert (l1 = l2) as <- by congruence.
    destruct l1 as [|f below]; [destruct B1|]. destruct (held_top _ _ _ _ _ _ _ _ _ I A1 B1 C1 G1 D1) as (-> & _). destruct (held_top _ _ _ _ _ _ _ _ _ I A1 B2 C2 G2 D2) as (-> & _). congruence.
Qed.
Lemma NoDup_inj {A B} (f : A -> B) (l : list A) : (forall i j x y, nth_error l i = Some x -> nth_error l j = Some y -> f x = f y -> i = j) -> NoDup (map f l).
Proof.
  intros H. apply NoDup_nth_error. intros i j L E. rewrite map_length in L. rewrite !nth_error_map in E. destruct (nth_error l i) as [x|] eqn:X; [|apply nth_error_None in X; lia]. destruct (nth_error l j) as [y|] eqn:Y; [|discriminate E]. cbn in E. injection E as E. eauto.
Qed.
Lemma once es : forallb (fun e => negb (is_crash e)) es = true -> NoDup (map m_cell (s_runs (run O init es))) /\ NoDup (map (fun m => (m_graph m, m_kind m)) (s_runs (run O init es))).
Proof.
  intros N. pose proof (run_Inv O es) as I. assert (H : U (run O init es)) by (apply U_run; [apply Inv_init|intros [|n] m Q; discriminate Q|exact N]).
  split; apply NoDup_inj; intros i j x y X Y E; eapply U_inj; eauto.
  injection E as E1 E2. destruct (I_runs _ _ I _ _ X) as (G1 & _), (I_runs _ _ I _ _ Y) as (G2 & _). rewrite E1, E2 in G1. congruence.
Qed.
(** * Progress *)
Definition tw (T : task) (p : pc) : nat :=
  match T, p with
  | Flag _, Enter => 2
  | Flag _, Inside _ => 1
  | Comp _, Enter => 5
  | Comp _, Inside got => S (3 - length got)
  | Doc _, Enter => 8
  | Doc _, Inside [] => 7
  | Doc _, Inside _ => 1
  | Diag, Enter => 14
  | Diag, Inside [] => 13
  | Diag, Inside [_] => 7
  | Diag, Inside _ => 1
  end.
Definition lw (f : frame) : nat := match f_pc f with Enter => 0 | Inside got => tw (f_task f) (Inside (got ++ [VErr])) end.
Definition sw (l : list frame) : nat := match l with [] => 0 | f :: below => tw (f_task f) (f_pc f) + list_sum (map lw below) end.
Definition weight (s : st) : nat := list_sum (map sw (s_threads s)).
Lemma tw_pos T p : 0 < tw T p.
Proof. destruct T as [h|h|h|], p as [|[|x [|y l]]]; cbn; lia. Qed.
Lemma tw_any T got v w : tw T (Inside (got ++ [v])) = tw T (Inside (got ++ [w])).
Proof. destruct T as [h|h|h|]; cbn; rewrite ?app_length; try reflexivity; destruct got as [|x [|y got]]; reflexivity. Qed.
Lemma sum_set t l0 l ls : nth_error ls t = Some l0 -> list_sum (map sw (set_nth t l ls)) + sw l0 = list_sum (map sw ls) + sw l.
Proof.
  revert t. induction ls as [|x ls IH]; intros [|t] E; try discriminate E; cbn in *; [injection E as ->; lia|]. specialize (IH t E). unfold list_sum in *. lia.
Qed.
Lemma weight_set s0 s t l0 l : s_threads s0 = s_threads s -> nth_error (s_threads s) t = Some l0 -> sw l < sw l0 -> weight (set_stack t l s0) < weight s.
Proof. intros T E L. unfold weight. cbn [set_stack s_threads]. rewrite T. pose proof (sum_set t l0 l _ E). lia. Qed.
Lemma ret_weight s0 s t f below v : s_threads s0 = s_threads s -> nth_error (s_threads s) t = Some (f :: below) -> chain O s t (f :: below) -> weight (return_to t f below v s0) < weight s.
Proof.
  intros T E K. pose proof (tw_pos (f_task f) (f_pc f)). inversion K as [|? K1 |? f2 got h K1 K2 K3 K4 K5 K6]; subst.
  - change (weight (set_stack t [] s0) < weight s). eapply weight_set; eauto. cbn. lia.
  - destruct f2 as [g2 T2 c2 p2]. cbn in K4. subst p2. cbn [return_to]. eapply weight_set; eauto. cbn [sw map]. unfold list_sum. cbn [fold_right]. unfold lw. cbn [f_pc f_task]. rewrite (tw_any T2 got v VErr). lia.
Qed.
Lemma unwind_threads t l s0 : s_threads (unwind t l s0) = set_nth t [] (s_threads s0).
Proof. unfold unwind. cbn [s_threads set_stack]. f_equal. revert s0. induction l as [|x l IH]; intros s0; [reflexivity|]. cbn [fold_left]. rewrite IH. destruct (f_pc x); reflexivity. Qed.
Definition ready (s : st) (t : nat) : Prop :=
  exists f below, nth_error (s_threads s) t = Some (f :: below) /\ ((exists got, f_pc f = Inside got) \/ forall t', content s (f_cell f) <> Busy t').
Lemma ready_weight s t : Inv O s -> ready s t -> weight (advance O t s) < weight s.
Proof.
  intros I (f & below & E & R). pose proof (I_stack _ _ I t _ E) as K. unfold advance. rewrite E. pose proof (chain_top _ _ _ _ _ K) as (_ & _ & KP). destruct (f_pc f) as [|got] eqn:P.
  - destruct R as [(got & R)|R]; [discriminate R|]. destruct (content s (f_cell f)) as [|t'|v] eqn:C; [|destruct (R t' eq_refl)|eapply ret_weight; eauto].
    eapply weight_set; [reflexivity|exact E|]. cbn [sw f_task f_pc]. rewrite P. destruct (f_task f) as [h|h|h|]; cbn; lia.
  - destruct KP as (_ & KK). destruct (next O (f_task f) got) as [T|h|h|v|] eqn:N.
    + pose proof (proj2 (computed_runs (f_graph f) T s)) as R2. destruct (computed (f_graph f) T s) as [s0 c]. cbn in R2. eapply weight_set; eauto. cbn [sw f_task f_pc map]. rewrite P.
      unfold lw; rewrite P. destruct (need_cases _ _ _ _ N) as [(x & -> & -> & ->)|[(-> & -> & ->)|(r & -> & -> & ->)]]; unfold list_sum; cbn; lia.
    + unfold get. pose proof (proj2 (computed_runs (f_graph f) (Flag h) s)) as R2. destruct (computed (f_graph f) (Flag h) s) as [s0 c]. cbn in R2. eapply weight_set; eauto. cbn [sw f_task f_pc]. rewrite P.
      assert (FT : (exists y, f_task f = Comp y) /\ got = []).
      { clear -N KK. destruct (f_task f) as [x|x|x|]; cbn in KK.
        - subst got. discriminate N.
        - destruct KK as [-> |[-> |[(b & -> & D)|(n & -> & _)]]]; try destruct b; try discriminate N. eauto.
        - destruct KK as [-> |(w0 & -> & _)]; try destruct w0; discriminate N.
        - destruct KK as [-> |[(w0 & -> & _)|(r & w0 & -> & _)]]; try destruct w0; discriminate N. }
      destruct FT as ((y & ->) & ->). cbn. lia.
    + assert (FT : (exists y, f_task f = Comp y) /\ got = [VFlag true]).
      { clear -N KK. destruct (f_task f) as [x|x|x|]; cbn in KK.
        - subst got. discriminate N.
        - destruct KK as [-> |[-> |[(b & -> & D)|(n & -> & _)]]]; try destruct b; try discriminate N. eauto.
        - destruct KK as [-> |(w0 & -> & _)]; try destruct w0; discriminate N.
        - destruct KK as [-> |[(w0 & -> & _)|(r & w0 & -> & _)]]; try destruct w0; discriminate N. }
      destruct FT as ((y & FT) & ->). cbv zeta. match goal with |- context [set_stack t ?l s] => change (weight (set_stack t l s) < weight s) end. eapply weight_set; eauto. cbn [sw f_task f_pc]. rewrite P, FT. cbn. lia.
    + eapply ret_weight; eauto.
    + unfold weight. rewrite unwind_threads. pose proof (sum_set t (f :: below) [] _ E) as S. cbn [sw] in S. pose proof (tw_pos (f_task f) (f_pc f)). lia.
Qed.
Lemma not_ready s t : ~ ready s t -> advance O t s = s.
Proof.
  intros R. unfold advance. destruct (nth_error (s_threads s) t) as [[|f below]|] eqn:E; try reflexivity. destruct (f_pc f) as [|got] eqn:P; [|destruct R; exists f, below; eauto].
  destruct (content s (f_cell f)) as [|t'|v] eqn:C; [| reflexivity |]; destruct R; exists f, below; split; auto; right; intros t'; rewrite C; discriminate.
Qed.
Lemma some_ready s : Inv O s -> ~ quiet s -> exists t, ready s t.
Proof.
  intros I Q. assert (exists t f below, nth_error (s_threads s) t = Some (f :: below)) as (t & f & below & E).
  { unfold quiet in Q. clear I. induction (s_threads s) as [|l ls IH]; [destruct Q; constructor|]. destruct l as [|f below]; [|exists 0, f, below; reflexivity].
    destruct IH as (t & f & below & E); [intros F; apply Q; constructor; auto|]. exists (S t), f, below. exact E. }
  assert (TOP : forall t f below got, nth_error (s_threads s) t = Some (f :: below) -> f_pc f = Inside got -> ready s t) by (intros t0 f0 b0 g0 E0 P0; exists f0, b0; eauto).
  assert (COMP : forall t f below h, nth_error (s_threads s) t = Some (f :: below) -> f_task f = Comp h -> exists t', ready s t').
  { intros t0 f0 b0 h E0 T0. destruct (f_pc f0) as [|got] eqn:P0; [|eauto]. destruct (content s (f_cell f0)) as [|t1|v] eqn:C0; [exists t0, f0, b0; split; [exact E0|right; rewrite C0; discriminate]| |exists t0, f0, b0; split; [exact E0|right; rewrite C0; discriminate]].
    destruct (I_busy _ _ I _ _ C0) as (l & x & got & L & H & C & P). exists t1. pose proof (I_stack _ _ I t1 _ L) as K.
    pose proof (proj1 (proj2 (chain_top _ _ _ _ _ (I_stack _ _ I t0 _ E0)))) as EC. rewrite T0 in EC.
    inversion K as [|? K1 |f1 f2 got2 h2 K1 K2 K3 K4 K5 K6]; subst; [destruct H|destruct H as [<-|[]]; eauto|]. destruct H as [<-|[<-|[]]]; [eauto|]. destruct K2 as (_ & K2 & _). rewrite C in K2. pose proof (I_task _ _ I _ _ _ _ _ K2 EC) as TT. rewrite TT in K5.
    destruct (need_cases _ _ _ _ K5) as [(y & Y & _)|[(Y & _)|(y & Y & _)]]; discriminate Y. }
  destruct (f_pc f) as [|got] eqn:P; [|eauto]. destruct (content s (f_cell f)) as [|t1|v] eqn:C; [exists t, f, below; split; [exact E|right; rewrite C; discriminate]| |exists t, f, below; split; [exact E|right; rewrite C; discriminate]].
  destruct (I_busy _ _ I _ _ C) as (l & x & got & L & H & Cx & Px). pose proof (I_stack _ _ I t1 _ L) as K.
  inversion K as [|? K1 |f1 f2 got2 h2 K1 K2 K3 K4 K5 K6]; subst; [destruct H|destruct H as [<-|[]]; eauto|]. destruct H as [<-|[<-|[]]]; eauto.
Qed.
Lemma finish n : forall s, Inv O s -> weight s <= n -> exists es, forallb is_step es = true /\ length es <= n /\ quiet (run O s es).
Proof.
  induction n as [n IH] using lt_wf_ind. intros s I L.
  assert (D : quiet s \/ ~ quiet s). { unfold quiet. clear. induction (s_threads s) as [|[|f l] ls [IH|IH]]; [left; constructor|left; constructor; auto|right; intros F; inversion F; auto|right; intros F; inversion F; discriminate|right; intros F; inversion F; discriminate]. }
  destruct D as [D|D]; [exists []; split; [reflexivity|split; [cbn; lia|exact D]]|]. destruct (some_ready s I D) as (t & R). pose proof (ready_weight s t I R) as W.
  destruct (IH (n - 1)) with (s := advance O t s) as (es & E1 & E2 & E3); [lia|apply advance_ok; exact I|lia|]. exists (Step t :: es). split; [exact E1|]. split; [cbn; lia|exact E3].
Qed.
(** * Each call is answered *)
Definition bottom (l : list frame) : option (nat * task) := match rev l with [] => None | f :: _ => Some (f_graph f, f_task f) end.
Definition pending (s : st) (t g : nat) (T : task) : Prop := exists l, nth_error (s_threads s) t = Some l /\ bottom l = Some (g, T).
Definition answered (s : st) (g : nat) (T : task) : Prop := exists v, In (mkA g T v) (s_answers s).
Lemma computed_ans g T s0 : s_answers (fst (computed g T s0)) = s_answers s0.
Proof. unfold computed. destruct (entry s0 g T); [auto|]. destruct (nth_error (s_graphs s0) g); auto. Qed.
Lemma unwind_ans t l s0 : s_answers (unwind t l s0) = s_answers s0.
Proof. unfold unwind. cbn [s_answers set_stack]. revert s0. induction l as [|x l IH]; intros s0; [reflexivity|]. cbn [fold_left]. rewrite IH. destruct (f_pc x); reflexivity. Qed.
Lemma ret_ans t f l v s0 : exists l', s_answers (return_to t f l v s0) = s_answers s0 ++ l'.
Proof. destruct l as [|[g T c [|got]] l]; cbn; [eexists; reflexivity|exists []; rewrite app_nil_r; reflexivity|exists []; rewrite app_nil_r; reflexivity]. Qed.
Lemma adv_ans t s : exists l, s_answers (advance O t s) = s_answers s ++ l.
Proof.
  assert (Z : exists l, s_answers s = s_answers s ++ l) by (exists []; rewrite app_nil_r; reflexivity).
  unfold advance. destruct (nth_error (s_threads s) t) as [[|f below]|]; try exact Z. destruct (f_pc f) as [|got].
  - destruct (content s (f_cell f)); [exact Z|exact Z|apply ret_ans].
  - destruct (next O (f_task f) got) as [T|h|h|v|].
    + pose proof (computed_ans (f_graph f) T s) as A. destruct (computed (f_graph f) T s) as [s0 c]. cbn in *. rewrite A. exact Z.
    + unfold get. pose proof (computed_ans (f_graph f) (Flag h) s) as A. destruct (computed (f_graph f) (Flag h) s) as [s0 c]. cbn in *. rewrite A. exact Z.
    + exact Z.
    + apply (ret_ans t f below v (put (f_cell f) (Full v) s)).
    + rewrite unwind_ans. exact Z.
Qed.
Lemma bottom_snoc l f : bottom (l ++ [f]) = Some (f_graph f, f_task f).
Proof. unfold bottom. rewrite rev_app_distr. reflexivity. Qed.
Lemma stack_pending s0 t l0 l g T : nth_error (s_threads s0) t = Some l0 -> bottom l = Some (g, T) -> pending (set_stack t l s0) t g T.
Proof. intros E B. exists l. rewrite thread_at, Nat.eqb_refl, E. auto. Qed.
Lemma ret_pending s s0 t f below v g T : s_threads s0 = s_threads s -> nth_error (s_threads s) t = Some (f :: below) -> chain O s t (f :: below) -> bottom (f :: below) = Some (g, T) ->
  pending (return_to t f below v s0) t g T \/ answered (return_to t f below v s0) g T.
Proof.
  intros E0 E K B. inversion K as [|? K1 |? f2 got h K1 K2 K3 K4 K5 K6]; subst.
  - right. injection B as <- <-. exists v. cbn. apply in_app_iff. right. left. reflexivity.
  - left. destruct f2 as [g2 T2 c2 p2]. cbn in K4. subst p2. cbn [return_to]. eapply stack_pending; [rewrite E0; exact E|]. exact B.
Qed.
Lemma panic_flag s g T c got : Inv O s -> gotok s g T c got -> next O T got = Panic -> is_flag T = true.
Proof.
  intros I G N. destruct T as [h|h|h|]; [reflexivity| | |]; exfalso; cbn in G.
  - destruct G as [-> |[-> |[(b & -> & _)|(n & -> & _)]]]; try destruct b; discriminate N.
  - destruct G as [-> |(w & -> & D)]; [discriminate N|]. destruct (done_comp _ _ _ _ _ I D) as [-> |(r & ->)]; discriminate N.
  - destruct G as [-> |[(w & -> & D)|(r & w & -> & _ & D)]]; [discriminate N| |]; destruct (done_comp _ _ _ _ _ I D) as [-> |(q & ->)]; discriminate N.
Qed.
Lemma adv_pending s t g T : Inv O s -> is_flag T = false -> pending s t g T -> pending (advance O t s) t g T \/ answered (advance O t s) g T.
Proof.
  intros I F (l & E & B). unfold advance. rewrite E. destruct l as [|f below]; [discriminate B|]. pose proof (I_stack _ _ I t _ E) as K. pose proof (chain_top _ _ _ _ _ K) as (_ & _ & KP).
  assert (SAME : forall f', f_graph f' = f_graph f -> f_task f' = f_task f -> bottom (f' :: below) = Some (g, T)).
  { intros f' A1 A2. rewrite <- B. unfold bottom. cbn [rev]. destruct (rev below); cbn; rewrite ?A1, ?A2; reflexivity. }
  destruct (f_pc f) as [|got] eqn:P.
  - destruct (content s (f_cell f)) as [|t'|v] eqn:C.
    + left. eapply stack_pending; [exact E|]. apply SAME; reflexivity.
    + left. exists (f :: below). auto.
    + eapply ret_pending; eauto.
  - destruct KP as (_ & KK). destruct (next O (f_task f) got) as [T'|h|h|v|] eqn:N.
    + left. pose proof (proj2 (computed_runs (f_graph f) T' s)) as R2. destruct (computed (f_graph f) T' s) as [s0 c]. cbn in R2. eapply stack_pending; [rewrite R2; exact E|]. rewrite <- B. unfold bottom. cbn [rev]. destruct (rev below); reflexivity.
    + left. unfold get. pose proof (proj2 (computed_runs (f_graph f) (Flag h) s)) as R2. destruct (computed (f_graph f) (Flag h) s) as [s0 c]. cbn in R2. eapply stack_pending; [rewrite R2; exact E|]. apply SAME; reflexivity.
    + left. cbv zeta. match goal with |- context [set_stack t ?l s] => change (pending (set_stack t l s) t g T) end. eapply stack_pending; [exact E|]. apply SAME; reflexivity.
    + eapply ret_pending; [|exact E|exact K|exact B]. reflexivity.
    + exfalso. pose proof (panic_flag _ _ _ _ _ I KK N) as Q. inversion K as [|? K1 |? f2 got2 h K1 K2 K3 K4 K5 K6]; subst; [injection B as _ <-; congruence|]. rewrite K6 in Q. discriminate Q.
Qed.
Definition crash_of (t : nat) (e : event) : bool := match e with Crash t' => t' =? t | _ => false end.
Lemma step_pending s e t g T : Inv O s -> is_flag T = false -> crash_of t e = false -> pending s t g T \/ answered s g T -> pending (step O s e) t g T \/ answered (step O s e) g T.
Proof.
  intros I F N [(l & E & B)|(v & A)].
  - assert (SAME : nth_error (s_threads (step O s e)) t = Some l -> pending (step O s e) t g T \/ answered (step O s e) g T) by (intros Q; left; exists l; auto).
    destruct e as [snap|g0 snap|g0 T0|g0 h b|g0 T0|t'|t']; cbn [step] in *.
    + apply SAME. exact E.
    + destruct (nth_error (s_graphs s) g0); apply SAME; exact E.
    + destruct (g0 <? length (s_graphs s)); [|auto]. apply SAME. unfold get. destruct (computed_runs g0 T0 s) as (_ & R2). destruct (computed g0 T0 s) as [s0 c]. cbn in *. congruence.
    + destruct (g0 <? length (s_graphs s)); [|auto]. apply SAME. unfold provide. destruct (computed_runs g0 (Flag h) s) as (_ & R2). destruct (computed g0 (Flag h) s) as [s0 c]. cbn in R2. destruct (content s0 c); cbn; congruence.
    + destruct (g0 <? length (s_graphs s)); [|auto]. destruct (computed_runs g0 T0 s) as (_ & R2). destruct (computed g0 T0 s) as [s0 c]. cbn in R2. apply SAME. cbn. rewrite R2, nth_snoc. destruct (Nat.eqb_spec t (length (s_threads s))) as [-> |M]; [|exact E]. rewrite (proj2 (nth_error_None (s_threads s) _)) in E by lia. discriminate E.
    + destruct (Nat.eq_dec t' t) as [-> |M]; [apply adv_pending; auto; exists l; auto|]. apply SAME. rewrite adv_other by congruence. exact E.
    + cbn in N. apply Nat.eqb_neq in N. destruct (nth_error (s_threads s) t') as [[|f below]|]; auto. destruct (f_pc f); auto. apply SAME. rewrite unwind_threads, nth_set. destruct (Nat.eqb_spec t' t); [congruence|exact E].
  - right. assert (X : exists l, s_answers (step O s e) = s_answers s ++ l); [|destruct X as (l & X); exists v; rewrite X; apply in_app_iff; auto].
    assert (Z : exists l, s_answers s = s_answers s ++ l) by (exists []; rewrite app_nil_r; reflexivity). destruct e as [snap|g0 snap|g0 T0|g0 h b|g0 T0|t'|t']; cbn [step] in *.
    + exact Z.
    + destruct (nth_error (s_graphs s) g0); exact Z.
    + destruct (g0 <? length (s_graphs s)); [|exact Z]. unfold get. pose proof (computed_ans g0 T0 s) as R. destruct (computed g0 T0 s) as [s0 c]. cbn in *. rewrite R. exact Z.
    + destruct (g0 <? length (s_graphs s)); [|exact Z]. unfold provide. pose proof (computed_ans g0 (Flag h) s) as R. destruct (computed g0 (Flag h) s) as [s0 c]. cbn in R. destruct (content s0 c); cbn; rewrite R; exact Z.
    + destruct (g0 <? length (s_graphs s)); [|exact Z]. pose proof (computed_ans g0 T0 s) as R. destruct (computed g0 T0 s) as [s0 c]. cbn in *. rewrite R. exact Z.
    + apply adv_ans.
    + destruct (nth_error (s_threads s) t') as [[|f below]|]; try exact Z. destruct (f_pc f); [exact Z|]. rewrite unwind_ans. exact Z.
Qed.
Lemma run_pending t g T es : forall s, Inv O s -> is_flag T = false -> forallb (fun e => negb (crash_of t e)) es = true -> pending s t g T \/ answered s g T -> pending (run O s es) t g T \/ answered (run O s es) g T.
Proof.
  induction es as [|e es IH]; intros s I F N H; [exact H|]. cbn in N. apply andb_true_iff in N as (N1 & N2). apply negb_true_iff in N1. apply IH; auto; [apply step_ok; exact I|apply step_pending; auto].
Qed.
Lemma all_answered es1 es2 g T : is_flag T = false -> g < length (s_graphs (run O init es1)) -> forallb (fun e => negb (is_crash e)) es2 = true ->
  quiet (run O init (es1 ++ Ask g T :: es2)) -> answered (run O init (es1 ++ Ask g T :: es2)) g T.
Proof.
  intros F L N Q. unfold run in *. rewrite fold_left_app in *. cbn [fold_left] in *. fold (run O init es1) in *. set (s := run O init es1) in *. pose proof (run_Inv O es1) as I. fold s in I.
  assert (P : pending (step O s (Ask g T)) (length (s_threads s)) g T).
  { cbn [step]. apply Nat.ltb_lt in L. rewrite L. pose proof (proj2 (computed_runs g T s)) as R2. destruct (computed g T s) as [s0 c]. cbn in R2. exists [mkF g T c Enter]. split; [cbn; rewrite R2, nth_snoc, Nat.eqb_refl; reflexivity|reflexivity]. }
  destruct (run_pending (length (s_threads s)) g T es2 (step O s (Ask g T))) as [(l & E & B)|A]; auto; [apply step_ok; exact I| |].
  - clear -N. induction es2 as [|e es2 IH]; [reflexivity|]. cbn in *. apply andb_true_iff in N as (N1 & N2). rewrite (IH N2), andb_true_r. destruct e; try reflexivity. discriminate N1.
  - unfold quiet in Q. rewrite Forall_forall in Q. apply nth_error_In in E. fold (run O (step O s (Ask g T)) es2) in Q. rewrite (Q l E) in B. discriminate B.
Qed.
End Once.

(** * Flags first *)
Section Proper.
Context (O : nat -> outcome).
Definition flags (s : st) (g : nat) : Prop := (exists b, done s g (Flag true) (VFlag b)) /\ (exists b, done s g (Flag false) (VFlag b)).
Lemma flags_ext s s1 g : ext s s1 -> flags s g -> flags s1 g.
Proof. intros X ((b & B) & (c & C)). split; [exists b|exists c]; eapply ext_done; eauto. Qed.
Definition J (s : st) : Prop := forall g T c, entry s g T = Some c -> is_flag T = false -> flags s g.
Definition Clean (s : st) : Prop := (forall c, content s c <> Full VErr) /\
  forall t l f, nth_error (s_threads s) t = Some l -> In f l -> is_flag (f_task f) = false /\ forall got, f_pc f = Inside got -> ~ In VErr got.
Lemma computed_J s g T s1 c : Inv O s -> J s -> g < length (s_graphs s) -> computed g T s = (s1, c) -> (is_flag T = false -> flags s g) -> J s1.
Proof.
  intros I H L E F g' T' d Q N. destruct (computed_ok O _ _ _ _ _ I L E) as (_ & X & _ & _ & _ & _ & _ & _ & _ & K). destruct (K _ _ _ Q) as [A|(-> & -> & _)]; eapply flags_ext; eauto.
Qed.
Lemma J_same s s1 : ext s s1 -> (forall g T, entry s1 g T = entry s g T) -> J s -> J s1.
Proof. intros X E H g T c Q N. rewrite E in Q. eapply flags_ext; eauto. Qed.
Lemma ret_entry t f l v s0 g T : entry (return_to t f l v s0) g T = entry s0 g T.
Proof. destruct l as [|[g2 T2 d [|got]] l]; reflexivity. Qed.
Lemma unwind_entry t l s0 g T : entry (unwind t l s0) g T = entry s0 g T.
Proof. unfold unwind, entry. cbn [s_graphs set_stack]. match goal with |- match nth_error ?a g with _ => _ end = _ => assert (a = s_graphs s0) as -> end; [|reflexivity]. revert s0. induction l as [|x l IH]; intros s0; [reflexivity|]. cbn [fold_left]. rewrite IH. destruct (f_pc x); reflexivity. Qed.
Lemma J_step s e : Inv O s -> J s -> Clean s -> proper_event s e -> J (step O s e).
Proof.
  intros I H C P. pose proof (proj2 (step_ok O s e I)) as X. destruct e as [snap|g snap|g T|g h b|g T|t|t]; cbn [step proper_event] in *.
  - intros g T c Q N. destruct (graph_ok O s snap [] I) as (_ & _ & K); [auto|]. destruct (K _ _ _ Q) as [A|(_ & A)]; [|discriminate A]. eapply flags_ext; eauto.
  - destruct (nth_error (s_graphs s) g) as [x|] eqn:G; [|exact H]. intros g' T c Q N. destruct (graph_ok O s (match snap with Some y => y | None => g_snap x end) (g_entries x) I) as (_ & X1 & K); [eauto|]. destruct (K _ _ _ Q) as [A|(-> & A)]; [eapply flags_ext; eauto|].
    assert (E : entry s g T = Some c) by (unfold entry; rewrite G; exact A). destruct (H _ _ _ E N) as ((b1 & c1 & B1 & C1) & (b2 & c2 & B2 & C2)).
    assert (EN : forall T', entry {| s_cells := s_cells s; s_graphs := s_graphs s ++ [mkG (match snap with Some y => y | None => g_snap x end) (g_entries x)]; s_threads := s_threads s; s_runs := s_runs s; s_answers := s_answers s; s_panics := s_panics s |} (length (s_graphs s)) T' = entry s g T').
    { intros T'. unfold entry. cbn [s_graphs]. rewrite nth_snoc, Nat.eqb_refl, G. reflexivity. }
    split; [exists b1, c1|exists b2, c2]; rewrite EN; auto.
  - destruct (Nat.ltb_spec g (length (s_graphs s))) as [L|L]; [|exact H]. unfold get in *. destruct (computed g T s) as [s0 c] eqn:E. cbn in *. eapply computed_J; eauto.
  - destruct (Nat.ltb_spec g (length (s_graphs s))) as [L|L]; [|exact H]. unfold provide in *. destruct (computed g (Flag h) s) as [s0 c] eqn:E. assert (J s0) as J0 by (eapply computed_J; eauto; discriminate).
    destruct (content s0 c) eqn:Q; [|exact J0|exact J0]. apply (J_same s0); auto. apply put_ext. congruence.
  - destruct (Nat.ltb_spec g (length (s_graphs s))) as [L|L]; [|exact H]. destruct (computed g T s) as [s0 c] eqn:E. assert (J s0) as J0 by (eapply computed_J; eauto; intros _; exact (proj2 P)). exact J0.
  - unfold advance in *. destruct (nth_error (s_threads s) t) as [[|f below]|] eqn:E; try exact H. pose proof (I_stack _ _ I t _ E) as K. pose proof (chain_top _ _ _ _ _ K) as (KG & KE & _). destruct (f_pc f) as [|got] eqn:Q.
    + destruct (content s (f_cell f)) eqn:F; [|exact H|]; apply (J_same s); auto. intros g T. apply ret_entry.
    + destruct (next O (f_task f) got) as [T|h|h|v|] eqn:N.
      * destruct (computed (f_graph f) T s) as [s0 c] eqn:EC. assert (J s0) as J0; [|exact J0]. eapply computed_J; eauto. intros _. eapply H; [exact KE|]. apply (proj2 C t _ f E). left. reflexivity.
      * unfold get in *. destruct (computed (f_graph f) (Flag h) s) as [s0 c] eqn:EC. assert (J s0) as J0; [|exact J0]. eapply computed_J; eauto. discriminate.
      * exact H.
      * apply (J_same s); auto. intros g T. rewrite ret_entry. reflexivity.
      * apply (J_same s); auto. intros g T. apply unwind_entry.
  - destruct (nth_error (s_threads s) t) as [[|f below]|] eqn:E; try exact H. destruct (f_pc f); [exact H|]. apply (J_same s); auto. intros g T. apply unwind_entry.
Qed.
Lemma ret_verr T got : next O T got = Ret VErr -> In VErr got.
Proof.
  destruct T as [h|h|h|].
  - discriminate.
  - destruct got as [|[[|]|r|d|p q|] [|[b'|r'|d'|p' q'|] [|? ?]]]; intros E; try discriminate E; cbn; auto.
  - destruct got as [|[b|r|d|p q|] [|? ?]]; intros E; try discriminate E; cbn; auto.
  - destruct got as [|[b|r|d|p q|] [|[b'|r'|d'|p' q'|] [|? ?]]]; intros E; try discriminate E; cbn; auto.
Qed.
Lemma Clean_ret s0 t f below v : Clean s0 -> (forall x, In x (f :: below) -> is_flag (f_task x) = false /\ forall got, f_pc x = Inside got -> ~ In VErr got) -> v <> VErr -> Clean (return_to t f below v s0).
Proof.
  intros (A & B) F V. split; [intros c; rewrite ret_content; apply A|]. intros t' l x E H. destruct below as [|[g T c [|got]] below]; cbn [return_to] in E.
  - cbn [s_threads] in E. rewrite thread_at in E. destruct (Nat.eqb_spec t t') as [<-|N]; [|eauto]. destruct (nth_error (s_threads s0) t); [|discriminate E]. injection E as <-. destruct H.
  - eauto.
  - rewrite thread_at in E. destruct (Nat.eqb_spec t t') as [<-|N]; [|eauto]. destruct (nth_error (s_threads s0) t); [|discriminate E]. injection E as <-. destruct H as [<-|H]; [|apply F; right; right; exact H].
    destruct (F (mkF g T c (Inside got))) as (F1 & F2); [right; left; reflexivity|]. split; [exact F1|]. cbn. intros got' Q. injection Q as <-. rewrite in_app_iff. intros [W|[W|[]]]; [|congruence]. apply (F2 got eq_refl W).
Qed.
Lemma Clean_unwind s t l : Clean s -> Clean (unwind t l s).
Proof.
  intros (A & B). split.
  - intros c. change (content (fold_left (fun s f => match f_pc f with Inside _ => put (f_cell f) Empty s | Enter => s end) l s) c <> Full VErr). revert s A B. induction l as [|x l IH]; intros s A B; [apply A|]. cbn [fold_left]. apply IH; destruct (f_pc x); auto. intros d. rewrite content_put. destruct ((f_cell x =? d) && (f_cell x <? length (s_cells s))); [discriminate|apply A].
  - intros t' l' f E H. rewrite unwind_threads, nth_set in E. destruct (Nat.eqb_spec t t') as [<-|N]; [|eauto]. destruct (nth_error (s_threads s) t); [|discriminate E]. injection E as <-. destruct H.
Qed.
Lemma Clean_set s0 t l l0 : Clean s0 -> nth_error (s_threads s0) t = Some l0 -> (forall x, In x l -> is_flag (f_task x) = false /\ forall got, f_pc x = Inside got -> ~ In VErr got) -> Clean (set_stack t l s0).
Proof.
  intros (A & B) E F. split; [exact A|]. intros t' l' x Q H. rewrite thread_at in Q. destruct (Nat.eqb_spec t t') as [<-|N]; [|eauto]. rewrite E in Q. injection Q as <-. auto.
Qed.
Lemma Clean_put s c x : Clean s -> x <> Full VErr -> Clean (put c x s).
Proof. intros (A & B) N. split; [|exact B]. intros d. rewrite content_put. destruct ((c =? d) && (c <? length (s_cells s))); [exact N|apply A]. Qed.
Lemma Clean_same s s1 : (forall c, content s1 c = content s c) -> s_threads s1 = s_threads s -> Clean s -> Clean s1.
Proof. intros C T (A & B). split; [intros c; rewrite C; apply A|]. rewrite T. exact B. Qed.
Lemma Clean_step s e : Inv O s -> J s -> Clean s -> proper_event s e -> Clean (step O s e).
Proof.
  intros I H C P. destruct e as [snap|g snap|g T|g h b|g T|t|t]; cbn [step proper_event] in *.
  - exact C.
  - destruct (nth_error (s_graphs s) g); exact C.
  - destruct (Nat.ltb_spec g (length (s_graphs s))) as [L|L]; [|exact C]. unfold get. destruct (computed g T s) as [s0 c] eqn:E. destruct (computed_ok O _ _ _ _ _ I L E) as (_ & _ & _ & Tc & Cc & _). eapply Clean_same; eauto.
  - destruct (Nat.ltb_spec g (length (s_graphs s))) as [L|L]; [|exact C]. unfold provide. destruct (computed g (Flag h) s) as [s0 c] eqn:E. destruct (computed_ok O _ _ _ _ _ I L E) as (_ & _ & _ & Tc & Cc & _). assert (C0 : Clean s0) by (eapply Clean_same; eauto).
    destruct (content s0 c); auto. apply Clean_put; [exact C0|discriminate].
  - destruct (Nat.ltb_spec g (length (s_graphs s))) as [L|L]; [|exact C]. destruct (computed g T s) as [s0 c] eqn:E. destruct (computed_ok O _ _ _ _ _ I L E) as (_ & _ & _ & Tc & Cc & _). assert (C0 : Clean s0) by (eapply Clean_same; eauto). destruct C0 as (A & B). split; [exact A|].
    intros t l f Q R. cbn [s_threads] in Q. rewrite nth_snoc in Q. destruct (Nat.eqb_spec t (length (s_threads s0))) as [-> |N]; [|eauto]. injection Q as <-. destruct R as [<-|[]]. split; [exact (proj1 P)|]. discriminate.
  - unfold advance in *. destruct (nth_error (s_threads s) t) as [[|f below]|] eqn:E; try exact C. pose proof (I_stack _ _ I t _ E) as K. pose proof (chain_top _ _ _ _ _ K) as (KG & KE & KP).
    assert (F : forall x, In x (f :: below) -> is_flag (f_task x) = false /\ forall got, f_pc x = Inside got -> ~ In VErr got) by (intros x; exact (proj2 C t _ x E)).
    destruct (f_pc f) as [|got] eqn:Q.
    + destruct (content s (f_cell f)) as [|t'|v] eqn:V; [|exact C|].
      * eapply Clean_set; [apply Clean_put; [exact C|discriminate]|exact E|]. intros x [<-|X]; [|apply F; right; exact X]. split; [apply (F f); left; reflexivity|]. cbn. intros got W. injection W as <-. intros [].
      * apply Clean_ret; auto. intros ->. exact (proj1 C _ V).
    + destruct KP as (KB & KK). destruct (F f) as (F1 & F2); [left; reflexivity|]. specialize (F2 got Q). destruct (next O (f_task f) got) as [T|h|h|v|] eqn:N.
      * destruct (computed (f_graph f) T s) as [s0 c] eqn:EC. destruct (computed_ok O _ _ _ _ _ I KG EC) as (_ & _ & _ & Tc & Cc & _). eapply Clean_set; [eapply Clean_same; eauto|rewrite Tc; exact E|]. intros x [<-|X]; [|apply F; exact X]. split; [|discriminate]. destruct (need_cases _ _ _ _ N) as [(y & _ & _ & ->)|[(_ & _ & ->)|(y & _ & _ & ->)]]; reflexivity.
      * unfold get. destruct (computed (f_graph f) (Flag h) s) as [s0 c] eqn:EC. destruct (computed_ok O _ _ _ _ _ I KG EC) as (I0 & X0 & E0 & Tc & Cc & _). eapply Clean_set; [eapply Clean_same; eauto|rewrite Tc; exact E|]. intros x [<-|X]; [|apply F; right; exact X]. split; [exact F1|]. cbn. intros got' W. injection W as <-. rewrite in_app_iff. intros [W|[W|[]]]; [auto|].
        destruct (H _ _ _ KE F1) as (D1 & D2). assert (D : exists b, done s0 (f_graph f) (Flag h) (VFlag b)) by (destruct h; [destruct D1 as (b & D)|destruct D2 as (b & D)]; exists b; eapply ext_done; eauto). destruct D as (b & d & D & D'). assert (d = c) as -> by congruence. rewrite D' in W. discriminate W.
      * cbv zeta. match goal with |- context [set_stack t ?l s] => apply (Clean_same (set_stack t l s)); [reflexivity|reflexivity|] end. eapply Clean_set; [exact C|exact E|]. intros x [<-|X]; [|apply F; right; exact X]. split; [exact F1|]. cbn. intros got' W. injection W as <-. rewrite in_app_iff. intros [W|[W|[]]]; [auto|discriminate W].
      * assert (v <> VErr) by (intros ->; apply F2; eapply ret_verr; eauto). apply Clean_ret; auto. apply Clean_put; [exact C|congruence].
      * apply Clean_unwind. exact C.
  - destruct (nth_error (s_threads s) t) as [[|f below]|] eqn:E; try exact C. destruct (f_pc f); [exact C|]. apply Clean_unwind. exact C.
Qed.
Lemma panics_adv s t : Inv O s -> Clean s -> s_panics (advance O t s) = s_panics s.
Proof.
  intros I C. assert (CP : forall g T s0, s_panics (fst (computed g T s0)) = s_panics s0) by (intros g T s0; unfold computed; destruct (entry s0 g T); [reflexivity|]; destruct (nth_error (s_graphs s0) g); reflexivity).
  assert (RP : forall f l v s0, s_panics (return_to t f l v s0) = s_panics s0) by (intros f [|[g T c [|got]] l] v s0; reflexivity).
  unfold advance. destruct (nth_error (s_threads s) t) as [[|f below]|] eqn:E; try reflexivity. destruct (f_pc f) as [|got] eqn:Q.
  - destruct (content s (f_cell f)); [reflexivity|reflexivity|apply RP].
  - destruct (next O (f_task f) got) as [T|h|h|v|] eqn:N.
    + specialize (CP (f_graph f) T s). destruct (computed (f_graph f) T s). exact CP.
    + unfold get. specialize (CP (f_graph f) (Flag h) s). destruct (computed (f_graph f) (Flag h) s). exact CP.
    + reflexivity.
    + rewrite RP. reflexivity.
    + exfalso. pose proof (chain_top _ _ _ _ _ (I_stack _ _ I t _ E)) as (_ & _ & KP). rewrite Q in KP. pose proof (panic_flag _ _ _ _ _ _ I (proj2 KP) N) as F. destruct (proj2 C t _ f E) as (F' & _); [left; reflexivity|]. congruence.
Qed.
Lemma panics_step s e : Inv O s -> Clean s -> is_crash e = false -> s_panics (step O s e) = s_panics s.
Proof.
  intros I C N. assert (CP : forall g T s0, s_panics (fst (computed g T s0)) = s_panics s0) by (intros g T s0; unfold computed; destruct (entry s0 g T); [reflexivity|]; destruct (nth_error (s_graphs s0) g); reflexivity).
  destruct e as [snap|g snap|g T|g h b|g T|t|t]; cbn [step] in *; try discriminate N; try reflexivity.
  - destruct (nth_error (s_graphs s) g); reflexivity.
  - destruct (g <? length (s_graphs s)); [|reflexivity]. unfold get. specialize (CP g T s). destruct (computed g T s). exact CP.
  - destruct (g <? length (s_graphs s)); [|reflexivity]. unfold provide. specialize (CP g (Flag h) s). destruct (computed g (Flag h) s) as [s0 c]. destruct (content s0 c); exact CP.
  - destruct (g <? length (s_graphs s)); [|reflexivity]. specialize (CP g T s). destruct (computed g T s). exact CP.
  - apply panics_adv; auto.
Qed.
Lemma proper_run es : forall s, Inv O s -> J s -> Clean s -> always proper_event O s es -> J (run O s es) /\ Clean (run O s es) /\ (forallb (fun e => negb (is_crash e)) es = true -> s_panics (run O s es) = s_panics s).
Proof.
  induction es as [|e es IH]; intros s I H C A; [auto|]. cbn in A. destruct A as (A1 & A2).
  assert (J1 := J_step s e I H C A1). assert (C1 := Clean_step s e I H C A1). destruct (IH (step O s e)) as (B1 & B2 & B3); auto; [apply step_ok; exact I|]. split; [exact B1|]. split; [exact B2|].
  cbn [forallb]. intros N. apply andb_true_iff in N as (N1 & N2). apply negb_true_iff in N1. transitivity (s_panics (step O s e)); [exact (B3 N2)|]. apply panics_step; auto.
Qed.
Lemma J_init : J init.
Proof. intros [|g] T c Q; discriminate Q. Qed.
Lemma Clean_init : Clean init.
Proof. split; [intros [|c]; discriminate|intros [|t] l f Q; discriminate Q]. Qed.
Lemma proper_clean es : always proper_event O init es ->
  (forall a, In a (s_answers (run O init es)) -> a_value a <> VErr) /\ (forallb (fun e => negb (is_crash e)) es = true -> s_panics (run O init es) = []).
Proof.
  intros A. destruct (proper_run es init (Inv_init O) J_init Clean_init A) as (B1 & B2 & B3). split; [|exact B3]. intros a Q W. destruct (I_ans _ _ (run_Inv O es) a Q) as (c & _ & F). rewrite W in F. exact (proj1 B2 c F).
Qed.
(** * Forks of closed graphs *)
Definition Shared (s : st) : Prop := forall g g' T c T', g <> g' -> entry s g T = Some c -> entry s g' T = Some c -> In T' (deps T) -> exists c', entry s g T' = Some c' /\ entry s g' T' = Some c'.
Lemma Shared_computed s g T s1 c : Inv O s -> Shared s -> g < length (s_graphs s) -> computed g T s = (s1, c) -> Shared s1.
Proof.
  intros I H L E g1 g2 T' d T'' N E1 E2 D. destruct (computed_ok O _ _ _ _ _ I L E) as (_ & X & _ & _ & _ & _ & _ & _ & _ & K).
  destruct (K _ _ _ E1) as [A1|(M1 & _ & _ & L1)], (K _ _ _ E2) as [A2|(M2 & _ & _ & L2)].
  - destruct (H _ _ _ _ _ N A1 A2 D) as (c' & B1 & B2). exists c'. split; eapply x_entry; eauto.
  - apply (I_range _ _ I) in A1. lia.
  - apply (I_range _ _ I) in A2. lia.
  - congruence.
Qed.
Lemma Shared_same s s1 : (forall g T, entry s1 g T = entry s g T) -> Shared s -> Shared s1.
Proof. intros E H g g' T c T' N. rewrite !E. apply H. exact N. Qed.
Lemma Shared_step s e : Inv O s -> Shared s -> closed_event s e -> Shared (step O s e).
Proof.
  intros I H P. destruct e as [snap|g snap|g T|g h b|g T|t|t]; cbn [step closed_event] in *.
  - intros g g' T c T' N E1 E2 D. destruct (graph_ok O s snap [] I) as (_ & X & K); [auto|]. destruct (K _ _ _ E1) as [A1|(_ & A1)]; [|discriminate A1]. destruct (K _ _ _ E2) as [A2|(_ & A2)]; [|discriminate A2].
    destruct (H _ _ _ _ _ N A1 A2 D) as (c' & B1 & B2). exists c'. split; eapply x_entry; eauto.
  - destruct (nth_error (s_graphs s) g) as [x|] eqn:G; [|exact H]. set (s1 := mkSt _ _ _ _ _ _). destruct (graph_ok O s (match snap with Some y => y | None => g_snap x end) (g_entries x) I) as (_ & X & K); [eauto|]. fold s1 in X, K.
    assert (EN : forall T', entry s1 (length (s_graphs s)) T' = entry s g T') by (intros T'; unfold entry, s1; cbn [s_graphs]; rewrite nth_snoc, Nat.eqb_refl, G; reflexivity).
    assert (GL : g < length (s_graphs s)) by (apply nth_error_Some; congruence).
    assert (NEW : forall g' T c T', g' <> length (s_graphs s) -> entry s1 (length (s_graphs s)) T = Some c -> entry s1 g' T = Some c -> In T' (deps T) -> exists c', entry s1 (length (s_graphs s)) T' = Some c' /\ entry s1 g' T' = Some c').
    { intros g' T c T' N E1 E2 D. rewrite EN in E1. destruct (K _ _ _ E2) as [A2|(W & _)]; [|congruence]. destruct (Nat.eq_dec g g') as [<-|M].
      - destruct (entry s g T') as [c'|] eqn:Q; [|destruct (P T) with (T' := T'); congruence]. exists c'. rewrite EN. split; [exact Q|]. eapply x_entry; eauto.
      - destruct (H _ _ _ _ _ M E1 A2 D) as (c' & B1 & B2). exists c'. rewrite EN. split; [exact B1|]. eapply x_entry; eauto. }
    intros g1 g2 T c T' N E1 E2 D. destruct (Nat.eq_dec g1 (length (s_graphs s))) as [-> |M1]; [apply (NEW g2 T c); auto|]. destruct (Nat.eq_dec g2 (length (s_graphs s))) as [-> |M2]; [destruct (NEW g1 T c T') as (c' & B1 & B2); auto; exists c'; auto|].
    destruct (K _ _ _ E1) as [A1|(W & _)]; [|congruence]. destruct (K _ _ _ E2) as [A2|(W & _)]; [|congruence]. destruct (H _ _ _ _ _ N A1 A2 D) as (c' & B1 & B2). exists c'. split; eapply x_entry; eauto.
  - destruct (Nat.ltb_spec g (length (s_graphs s))) as [L|L]; [|exact H]. unfold get. destruct (computed g T s) as [s0 c] eqn:E. cbn. eapply Shared_computed; eauto.
  - destruct (Nat.ltb_spec g (length (s_graphs s))) as [L|L]; [|exact H]. unfold provide. destruct (computed g (Flag h) s) as [s0 c] eqn:E. assert (Shared s0) by (eapply Shared_computed; eauto). destruct (content s0 c); auto.
  - destruct (Nat.ltb_spec g (length (s_graphs s))) as [L|L]; [|exact H]. destruct (computed g T s) as [s0 c] eqn:E. assert (Shared s0) by (eapply Shared_computed; eauto). auto.
  - unfold advance. destruct (nth_error (s_threads s) t) as [[|f below]|] eqn:E; try exact H. pose proof (chain_top _ _ _ _ _ (I_stack _ _ I t _ E)) as (KG & KE & _). destruct (f_pc f) as [|got].
    + destruct (content s (f_cell f)); [exact H|exact H|]. apply (Shared_same s); [|exact H]. intros; apply ret_entry.
    + destruct (next O (f_task f) got) as [T|h|h|v|].
      * destruct (computed (f_graph f) T s) as [s0 c] eqn:EC. assert (Shared s0) by (eapply Shared_computed; eauto). auto.
      * unfold get. destruct (computed (f_graph f) (Flag h) s) as [s0 c] eqn:EC. assert (Shared s0) by (eapply Shared_computed; eauto). auto.
      * exact H.
      * apply (Shared_same s); [|exact H]. intros; rewrite ret_entry; reflexivity.
      * apply (Shared_same s); [|exact H]. intros; apply unwind_entry.
  - destruct (nth_error (s_threads s) t) as [[|f below]|] eqn:E; try exact H. destruct (f_pc f); [exact H|]. apply (Shared_same s); [|exact H]. intros; apply unwind_entry.
Qed.
Lemma Shared_run es : forall s, Inv O s -> Shared s -> always closed_event O s es -> Shared (run O s es).
Proof.
  induction es as [|e es IH]; intros s I H A; [exact H|]. cbn in A. destruct A as (A1 & A2). apply IH; [apply step_ok; exact I|apply Shared_step; auto|exact A2].
Qed.
Lemma Shared_init : Shared init.
Proof. intros [|g] g' T c T' N Q; discriminate Q. Qed.
Lemma done_shared s g g' T c T' v : Shared s -> entry s g T = Some c -> entry s g' T = Some c -> In T' (deps T) -> done s g T' v -> done s g' T' v.
Proof.
  intros H E1 E2 D (d & Q & F). destruct (Nat.eq_dec g g') as [<-|N]; [exists d; auto|]. destruct (H _ _ _ _ _ N E1 E2 D) as (c' & B1 & B2). exists d. split; [congruence|exact F].
Qed.
(** What a result comes from, in any graph that has it. *)
Lemma comp_from s g h r : Inv O s -> Shared s -> done s g (Comp h) (VComp r) ->
  match r with
  | None => done s g (Flag h) (VFlag false)
  | Some n => done s g (Flag h) (VFlag true) /\ exists m, nth_error (s_runs s) n = Some m /\ m_kind m = h /\ entry s g (Comp h) = Some (m_cell m)
  end.
Proof.
  intros I H D. destruct (done_just _ _ _ _ _ I D) as (g' & c & E & E' & F & Q). cbn in Q. destruct Q as [Q|[(Q & R)|(n & Q & R & M)]]; [discriminate Q| |].
  - injection Q as ->. eapply done_shared; eauto. left. reflexivity.
  - injection Q as ->. split; [eapply done_shared; eauto; left; reflexivity|]. exists (mkM g' h c). auto.
Qed.
Lemma doc_from s g h d : Inv O s -> Shared s -> done s g (Doc h) (VDoc d) -> exists r, done s g (Comp h) (VComp r) /\ d = doc_of O r.
Proof.
  intros I H D. destruct (done_just _ _ _ _ _ I D) as (g' & c & E & E' & F & Q). cbn in Q. destruct Q as (w & DW & [(_ & Q)|(r & -> & Q)]); [discriminate Q|]. injection Q as ->. exists r. split; [|reflexivity]. eapply done_shared; eauto. left. reflexivity.
Qed.
Lemma diag_from s g p q : Inv O s -> Shared s -> done s g Diag (VDiag p q) -> exists r r', done s g (Comp false) (VComp r) /\ done s g (Comp true) (VComp r') /\ p = diags_of O r /\ q = diags_of O r'.
Proof.
  intros I H D. destruct (done_just _ _ _ _ _ I D) as (g' & c & E & E' & F & Q). cbn in Q. destruct Q as (w & DW & [(_ & Q)|(r & -> & w' & DW' & [(_ & Q)|(r' & -> & Q)])]); try discriminate Q. injection Q as -> ->. exists r, r'.
  split; [eapply done_shared; eauto; left; reflexivity|]. split; [eapply done_shared; eauto; right; left; reflexivity|]. auto.
Qed.
Lemma shape s g T v : Inv O s -> done s g T v -> v <> VErr -> match T with Flag _ => exists b, v = VFlag b | Comp _ => exists r, v = VComp r | Doc _ => exists d, v = VDoc d | Diag => exists p q, v = VDiag p q end.
Proof.
  intros I D N. destruct (done_just _ _ _ _ _ I D) as (g' & c & _ & _ & _ & Q). destruct T as [h|h|h|]; cbn in Q; auto.
  - destruct Q as [Q|[(Q & _)|(n & Q & _)]]; [congruence|eauto|eauto].
  - destruct Q as (w & _ & [(_ & Q)|(r & _ & Q)]); [congruence|eauto].
  - destruct Q as (w & _ & [(_ & Q)|(r & _ & w' & _ & [(_ & Q)|(q & _ & Q)])]); [congruence|congruence|eauto].
Qed.
Lemma pair es g h d p q : always closed_event O init es -> In (mkA g (Doc h) (VDoc d)) (s_answers (run O init es)) -> In (mkA g Diag (VDiag p q)) (s_answers (run O init es)) ->
  exists r, d = doc_of O r /\ (if h then q else p) = diags_of O r.
Proof.
  intros A B C. pose proof (run_Inv O es) as I. pose proof (Shared_run es init (Inv_init O) Shared_init A) as H. apply (I_ans _ _ I) in B. apply (I_ans _ _ I) in C. cbn in B, C.
  destruct (doc_from _ _ _ _ I H B) as (r & R & ->). destruct (diag_from _ _ _ _ I H C) as (r1 & r2 & R1 & R2 & -> & ->). exists r. split; [reflexivity|]. destruct h; [pose proof (done_same _ _ _ _ _ R R2)|pose proof (done_same _ _ _ _ _ R R1)]; congruence.
Qed.
Lemma artifact es g h v w : always closed_event O init es -> always proper_event O init es ->
  done (run O init es) g (Flag h) (VFlag true) -> done (run O init es) g (Flag (negb h)) (VFlag false) ->
  In (mkA g (Doc h) v) (s_answers (run O init es)) -> In (mkA g Diag w) (s_answers (run O init es)) ->
  exists n m, nth_error (s_runs (run O init es)) n = Some m /\ m_kind m = h /\ entry (run O init es) g (Comp h) = Some (m_cell m) /\ v = VDoc (o_doc (O n)) /\
    let own := (match o_doc (O n) with Some _ => None | None => Some (o_errs (O n)) end, Some (o_warns (O n))) in w = if h then VDiag (None, None) own else VDiag own (None, None).
Proof.
  intros A P F1 F2 B C. pose proof (run_Inv O es) as I. pose proof (Shared_run es init (Inv_init O) Shared_init A) as H. destruct (proper_clean es P) as (E & _). pose proof (E _ B) as NB. pose proof (E _ C) as NC. cbn in NB, NC.
  apply (I_ans _ _ I) in B. apply (I_ans _ _ I) in C. cbn in B, C. destruct (shape _ _ _ _ I B NB) as (d & ->). destruct (shape _ _ _ _ I C NC) as (p & q & ->).
  destruct (doc_from _ _ _ _ I H B) as (r & R & ->). destruct (diag_from _ _ _ _ I H C) as (r1 & r2 & R1 & R2 & -> & ->).
  assert (RS : exists n, r = Some n) by (destruct r as [n|]; [eauto|]; pose proof (comp_from _ _ _ _ I H R) as W; cbn in W; pose proof (done_same _ _ _ _ _ W F1); discriminate). destruct RS as (n & ->).
  pose proof (comp_from _ _ _ _ I H R) as (_ & m & M1 & M2 & M3). exists n, m. split; [exact M1|]. split; [exact M2|]. split; [exact M3|]. split; [reflexivity|]. cbv zeta.
  assert (OTHER : forall x, done (run O init es) g (Comp (negb h)) (VComp x) -> x = None) by (intros [x|] W; [|reflexivity]; pose proof (comp_from _ _ _ _ I H W) as (W1 & _); pose proof (done_same _ _ _ _ _ W1 F2); discriminate).
  destruct h; cbn in OTHER.
  - rewrite (OTHER _ R1). pose proof (done_same _ _ _ _ _ R R2) as W. injection W as <-. reflexivity.
  - rewrite (OTHER _ R2). pose proof (done_same _ _ _ _ _ R R1) as W. injection W as <-. reflexivity.
Qed.
End Proper.

(** * Which world *)
Section World.
Context (O : nat -> outcome).
Definition snap_at (s : st) (g : nat) : option nat := option_map g_snap (nth_error (s_graphs s) g).
Definition OneSnap (s : st) : Prop := forall g g' T c, entry s g T = Some c -> entry s g' T = Some c -> snap_at s g = snap_at s g'.
Lemma entry_range s g T c : entry s g T = Some c -> g < length (s_graphs s).
Proof. unfold entry. intros E. apply nth_error_Some. intros Q. rewrite Q in E. discriminate E. Qed.
Lemma snap_computed g T s g' : snap_at (fst (computed g T s)) g' = snap_at s g'.
Proof.
  unfold computed. destruct (entry s g T); [reflexivity|]. destruct (nth_error (s_graphs s) g) as [x|] eqn:G; [|reflexivity]. unfold snap_at. cbn. rewrite nth_set, G. destruct (Nat.eqb_spec g g') as [<-|N]; [rewrite G|]; reflexivity.
Qed.
Lemma OneSnap_computed s g T s1 c : Inv O s -> OneSnap s -> g < length (s_graphs s) -> computed g T s = (s1, c) -> OneSnap s1.
Proof.
  intros I H L E g1 g2 T' d E1 E2. destruct (computed_ok O _ _ _ _ _ I L E) as (_ & X & _ & _ & _ & _ & _ & _ & _ & K). assert (S : forall g', snap_at s1 g' = snap_at s g') by (intros g'; pose proof (snap_computed g T s g') as W; rewrite E in W; exact W). rewrite !S.
  destruct (K _ _ _ E1) as [A1|(M1 & _ & N1 & L1)], (K _ _ _ E2) as [A2|(M2 & _ & N2 & L2)]; [eauto| | |congruence].
  - apply (I_range _ _ I) in A1. lia.
  - apply (I_range _ _ I) in A2. lia.
Qed.
Lemma OneSnap_same s s1 : s_graphs s1 = s_graphs s -> OneSnap s -> OneSnap s1.
Proof. intros E H g g' T c. unfold entry, snap_at. rewrite E. apply H. Qed.
Lemma ret_graphs t f l v s0 : s_graphs (return_to t f l v s0) = s_graphs s0.
Proof. destruct l as [|[g2 T2 d [|got]] l]; reflexivity. Qed.
Lemma unwind_graphs t l s0 : s_graphs (unwind t l s0) = s_graphs s0.
Proof. unfold unwind. cbn [s_graphs set_stack]. revert s0. induction l as [|x l IH]; intros s0; [reflexivity|]. cbn [fold_left]. rewrite IH. destruct (f_pc x); reflexivity. Qed.
Lemma OneSnap_step s e : Inv O s -> OneSnap s -> keeps_snap e = true -> OneSnap (step O s e).
Proof.
  intros I H P. destruct e as [snap|g snap|g T|g h b|g T|t|t]; cbn [step keeps_snap] in *.
  - intros g g' T c E1 E2. destruct (graph_ok O s snap [] I) as (_ & X & K); [auto|]. destruct (K _ _ _ E1) as [A1|(_ & A1)]; [|discriminate A1]. destruct (K _ _ _ E2) as [A2|(_ & A2)]; [|discriminate A2]. pose proof (H _ _ _ _ A1 A2) as W.
    apply entry_range in A1. apply entry_range in A2. unfold snap_at in *. cbn [s_graphs]. rewrite !nth_snoc. destruct (Nat.eqb_spec g (length (s_graphs s))); [lia|]. destruct (Nat.eqb_spec g' (length (s_graphs s))); [lia|]. exact W.
  - destruct snap as [y|]; [discriminate P|]. destruct (nth_error (s_graphs s) g) as [x|] eqn:G; [|exact H].
    set (s1 := mkSt _ _ _ _ _ _). assert (W : exists k : nat -> nat, forall g', (forall T c, entry s1 g' T = Some c -> entry s (k g') T = Some c) /\ (g' < length (s_graphs s1) -> snap_at s1 g' = snap_at s (k g'))).
    { exists (fun g' => if g' =? length (s_graphs s) then g else g'). intros g'. unfold entry, snap_at, s1. cbn [s_graphs]. rewrite nth_snoc. destruct (Nat.eqb_spec g' (length (s_graphs s))) as [-> |N]; [rewrite G; auto|auto]. }
    destruct W as (k & W). intros g1 g2 T c E1 E2. pose proof (entry_range _ _ _ _ E1) as R1. pose proof (entry_range _ _ _ _ E2) as R2. destruct (W g1) as (W1 & W1'), (W g2) as (W2 & W2'). rewrite (W1' R1), (W2' R2). eauto.
  - destruct (Nat.ltb_spec g (length (s_graphs s))) as [L|L]; [|exact H]. unfold get. destruct (computed g T s) as [s0 c] eqn:E. cbn. eapply OneSnap_computed; eauto.
  - destruct (Nat.ltb_spec g (length (s_graphs s))) as [L|L]; [|exact H]. unfold provide. destruct (computed g (Flag h) s) as [s0 c] eqn:E. assert (OneSnap s0) by (eapply OneSnap_computed; eauto). destruct (content s0 c); auto.
  - destruct (Nat.ltb_spec g (length (s_graphs s))) as [L|L]; [|exact H]. destruct (computed g T s) as [s0 c] eqn:E. assert (OneSnap s0) by (eapply OneSnap_computed; eauto). auto.
  - unfold advance. destruct (nth_error (s_threads s) t) as [[|f below]|] eqn:E; try exact H. pose proof (chain_top _ _ _ _ _ (I_stack _ _ I t _ E)) as (KG & KE & _). destruct (f_pc f) as [|got].
    + destruct (content s (f_cell f)); [exact H|exact H|]. apply (OneSnap_same s); [|exact H]. apply ret_graphs.
    + destruct (next O (f_task f) got) as [T|h|h|v|].
      * destruct (computed (f_graph f) T s) as [s0 c] eqn:EC. assert (OneSnap s0) by (eapply OneSnap_computed; eauto). auto.
      * unfold get. destruct (computed (f_graph f) (Flag h) s) as [s0 c] eqn:EC. assert (OneSnap s0) by (eapply OneSnap_computed; eauto). auto.
      * exact H.
      * apply (OneSnap_same s); [|exact H]. rewrite ret_graphs. reflexivity.
      * apply (OneSnap_same s); [|exact H]. apply unwind_graphs.
  - destruct (nth_error (s_threads s) t) as [[|f below]|] eqn:E; try exact H. destruct (f_pc f); [exact H|]. apply (OneSnap_same s); [|exact H]. apply unwind_graphs.
Qed.
Lemma OneSnap_run es : forall s, Inv O s -> OneSnap s -> forallb keeps_snap es = true -> OneSnap (run O s es).
Proof.
  induction es as [|e es IH]; intros s I H A; [exact H|]. cbn in A. apply andb_true_iff in A as (A1 & A2). apply IH; [apply step_ok; exact I|apply OneSnap_step; auto|exact A2].
Qed.
Lemma world es g h n : forallb keeps_snap es = true -> done (run O init es) g (Comp h) (VComp (Some n)) ->
  exists m x y, nth_error (s_runs (run O init es)) n = Some m /\ m_kind m = h /\ nth_error (s_graphs (run O init es)) (m_graph m) = Some x /\ nth_error (s_graphs (run O init es)) g = Some y /\ g_snap x = g_snap y.
Proof.
  intros A D. pose proof (run_Inv O es) as I. assert (H : OneSnap (run O init es)) by (apply OneSnap_run; [apply Inv_init|intros [|g0] g' T c Q; discriminate Q|exact A]).
  destruct (done_just _ _ _ _ _ I D) as (g' & c & E & E' & F & Q). cbn in Q. destruct Q as [Q|[(Q & _)|(k & Q & _ & M)]]; try discriminate Q. injection Q as <-. pose proof (H _ _ _ _ E E') as W. unfold snap_at in W.
  apply entry_range in E. apply entry_range in E'. destruct (nth_error (s_graphs (run O init es)) g) as [y|] eqn:Y; [|apply nth_error_None in Y; lia]. destruct (nth_error (s_graphs (run O init es)) g') as [x|] eqn:X; [|apply nth_error_None in X; lia].
  exists (mkM g' h c), x, y. cbn in *. split; [exact M|]. split; [reflexivity|]. split; [exact X|]. split; [reflexivity|]. congruence.
Qed.
End World.
