(** Proofs about coverage: texts, the program that is run, counts. *)
From Coq Require Import String Ascii List Arith Bool Lia.
From Verif Require Import CovModel CovSpec.
Import ListNotations.
Local Open Scope nat_scope.
Local Open Scope list_scope.

(** ** Induction *)
Section node_ind2.
Context (P : node -> Prop) (H : forall k sp t cs, Forall P cs -> P (Node k sp t cs)).
Fixpoint node_ind2 (n : node) : P n :=
  match n with
  | Node k sp t cs => H k sp t cs ((fix go l : Forall P l := match l with [] => Forall_nil _ | c :: l' => Forall_cons _ (node_ind2 c) (go l') end) cs)
  end.
End node_ind2.

(** ** The walk, case by case *)
Definition vblock (n : node) (i : nat) : list piece * list (nat * mkind) :=
  let '(p, m) := seq_with (visit Visit) (children n) (S i) in
  ([Added (codes "{" ++ [10]); Pc i] ++ own n ++ p ++ [Added [10]; Pc (S i + length m); Added (codes "}")],
   (first_span (children n), OpenBrace) :: m ++ [(last_span (children n), CloseBrace)]).

Definition vfirst :=
  fix first (l : list node) (i : nat) : list piece * list (nat * mkind) :=
    match l with
    | [] => ([], [])
    | c :: l' => if is_expr c then visit Visit c i else first l' i
    end.

Definition vplain (n : node) (i : nat) : list piece * list (nat * mkind) :=
  match n with
  | Node KBlock _ _ _ => vblock n i
  | Node KContext _ _ cs =>
      let '(p, m) := vfirst cs i in
      ([Orig (codes "context"); Added (codes " (")] ++ p ++ [Added (codes ")")], m)
  | Node k _ _ cs =>
      let '(p, m) := seq_with (fun c i => visit (child_mode k cs c) c i) cs i in
      (own n ++ p, m)
  end.

Lemma visit_eq : forall md n i,
  visit md n i =
  match md with
  | Visit => vplain n i
  | Block => vblock n i
  | ShowSet =>
      let '(p, m) := vplain n (S i) in
      ([Added (codes "__it => {"); Pc i] ++ p ++ [Added (10 :: codes "__it; }" ++ [10])], (nspan n, Show) :: m)
  | ShowFn =>
      let '(p, m) := vplain n i in
      ([Added (codes "{" ++ 10 :: codes "let __cov_show_body = ")] ++ p
       ++ [Added (10 :: codes "__it => {"); Pc (i + length m);
           Added (codes "if type(__cov_show_body) == function { __cov_show_body(__it); } else { __cov_show_body } } }" ++ [10])],
       m ++ [(nspan n, Show)])
  end.
Proof. intros md [k sp t cs] i. destruct md; reflexivity. Qed.

Lemma seq_with_eq : forall A (f : A -> nat -> list piece * list (nat * mkind)) l i,
  seq_with f l i =
  match l with
  | [] => ([], [])
  | c :: l' =>
      (fst (f c i) ++ fst (seq_with f l' (i + length (snd (f c i)))),
       snd (f c i) ++ snd (seq_with f l' (i + length (snd (f c i)))))
  end.
Proof.
  intros A f [|c l] i; [reflexivity|]. cbn [seq_with]. destruct (f c i) as [p m]. cbn [fst snd].
  fold (seq_with f). destruct (seq_with f l (i + length m)). reflexivity.
Qed.

(** ** Numerals *)
Lemma dec_step : forall fuel n, n < fuel -> numeral n (dec fuel n).
Proof.
  induction fuel; intros n Hn; [lia|]. cbn [dec].
  assert (Hm : n mod 10 < 10) by (apply Nat.mod_upper_bound; lia).
  destruct (n <? 10) eqn:E.
  - apply Nat.ltb_lt in E. rewrite Nat.mod_small by lia. cbn [app]. repeat split.
    + constructor; [lia|constructor].
    + unfold value_of. cbn [fold_left]. lia.
    + discriminate.
    + cbn [hd]. lia.
  - apply Nat.ltb_ge in E.
    assert (Hq : n / 10 < n) by (apply Nat.div_lt; lia).
    destruct (IHfuel (n / 10)) as (A & B & C & D); [lia|].
    assert (Hpos : n / 10 <> 0). { intro Hz. apply Nat.div_small_iff in Hz; lia. }
    repeat split.
    + apply Forall_app. split; [exact A|]. constructor; [lia|constructor].
    + unfold value_of in *. rewrite fold_left_app, B. cbn [fold_left].
      pose proof (Nat.div_mod n 10 ltac:(lia)). lia.
    + intro Hx. apply app_eq_nil in Hx. tauto.
    + intros _. destruct (dec fuel (n / 10)) as [|x l]; [tauto|]. cbn [app hd] in *. apply D, Hpos.
Qed.

Lemma pc_call : forall i, is_call i (text_of_piece (Pc i)).
Proof. intro i. exists (dec (S i) i). split; [apply dec_step; lia|reflexivity]. Qed.

(** ** C115: what is new *)
Definition part_of (p : piece) : part :=
  match p with Orig t => Kept t | Added t => New t | Pc i => New (text_of_piece (Pc i)) end.

Lemma calls_own : forall i n, calls i (map part_of (own n)) i.
Proof. intros i [k sp [|c t] cs]; cbn; constructor. Qed.

Lemma calls_seq : forall (f : node -> nat -> list piece * list (nat * mkind)) l i,
  Forall (fun c => forall i, calls i (map part_of (fst (f c i))) (i + length (snd (f c i)))) l ->
  calls i (map part_of (fst (seq_with f l i))) (i + length (snd (seq_with f l i))).
Proof.
  intros f l. induction l as [|c l IH]; intros i H.
  - cbn. rewrite Nat.add_0_r. constructor.
  - rewrite seq_with_eq. cbn [fst snd]. inversion H; subst. rewrite map_app, app_length.
    eapply calls_app; [apply H2|]. rewrite Nat.add_assoc. apply IH, H3.
Qed.

Lemma calls_visit : forall n md i,
  calls i (map part_of (fst (visit md n i))) (i + length (snd (visit md n i))).
Proof.
  induction n as [k sp t cs IH] using node_ind2. set (n := Node k sp t cs).
  assert (HB : forall i, calls i (map part_of (fst (vblock n i))) (i + length (snd (vblock n i)))).
  { intro i. unfold vblock.
    pose proof (calls_seq (visit Visit) cs (S i)) as Hs.
    assert (Hf : Forall (fun c => forall i, calls i (map part_of (fst (visit Visit c i))) (i + length (snd (visit Visit c i)))) cs)
      by (eapply Forall_impl; [|exact IH]; cbn beta; auto).
    specialize (Hs Hf). change (children n) with cs.
    destruct (seq_with (visit Visit) cs (S i)) as [p m]. cbn [fst snd] in *.
    rewrite !map_app. cbn [length]. rewrite app_length. cbn [length].
    replace (i + S (length m + 1)) with (S (S i + length m)) by lia.
    rewrite (app_assoc (map part_of (own n))).
    apply (calls_block i _ (map part_of (own n) ++ map part_of p) (S i + length m)); [apply pc_call| |apply pc_call].
    eapply calls_app; [apply calls_own|exact Hs]. }
  assert (HP : forall i, calls i (map part_of (fst (vplain n i))) (i + length (snd (vplain n i)))).
  { intro i.
    assert (HG : forall k', (forall i, calls i (map part_of (fst (seq_with (fun c i => visit (child_mode k' cs c) c i) cs i)))
               (i + length (snd (seq_with (fun c i => visit (child_mode k' cs c) c i) cs i))))).
    { intros k' i'. apply calls_seq. eapply Forall_impl; [|exact IH]. cbn beta. auto. }
    assert (HO : forall k', calls i
       (map part_of (fst (let '(p, m) := seq_with (fun c i => visit (child_mode k' cs c) c i) cs i in (own n ++ p, m))))
       (i + length (snd (let '(p, m) := seq_with (fun c i => visit (child_mode k' cs c) c i) cs i in (own n ++ p, m))))).
    { intro k'. specialize (HG k' i). destruct (seq_with (fun c i => visit (child_mode k' cs c) c i) cs i) as [p m].
      cbn [fst snd] in *. rewrite map_app. eapply calls_app; [apply calls_own|exact HG]. }
    destruct k; try exact (HO _).
    - exact (HB i).
    - cbn [vplain n].
      assert (HF : forall i, calls i (map part_of (fst (vfirst cs i))) (i + length (snd (vfirst cs i)))).
      { clear -IH. induction cs as [|c cs IHc]; intro i; cbn [vfirst].
        - cbn. rewrite Nat.add_0_r. constructor.
        - inversion IH; subst. destruct (is_expr c); [apply H1|]. apply IHc, H2. }
      specialize (HF i). destruct (vfirst cs i) as [p m]. cbn [fst snd] in *. rewrite !map_app.
      apply (calls_context i (map part_of p)). exact HF. }
  intros md i. rewrite visit_eq. destruct md.
  - apply HP.
  - apply HB.
  - specialize (HP (S i)). destruct (vplain n (S i)) as [p m]. cbn [fst snd] in *. rewrite !map_app. cbn [length].
    replace (i + S (length m)) with (S i + length m) by lia.
    apply (calls_showset i _ (map part_of p)); [apply pc_call|exact HP].
  - specialize (HP i). destruct (vplain n i) as [p m]. cbn [fst snd] in *. rewrite !map_app, app_length. cbn [length].
    replace (i + (length m + 1)) with (S (i + length m)) by lia.
    apply (calls_show i (map part_of p)); [exact HP|apply pc_call].
Qed.

(** ** C115: what is kept *)
Lemma own_kept : forall n, flat_map kept_text (map part_of (own n)) = ntext n.
Proof. intros [k sp [|c t] cs]; cbn; [|rewrite app_nil_r]; reflexivity. Qed.

Definition kept (p : list piece) : list nat := flat_map kept_text (map part_of p).

Lemma kept_app : forall a b, kept (a ++ b) = kept a ++ kept b.
Proof. intros. unfold kept. rewrite map_app. apply flat_map_app. Qed.

Lemma kept_seq : forall (f : node -> nat -> list piece * list (nat * mkind)) l i,
  Forall (fun c => forall i, trims c (kept (fst (f c i)))) l ->
  exists xs, Forall2 trims l xs /\ kept (fst (seq_with f l i)) = concat xs.
Proof.
  intros f l. induction l as [|c l IH]; intros i H; [exists []; split; [constructor|reflexivity]|].
  rewrite seq_with_eq. cbn [fst]. inversion H; subst.
  destruct (IH (i + length (snd (f c i))) H3) as (xs & H4 & H5).
  exists (kept (fst (f c i)) :: xs). split; [constructor; auto|]. rewrite kept_app, H5. reflexivity.
Qed.

Lemma contexts_all : forall l,
  (fix go l := match l with [] => True | c :: l' => contexts_ok c /\ go l' end) l <-> Forall contexts_ok l.
Proof.
  induction l as [|c l IH]; split; intro H; auto.
  - constructor; [apply H|apply IH, H].
  - inversion H; subst. split; [assumption|]. apply IH. assumption.
Qed.

Lemma vfirst_last : forall w b i, (forall c, In c w -> nkind c = KToken) -> nkind b <> KToken ->
  vfirst (w ++ [b]) i = visit Visit b i.
Proof.
  induction w as [|c w IH]; intros b i H Hb; cbn [app vfirst].
  - unfold is_expr. destruct (nkind b); try reflexivity. congruence.
  - unfold is_expr. rewrite H by (left; reflexivity). apply IH; [|exact Hb]. intros. apply H. right. assumption.
Qed.

Lemma kept_visit : forall n md i, contexts_ok n -> trims n (kept (fst (visit md n i))).
Proof.
  induction n as [k sp t cs IH] using node_ind2. intros md i [Hk Hc]. apply contexts_all in Hc.
  set (n := Node k sp t cs).
  assert (HA : Forall (fun c => forall md i, trims c (kept (fst (visit md c i)))) cs).
  { apply Forall_forall. intros c Hin md' i'. rewrite Forall_forall in IH, Hc. auto. }
  assert (Ho : kept (own n) = t) by (apply own_kept).
  assert (HB : forall i, trims n (kept (fst (vblock n i)))).
  { intro i'. unfold vblock. change (children n) with cs.
    destruct (kept_seq (visit Visit) cs (S i')) as (xs & H1 & H2); [eapply Forall_impl; [|exact HA]; cbn beta; auto|].
    destruct (seq_with (visit Visit) cs (S i')) as [p m]. cbn [fst] in *.
    rewrite !kept_app, Ho, H2.
    replace (kept [Added (codes "{" ++ [10]); Pc i'] ++ t ++ concat xs ++ kept [Added [10]; Pc (S i' + length m); Added (codes "}")])
      with (t ++ concat xs) by (cbn; rewrite app_nil_r; reflexivity).
    constructor. exact H1. }
  assert (HO : forall k' i, trims n (kept (fst (let '(p, m) := seq_with (fun c i => visit (child_mode k' cs c) c i) cs i in (own n ++ p, m))))).
  { intros k' i'.
    destruct (kept_seq (fun c i => visit (child_mode k' cs c) c i) cs i') as (xs & H1 & H2); [eapply Forall_impl; [|exact HA]; cbn beta; auto|].
    destruct (seq_with (fun c i => visit (child_mode k' cs c) c i) cs i') as [p m]. cbn [fst] in *.
    rewrite kept_app, Ho, H2. constructor. exact H1. }
  assert (HP : forall i, trims n (kept (fst (vplain n i)))).
  { intro i'. destruct k; try exact (HO _ _); [exact (HB _)|].
    destruct (Hk eq_refl) as (-> & s & w & b & -> & Hw & Hb). cbn [vplain n].
    cbn [vfirst is_expr nkind]. fold vfirst.
    rewrite vfirst_last by assumption.
    assert (Hbt : trims b (kept (fst (visit Visit b i')))).
    { rewrite Forall_forall in HA. apply HA. right. apply in_or_app. right. left. reflexivity. }
    destruct (visit Visit b i') as [p m]. cbn [fst] in *. rewrite !kept_app.
    replace (kept [Orig (codes "context"); Added (codes " (")] ++ kept p ++ kept [Added (codes ")")]) with (codes "context" ++ kept p)
      by (cbn; rewrite app_nil_r; reflexivity).
    constructor; assumption. }
  rewrite visit_eq. destruct md.
  - apply HP.
  - apply HB.
  - specialize (HP (S i)). destruct (vplain n (S i)) as [p m]. cbn [fst] in *. rewrite !kept_app.
    cbn. rewrite app_nil_r. exact HP.
  - specialize (HP i). destruct (vplain n i) as [p m]. cbn [fst] in *. rewrite !kept_app.
    cbn. rewrite app_nil_r. exact HP.
Qed.

Lemma no_context_all : forall l,
  (fix go l := match l with [] => True | c :: l' => no_context c /\ go l' end) l <-> Forall no_context l.
Proof.
  induction l as [|c l IH]; split; intro H; auto.
  - constructor; [apply H|apply IH, H].
  - inversion H; subst. split; [assumption|]. apply IH. assumption.
Qed.

Lemma trims_src : forall n x, no_context n -> trims n x -> x = src n.
Proof.
  induction n as [k sp t cs IH] using node_ind2. intros x [Hk Hc] Ht. apply no_context_all in Hc.
  inversion Ht; subst; [|congruence]. cbn [src]. f_equal.
  clear Ht Hk. match goal with H : Forall2 trims _ _ |- _ => revert IH Hc; induction H; intros IH Hc end; [reflexivity|].
  inversion IH; inversion Hc; subst. cbn. f_equal; auto.
Qed.

Lemma no_context_ok : forall n, no_context n -> contexts_ok n.
Proof.
  induction n as [k sp t cs IH] using node_ind2. intros [Hk Hc]. apply no_context_all in Hc.
  split; [congruence|]. apply contexts_all. rewrite Forall_forall in *. auto.
Qed.

(** ** C115: the places that are reported *)
Lemma first_span_in : forall cs, first_span cs = 0 \/ In (first_span cs) (map nspan cs).
Proof. intros [|c cs]; cbn; tauto. Qed.
Lemma last_span_in : forall cs, last_span cs = 0 \/ In (last_span cs) (map nspan cs).
Proof.
  intros [|c cs]; cbn [last_span]; [tauto|]. destruct (nth_error (rev cs) 0) as [d|] eqn:E; cbn [span_opt]; [|tauto].
  right. right. apply in_map. apply in_rev. eapply nth_error_In. exact E.
Qed.

Lemma spans_self : forall n, In (nspan n) (spans_of n).
Proof. intros [k sp t cs]. left. reflexivity. Qed.

Lemma spans_sub : forall k sp t cs x, In x (flat_map spans_of cs) -> In x (spans_of (Node k sp t cs)).
Proof. intros. right. assumption. Qed.

Lemma in_spans : forall cs x, In x (map nspan cs) -> In x (flat_map spans_of cs).
Proof.
  intros cs x H. apply in_map_iff in H. destruct H as (c & <- & Hc). apply in_flat_map. exists c. split; [exact Hc|apply spans_self].
Qed.

Definition placed (n : node) (m : list (nat * mkind)) : Prop :=
  Forall (fun x => fst x = 0 \/ In (fst x) (spans_of n)) m.

Lemma placed_seq : forall (f : node -> nat -> list piece * list (nat * mkind)) k sp t l0 l i,
  (forall c, In c l -> In c l0) ->
  Forall (fun c => forall i, placed c (snd (f c i))) l -> placed (Node k sp t l0) (snd (seq_with f l i)).
Proof.
  intros f k sp t l0 l. induction l as [|c l IH]; intros i Hin H; [constructor|].
  rewrite seq_with_eq. cbn [snd]. inversion H; subst. apply Forall_app. split.
  - eapply Forall_impl; [|apply H2]. intros x [Hx|Hx]; [left; exact Hx|right]. apply spans_sub.
    apply in_flat_map. exists c. split; [apply Hin; left; reflexivity|exact Hx].
  - apply IH; [|assumption]. intros. apply Hin. right. assumption.
Qed.

Lemma placed_visit : forall n md i, placed n (snd (visit md n i)).
Proof.
  induction n as [k sp t cs IH] using node_ind2. intros md i. set (n := Node k sp t cs).
  assert (HB : forall i, placed n (snd (vblock n i))).
  { intro i'. unfold vblock. change (children n) with cs.
    pose proof (placed_seq (visit Visit) k sp t cs cs (S i') (fun c h => h)) as Hs.
    destruct (seq_with (visit Visit) cs (S i')) as [p m]. cbn [snd] in *.
    constructor; [|apply Forall_app; split; [apply Hs; eapply Forall_impl; [|exact IH]; cbn beta; auto|constructor; [|constructor]]]; cbn [fst].
    - destruct (first_span_in cs); [left; assumption|right; apply spans_sub, in_spans; assumption].
    - destruct (last_span_in cs); [left; assumption|right; apply spans_sub, in_spans; assumption]. }
  assert (HO : forall k' i, placed n (snd (let '(p, m) := seq_with (fun c i => visit (child_mode k' cs c) c i) cs i in (own n ++ p, m)))).
  { intros k' i'. pose proof (placed_seq (fun c i => visit (child_mode k' cs c) c i) k sp t cs cs i' (fun c h => h)) as Hs.
    destruct (seq_with (fun c i => visit (child_mode k' cs c) c i) cs i') as [p m]. cbn [snd] in *.
    apply Hs. eapply Forall_impl; [|exact IH]; cbn beta; auto. }
  assert (HP : forall i, placed n (snd (vplain n i))).
  { intro i'. destruct k; try exact (HO _ _); [exact (HB _)|]. cbn [vplain n].
    assert (Hf : forall l, (forall c, In c l -> In c cs) -> placed n (snd (vfirst l i'))).
    { induction l as [|c l IHl]; intro Hin; cbn [vfirst]; [constructor|]. destruct (is_expr c).
      - rewrite Forall_forall in IH. specialize (IH c (Hin c (or_introl eq_refl)) Visit i').
        eapply Forall_impl; [|exact IH]. intros x [Hx|Hx]; [left; exact Hx|right]. apply spans_sub, in_flat_map. exists c. split; [apply Hin; left; reflexivity|exact Hx].
      - apply IHl. intros. apply Hin. right. assumption. }
    specialize (Hf cs (fun c h => h)). destruct (vfirst cs i'). exact Hf. }
  rewrite visit_eq. destruct md.
  - apply HP.
  - apply HB.
  - specialize (HP (S i)). destruct (vplain n (S i)) as [p m]. cbn [snd] in *. constructor; [right; left; reflexivity|exact HP].
  - specialize (HP i). destruct (vplain n i) as [p m]. cbn [snd] in *. apply Forall_app. split; [exact HP|].
    constructor; [right; left; reflexivity|constructor].
Qed.

Lemma part_texts : forall l, flat_map part_text (map part_of l) = flat_map text_of_piece l.
Proof. induction l as [|[t|t|i] l IH]; cbn [map flat_map]; [reflexivity|..]; rewrite IH; reflexivity. Qed.

Lemma instrument_pieces : forall root,
  fst (instrument root) = flat_map text_of_piece (fst (visit Visit root 0)) /\
  snd (instrument root) = snd (visit Visit root 0).
Proof. intro root. unfold instrument. destruct (visit Visit root 0). split; reflexivity. Qed.

(** The text begins as the program does and nothing is put before the first
    thing of the program but in front of blocks. *)

(** ** C116: the program that is run *)
Definition wrap (o c i : nat) (r : expr * list (nat * mkind)) : expr * list (nat * mkind) :=
  let '(e, m) := r in
  (EBlock 0 0 [EPc i; e; EPc (S i + length m)], (o, OpenBrace) :: m ++ [(c, CloseBrace)]).

Definition blocky (md : option (nat * nat)) (e : expr) : option (nat * nat) :=
  match e with EBlock o c _ => Some (o, c) | _ => md end.

Definition seqT (f : expr -> nat -> expr * list (nat * mkind)) :=
  fix go (l : list expr) (i : nat) : list expr * list (nat * mkind) :=
    match l with
    | [] => ([], [])
    | e :: l' =>
        let '(e1, m1) := f e i in
        let '(l1, m2) := go l' (i + length m1) in
        (e1 :: l1, m1 ++ m2)
    end.

Definition innerT (T : option (nat * nat) -> expr -> nat -> expr * list (nat * mkind)) (md : option (nat * nat)) (e : expr) (i : nat)
    : expr * list (nat * mkind) :=
  let bm ids := match md with None => Some ids | Some _ => None end in
  match e with
  | EAtom _ | EText _ | EReturn0 | EBreak | EContinue | EPc _ => (e, [])
  | ELet x a => let '(a', m) := T None a i in (ELet x a', m)
  | EAssign x a => let '(a', m) := T None a i in (EAssign x a', m)
  | EReturn a => let '(a', m) := T None a i in (EReturn a', m)
  | EOp o a b =>
      let '(a', m) := T None a i in let '(b', m') := T None b (i + length m) in (EOp o a' b', m ++ m')
  | EApp a b =>
      let '(a', m) := T None a i in let '(b', m') := T None b (i + length m) in (EApp a' b', m ++ m')
  | EBlock o c es => let '(es', m) := seqT (T None) es i in (EBlock 0 0 es', m)
  | EContent es => let '(es', m) := seqT (T None) es i in (EContent es', m)
  | EIf1 q o c a =>
      let '(q', m) := T None q i in let '(a', m') := T (bm (o, c)) a (i + length m) in (EIf1 q' 0 0 a', m ++ m')
  | EIf2 q o c a o' c' b =>
      let '(q', m) := T None q i in
      let '(a', m') := T (bm (o, c)) a (i + length m) in
      let '(b', m2) := T (bm (o', c')) b (i + length m + length m') in
      (EIf2 q' 0 0 a' 0 0 b', m ++ m' ++ m2)
  | EWhile q o c a =>
      let '(q', m) := T None q i in let '(a', m') := T (bm (o, c)) a (i + length m) in (EWhile q' 0 0 a', m ++ m')
  | EFor x q o c a =>
      let '(q', m) := T None q i in let '(a', m') := T (bm (o, c)) a (i + length m) in (EFor x q' 0 0 a', m ++ m')
  | EClo x o c a => let '(a', m') := T (bm (o, c)) a i in (EClo x 0 0 a', m')
  end.

Fixpoint T (md : option (nat * nat)) (e : expr) (i : nat) {struct e} : expr * list (nat * mkind) :=
  match blocky md e with
  | None => innerT T md e i
  | Some (o, c) => wrap o c i (innerT T md e (S i))
  end.

Lemma T_eq : forall md e i,
  T md e i = match blocky md e with None => innerT T md e i | Some (o, c) => wrap o c i (innerT T md e (S i)) end.
Proof. intros md e i. destruct e; reflexivity. Qed.

(** Induction on expressions *)
Section expr_ind2.
Context (P : expr -> Prop)
  (H1 : forall t, P (EAtom t)) (H2 : forall t, P (EText t)) (H3 : forall x a, P a -> P (ELet x a))
  (H4 : forall x a, P a -> P (EAssign x a)) (H5 : forall o a b, P a -> P b -> P (EOp o a b))
  (H6 : forall a b, P a -> P b -> P (EApp a b)) (H7 : P EReturn0) (H8 : forall a, P a -> P (EReturn a))
  (H9 : P EBreak) (H10 : P EContinue) (H11 : forall o c es, Forall P es -> P (EBlock o c es))
  (H12 : forall es, Forall P es -> P (EContent es)) (H13 : forall q o c a, P q -> P a -> P (EIf1 q o c a))
  (H14 : forall q o c a o' c' b, P q -> P a -> P b -> P (EIf2 q o c a o' c' b))
  (H15 : forall q o c a, P q -> P a -> P (EWhile q o c a)) (H16 : forall x q o c a, P q -> P a -> P (EFor x q o c a))
  (H17 : forall x o c a, P a -> P (EClo x o c a)) (H18 : forall j, P (EPc j)).
Fixpoint expr_ind2 (e : expr) : P e :=
  let all := fix go (l : list expr) : Forall P l := match l with [] => Forall_nil _ | c :: l' => Forall_cons _ (expr_ind2 c) (go l') end in
  match e with
  | EAtom t => H1 t | EText t => H2 t | ELet x a => H3 x a (expr_ind2 a) | EAssign x a => H4 x a (expr_ind2 a)
  | EOp o a b => H5 o a b (expr_ind2 a) (expr_ind2 b) | EApp a b => H6 a b (expr_ind2 a) (expr_ind2 b)
  | EReturn0 => H7 | EReturn a => H8 a (expr_ind2 a) | EBreak => H9 | EContinue => H10
  | EBlock o c es => H11 o c es (all es) | EContent es => H12 es (all es)
  | EIf1 q o c a => H13 q o c a (expr_ind2 q) (expr_ind2 a)
  | EIf2 q o c a o' c' b => H14 q o c a o' c' b (expr_ind2 q) (expr_ind2 a) (expr_ind2 b)
  | EWhile q o c a => H15 q o c a (expr_ind2 q) (expr_ind2 a)
  | EFor x q o c a => H16 x q o c a (expr_ind2 q) (expr_ind2 a)
  | EClo x o c a => H17 x o c a (expr_ind2 a) | EPc i => H18 i
  end.
End expr_ind2.

Lemma go_all : forall (P : expr -> Prop) l,
  (fix go l := match l with [] => True | c :: l' => P c /\ go l' end) l <-> Forall P l.
Proof.
  intro P. induction l as [|c l IH]; split; intro H; auto.
  - constructor; [apply H|apply IH, H].
  - inversion H; subst. split; [assumption|]. apply IH. assumption.
Qed.

(** ** The environment only grows *)
Definition grows (b : bool) (env : list (list nat * value)) (r : out) : Prop :=
  match snd r with
  | Ok _ env' _ => length env <= length env' /\ (b = true \/ length env' = length env)
  | _ => True
  end.

Lemma grows_bind : forall b1 b2 env r k,
  grows b1 env r -> (forall v env' fl, grows b2 env' (k v env' fl)) -> grows (b1 || b2) env (bind r k).
Proof.
  intros b1 b2 env [t x] k H1 H2. unfold bind. destruct x as [| |v env1 fl1]; [exact I|exact I|].
  specialize (H2 v env1 fl1). destruct (k v env1 fl1) as [t' x']. unfold grows in *. cbn [snd] in *.
  destruct x'; auto. destruct b1, b2; cbn in *; split; try lia.
Qed.

Lemma leave_length : forall env env' : list (list nat * value), length env <= length env' -> length (leave env env') = length env.
Proof. intros. unfold leave. rewrite skipn_length. lia. Qed.

Lemma set_var_length : forall x v env env', set_var x v env = Some env' -> length env' = length env.
Proof.
  induction env as [|[y w] env IH]; intros env' H; cbn in H; [discriminate|].
  destruct (eqt x y); [injection H as <-; reflexivity|].
  destruct (set_var x v env); [|discriminate]. injection H as <-. cbn. f_equal. apply IH. reflexivity.
Qed.

Lemma grows_stmts : forall L ev es acc env,
  (forall e, In e es -> forall env, grows true env (ev e env Go)) -> grows true env (stmts L ev es acc env).
Proof.
  intros L ev es. induction es as [|e es IH]; intros acc env H; cbn [stmts].
  - unfold grows. cbn. lia.
  - apply (grows_bind true true); [apply H; left; reflexivity|]. intros v env' fl.
    destruct (join L acc v); [|exact I]. destruct fl; try (unfold grows; cbn; lia).
    apply IH. intros. apply H. right. assumption.
Qed.

Lemma grows_framed : forall o c env fl r, grows true env r -> grows false env (framed o c env fl r).
Proof.
  intros o c env fl [t [| |v env' fl']] H; try exact I. unfold grows in *. cbn in *.
  rewrite leave_length; lia.
Qed.

Lemma grows_scoped : forall env fl r, grows true env r -> grows false env (scoped env fl r).
Proof.
  intros env fl [t [| |v env' fl']] H; try exact I. unfold grows, scoped in *. cbn in *.
  rewrite leave_length; lia.
Qed.

Lemma grows_reported : forall b o c env fl r, grows b env r -> grows b env (reported o c fl r).
Proof. intros b o c env fl [t [| |v env' fl']] H; exact H. Qed.

Lemma grows_mono : forall b env r, grows b env r -> grows true env r.
Proof. intros b env [t [| |v env' fl']] H; try exact I. unfold grows in *. cbn in *. intuition. Qed.

Lemma grows_body : forall f b o c e env fl,
  (forall env fl, grows b env (f e env fl)) -> grows b env (body f o c e env fl).
Proof. intros f b o c e env fl H. destruct e; cbn [body]; try apply grows_reported; apply H. Qed.

Lemma grows_whiles : forall L bq bb q b n acc env,
  (forall env fl, grows bq env (q env fl)) -> (forall env fl, grows bb env (b env fl)) ->
  grows (bq || bb) env (whiles L q b n acc env).
Proof.
  intros L bq bb q b n. induction n; intros acc env Hq Hb; cbn [whiles]; [exact I|].
  replace (bq || bb) with (bq || (bb || (bq || bb))) by (destruct bq, bb; reflexivity).
  apply grows_bind; [apply Hq|]. intros v env1 fl1.
  destruct (is_true L v) as [[|]|]; [| |exact I].
  - apply grows_bind; [apply Hb|]. intros w env2 fl2. destruct (join L acc w); [|exact I].
    destruct fl2; try (apply IHn; assumption); unfold grows; cbn; lia.
  - unfold grows; cbn. lia.
Qed.

Lemma grows_fors : forall L x b l acc env fl,
  (forall env fl, grows true env (b env fl)) -> grows true env (fors L x b l acc env fl).
Proof.
  intros L x b l. induction l as [|t l IH]; intros acc env fl Hb; cbn [fors].
  - unfold grows; cbn; lia.
  - specialize (Hb ((x, VBase t) :: env) fl) as Hbb.
    destruct (b ((x, VBase t) :: env) fl) as [t1 [| |v env2 fl2]]; try exact I.
    unfold grows in Hbb. cbn in Hbb. cbn [bind].
    assert (Hl : length (leave env env2) = length env) by (apply leave_length; lia).
    destruct (join L acc v) as [acc'|]; [|exact I].
    specialize (IH acc' (leave env env2) Go Hb).
    destruct fl2; unfold grows in *; cbn [snd].
    + destruct (fors L x b l acc' (leave env env2) Go) as [t2 [| |]]; cbn [snd] in *; auto; intuition lia.
    + lia.
    + destruct (fors L x b l acc' (leave env env2) Go) as [t2 [| |]]; cbn [snd] in *; auto; intuition lia.
    + lia.
Qed.

Lemma grows_ev : forall L call n e env fl, grows (binds e) env (ev L call n e env fl).
Proof.
  intros L call n. induction e using expr_ind2; intros env fl; cbn [ev binds].
  - destruct (find_var t env); [|destruct (lit L t)]; unfold grows; cbn; auto; lia.
  - unfold grows; cbn; lia.
  - replace true with (binds e || true) by (destruct (binds e); reflexivity).
    apply grows_bind; [apply IHe|]. intros. unfold grows; cbn; lia.
  - replace (binds e) with (binds e || false) by (destruct (binds e); reflexivity).
    apply grows_bind; [apply IHe|]. intros v env' fl'.
    destruct (set_var x v env') eqn:E; [|exact I]. apply set_var_length in E. unfold grows; cbn; lia.
  - apply grows_bind; [apply IHe1|]. intros v env1 fl1.
    replace (binds e2) with (binds e2 || false) by (destruct (binds e2); reflexivity).
    apply grows_bind; [apply IHe2|]. intros w env2 fl2.
    destruct v, w; try exact I. destruct (prim L o t t0); [|exact I]. unfold grows; cbn; lia.
  - apply grows_bind; [apply IHe1|]. intros v env1 fl1.
    replace (binds e2) with (binds e2 || false) by (destruct (binds e2); reflexivity).
    apply grows_bind; [apply IHe2|]. intros w env2 fl2. unfold apply.
    destruct v as [| |x o c b cenv]; try exact I. destruct (call o c b ((x, w) :: cenv)) as [t9 r9].
    destruct r9 as [| |v8 env9 [| | |[v9|]]]; try exact I; unfold grows; cbn; lia.
  - unfold grows; cbn; lia.
  - replace (binds e) with (binds e || false) by (destruct (binds e); reflexivity).
    apply grows_bind; [apply IHe|]. intros. unfold grows; cbn; lia.
  - unfold grows; cbn; lia.
  - unfold grows; cbn; lia.
  - apply grows_framed, grows_stmts. intros e Hin env'. eapply grows_mono. rewrite Forall_forall in H. apply H, Hin.
  - apply grows_scoped, grows_stmts. intros e Hin env'. eapply grows_mono. rewrite Forall_forall in H. apply H, Hin.
  - apply grows_bind; [apply IHe1|]. intros v env1 fl1.
    destruct (is_true L v) as [[|]|]; [|unfold grows; cbn; lia|exact I]. apply grows_body. apply IHe2.
  - rewrite <- orb_assoc. apply grows_bind; [apply IHe1|]. intros v env1 fl1.
    destruct (is_true L v) as [[|]|]; [| |exact I].
    + pose proof (grows_body (ev L call n) (binds e2) o c e2 env1 fl1 IHe2) as Hg.
      destruct (binds e2); [exact Hg|]. destruct (binds e3); [eapply grows_mono; exact Hg|exact Hg].
    + pose proof (grows_body (ev L call n) (binds e3) o' c' e3 env1 fl1 IHe3) as Hg.
      destruct (binds e2); [eapply grows_mono; exact Hg|exact Hg].
  - replace (binds e1 || binds e2) with ((binds e1 || binds e2) || false) by (destruct (binds e1), (binds e2); reflexivity).
    apply grows_bind.
    + apply grows_whiles; [apply IHe1|]. intros. apply grows_body, IHe2.
    + intros. unfold grows; cbn; lia.
  - apply grows_scoped. apply (grows_bind true true).
    + eapply grows_mono, IHe1.
    + intros v env1 fl1. destruct v; try exact I. destruct (items L t); [|exact I].
      apply grows_fors. intros. eapply grows_mono. apply grows_body, IHe2.
  - unfold grows; cbn; lia.
  - unfold grows; cbn; lia.
Qed.
