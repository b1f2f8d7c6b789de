From Coq Require Import List Arith Bool Lia.
From Verif Require Import KindModel KindSpec.
Import ListNotations.

Section Ind.
Variable P : ty -> Prop.
Hypothesis HL : forall a b, Forall P a -> Forall P b -> P (Let a b).
Hypothesis HU : forall ts, Forall P ts -> P (Union ts).
Hypothesis HW : forall n t, P t -> P (With n t).
Hypothesis HO : forall t, match t with Let _ _ | Union _ | With _ _ => False | _ => True end -> P t.
Fixpoint ty_ind' (t : ty) : P t :=
  let all := fix all ts : Forall P ts := match ts with [] => Forall_nil _ | x :: r => Forall_cons _ (ty_ind' x) (all r) end in
  match t with
  | Let a b => HL a b (all a) (all b)
  | Union ts => HU ts (all ts)
  | With n u => HW n u (ty_ind' u)
  | u => HO u I
  end.
End Ind.

Definition each (ts : list ty) (c : checker) : checker := fold_left (fun c x => check x c) ts c.
Lemma check_let us ls c : check (Let us ls) c = each (us ++ ls) (reset c).
Proof.
  assert (E : forall ts c, (fix each ts c := match ts with [] => c | x :: r => each r (check x c) end) ts c = each ts c) by (induction ts as [|x r IH]; intros c0; [reflexivity|exact (IH (check x c0))]).
  unfold each. rewrite fold_left_app. change (fold_left (fun c x => check x c) us (reset c)) with (each us (reset c)). rewrite <- (E us). change (fold_left (fun c x => check x c) ls ?x) with (each ls x).
  rewrite <- (E ls). reflexivity.
Qed.
Lemma check_reset t c c' : check t c = check t c'.
Proof. destruct t; reflexivity. Qed.
Lemma each_last l x c : each (l ++ [x]) c = check x c.
Proof. unfold each. rewrite fold_left_app. cbn. apply check_reset. Qed.
Lemma check_leaf t c : (forall us ls, t <> Let us ls) ->
  (callable t /\ check t c = mkChecker [] [t]) \/ (~ callable t /\ exists s, t = VSym s /\ check t c = mkChecker [s] []) \/ (~ callable t /\ (forall s, t <> VSym s) /\ check t c = mkChecker [] []).
Proof.
  intros N. destruct t; try (exfalso; eapply N; reflexivity); try destruct k0;
    try (left; split; [exact I|reflexivity]); try (right; left; split; [intros []|eexists; split; reflexivity]); right; right; (split; [intros []|split; [discriminate|reflexivity]]).
Qed.
Lemma check_final : forall t c,
  (exists u, final t u /\ callable u /\ check t c = mkChecker [] [u]) \/ (exists s, final t (VSym s) /\ check t c = mkChecker [s] []) \/
  ((forall u, final t u -> ~ callable u /\ forall s, u <> VSym s) /\ check t c = mkChecker [] []).
Proof.
  assert (L : forall t, (forall us ls, t <> Let us ls) -> forall c,
    (exists u, final t u /\ callable u /\ check t c = mkChecker [] [u]) \/ (exists s, final t (VSym s) /\ check t c = mkChecker [s] []) \/
    ((forall u, final t u -> ~ callable u /\ forall s, u <> VSym s) /\ check t c = mkChecker [] [])).
  { intros t N c. destruct (check_leaf t c N) as [(C & E)|[(_ & s & -> & E)|(C & S & E)]].
    - left. exists t. split; [now constructor|]. now split.
    - right. left. exists s. split; [now constructor|assumption].
    - right. right. split; [|assumption]. intros u F. inversion F; subst; [now split|]. now exfalso; eapply N. }
  induction t as [us ls IHu IHl|ts IH|n t IH|t O] using ty_ind'; intros c.
  - rewrite check_let. assert (IH : Forall (fun t => forall c,
      (exists u, final t u /\ callable u /\ check t c = mkChecker [] [u]) \/ (exists s, final t (VSym s) /\ check t c = mkChecker [s] []) \/
      ((forall u, final t u -> ~ callable u /\ forall s, u <> VSym s) /\ check t c = mkChecker [] [])) (us ++ ls)) by (apply Forall_app; now split).
    remember (us ++ ls) as l eqn:El. destruct l as [|x l _] using rev_ind.
    + right. right. split; [|reflexivity]. intros u F. inversion F as [? N|? ? l' x' ? E]; subst; [now exfalso; eapply N|]. rewrite <- El in E. now destruct l'.
    + rewrite each_last. apply Forall_app in IH. destruct IH as (_ & IH). apply Forall_inv in IH.
      assert (FW : forall u, final x u -> final (Let us ls) u) by (intros u F; apply (final_let us ls l x u); [now symmetry|assumption]).
      assert (BW : forall u, final (Let us ls) u -> final x u).
      { intros u F. inversion F as [? N|? ? l' x' ? E F']; subst; [now exfalso; eapply N|]. rewrite <- El in E. apply app_inj_tail in E. destruct E as [_ <-]. exact F'. }
      destruct (IH (reset c)) as [(u & F & C & E)|[(s & F & E)|(N & E)]].
      * left. exists u. auto.
      * right. left. exists s. auto.
      * right. right. split; [|assumption]. intros u F. apply N. auto.
  - apply L. discriminate.
  - apply L. discriminate.
  - apply L. intros us ls ->. exact O.
Qed.
Lemma final_det t u u' : final t u -> final t u' -> u = u'.
Proof.
  intros F. revert u'. induction F as [t N|us ls l x u E F IH]; intros u' F'.
  - inversion F'; subst; [reflexivity|now exfalso; eapply N].
  - inversion F' as [? N|? ? l' x' ? E' F'']; subst; [now exfalso; eapply N|]. rewrite E in E'. apply app_inj_tail in E'. destruct E' as [_ <-]. now apply IH.
Qed.
(** Kinds. *)
Lemma kind_eqb_spec a b : kind_eqb a b = true <-> a = b.
Proof. destruct a, b; cbn; try (intuition congruence). rewrite Nat.eqb_eq. split; congruence. Qed.
Definition ffold (acc : option kind) (ts : list ty) : option kind := fold_left (fun a t => fold_step a (type_to_kind t)) ts acc.
Lemma ffold_fix ts : forall acc, (fix fold acc ts := match ts with [] => acc | x :: r => fold (fold_step acc (type_to_kind x)) r end) acc ts = ffold acc ts.
Proof. induction ts as [|x r IH]; intros acc; [reflexivity|]. exact (IH _). Qed.
Lemma kind_union ts : type_to_kind (Union ts) = match ffold None ts with Some k => k | None => KVariable end.
Proof. rewrite <- ffold_fix. reflexivity. Qed.
Lemma kind_let us ls : type_to_kind (Let us ls) = match ffold None (us ++ ls) with Some k => k | None => KVariable end.
Proof. unfold ffold. rewrite fold_left_app. fold (ffold None us). fold (ffold (ffold None us) ls). rewrite <- (ffold_fix us), <- ffold_fix. reflexivity. Qed.
Lemma ffold_variable ts : ffold (Some KVariable) ts = Some KVariable.
Proof. unfold ffold. induction ts as [|x r IH]; [reflexivity|exact IH]. Qed.
Lemma ffold_some k ts : ffold (Some k) ts = if forallb (fun t => kind_eqb k (type_to_kind t)) ts then Some k else Some KVariable.
Proof.
  induction ts as [|x r IH]; [reflexivity|]. unfold ffold. cbn [fold_left forallb]. fold (ffold (fold_step (Some k) (type_to_kind x)) r).
  destruct (kind_eqb k (type_to_kind x)) eqn:E; cbn [andb].
  - replace (fold_step (Some k) (type_to_kind x)) with (Some k); [exact IH|]. unfold fold_step. rewrite E. now destruct k.
  - replace (fold_step (Some k) (type_to_kind x)) with (Some KVariable); [apply ffold_variable|]. unfold fold_step. rewrite E. now destruct k.
Qed.
Lemma ffold_spec ts : (forall k, ts <> [] -> (forall t, In t ts -> type_to_kind t = k) -> match ffold None ts with Some k => k | None => KVariable end = k)
  /\ ((ts = [] \/ exists a b, In a ts /\ In b ts /\ type_to_kind a <> type_to_kind b) -> match ffold None ts with Some k => k | None => KVariable end = KVariable).
Proof.
  destruct ts as [|x r]; [split; [congruence|reflexivity]|]. unfold ffold. cbn [fold_left fold_step]. fold (ffold (Some (type_to_kind x)) r). rewrite ffold_some. split.
  - intros k _ H. rewrite (H x (or_introl eq_refl)). replace (forallb _ r) with true; [reflexivity|]. symmetry. apply forallb_forall. intros t I. apply kind_eqb_spec. symmetry. apply H. now right.
  - intros [H|(a & b & A & B & N)]; [discriminate|]. destruct (forallb _ r) eqn:F; [|reflexivity]. exfalso. apply N.
    assert (Q : forall t, In t (x :: r) -> type_to_kind t = type_to_kind x).
    { intros t [<-|I]; [reflexivity|]. rewrite forallb_forall in F. specialize (F t I). apply kind_eqb_spec in F. now symmetry. }
    now rewrite (Q a A), (Q b B).
Qed.
(** Functions. *)
Lemma minimum_step (P Q : nat -> Prop) o v : minimum P o -> (forall n, Q n <-> P n \/ n = v) -> minimum Q (match o with None => Some v | Some m => Some (Nat.min m v) end).
Proof.
  intros M H. destruct o as [m|]; cbn in *.
  - destruct M as [M L]. split.
    + apply H. destruct (Nat.min_spec m v) as [[_ ->]|[_ ->]]; [now left|now right].
    + intros n N. apply H in N. destruct N as [N| ->]; [specialize (L n N)|]; lia.
  - split; [apply H; now right|]. intros n N. apply H in N. destruct N as [N| ->]; [now apply M in N|lia].
Qed.
Lemma minimum_same (P Q : nat -> Prop) o : minimum P o -> (forall n, Q n <-> P n) -> minimum Q o.
Proof. destruct o as [m|]; cbn; intros M H; [destruct M as [M L]; split; [now apply H|intros n N; apply L; now apply H]|intros n N; apply H in N; now apply M in N]. Qed.
(** What one type adds: its signature if it has one. *)
Fixpoint base (t : ty) (pos : nat) : option (nat * sig) :=
  match t with
  | VType (Some s) | BType (Some s) | VFunc _ _ s | Func s | BElem _ s => Some (pos, s)
  | With n u => base u (pos + n)
  | _ => None
  end.
Lemma base_shift t : forall p, base t p = match base t 0 with Some (n, s) => Some (p + n, s) | None => None end.
Proof.
  induction t as [us ls _ _|ts _|n t IH|t O] using ty_ind'; intros p; try reflexivity.
  - cbn [base]. rewrite (IH (p + n)), (IH (0 + n)). destruct (base t 0) as [[k s]|]; [|reflexivity]. f_equal. f_equal. lia.
  - destruct t; try contradiction; cbn; rewrite ?Nat.add_0_r; try reflexivity; destruct k0; rewrite ?Nat.add_0_r; reflexivity.
Qed.
Lemma base_called t n s : base t 0 = Some (n, s) <-> called t n s.
Proof.
  split.
  - revert n s. induction t as [us ls _ _|ts _|m t IH|t O] using ty_ind'; intros n s H; try discriminate.
    + cbn [base] in H. rewrite base_shift in H. destruct (base t 0) as [[k u]|]; [|discriminate]. injection H as <- <-. cbn. constructor. now apply IH.
    + destruct t; try contradiction; cbn in H; try discriminate; try destruct k0; try discriminate; injection H as <- <-; constructor.
  - induction 1; try reflexivity. cbn [base]. rewrite base_shift, IHcalled. reflexivity.
Qed.
Fixpoint elemb (t : ty) : bool := match t with VFunc (Some _) _ _ | BElem _ _ => true | With _ u => elemb u | _ => false end.
Lemma elemb_spec t : elemb t = true <-> elemental t.
Proof.
  split.
  - induction t as [us ls _ _|ts _|m t IH|t O] using ty_ind'; intros H; try discriminate; [constructor; now apply IH|].
    destruct t; try contradiction; try discriminate; try destruct elem; try discriminate; constructor.
  - induction 1; [reflexivity|reflexivity|exact IHelemental].
Qed.
Fixpoint selfb (t : ty) : bool := match t with VFunc _ o _ => o | With _ u => selfb u | _ => false end.
Lemma selfb_spec t : selfb t = true <-> selfish t.
Proof.
  split.
  - induction t as [us ls _ _|ts _|m t IH|t O] using ty_ind'; intros H; try discriminate; [constructor; now apply IH|].
    destruct t; try contradiction; try discriminate. cbn in H. subst. constructor.
  - induction 1; [reflexivity|exact IHselfish].
Qed.
Lemma check_one_base f t pos : check_one f t pos =
  let g := mkFeat (f_min_pos f) (f_only_self f || (f_bound_self f && selfb t)) (f_min_named f) (f_bound_self f) (f_rest f) (f_content f) (f_elem f || elemb t) in
  match base t pos with Some (n, s) => check_sig g s n | None => g end.
Proof.
  revert pos. induction t as [us ls _ _|ts _|m t IH|t O] using ty_ind'; intros pos; cbv zeta.
  - cbn. rewrite andb_false_r, !orb_false_r. now destruct f.
  - cbn. rewrite andb_false_r, !orb_false_r. now destruct f.
  - cbn [check_one base selfb elemb]. rewrite IH. reflexivity.
  - destruct t; try contradiction; cbn; try destruct k0; try destruct elem; unfold check_sig; cbn; rewrite ?andb_false_r, ?orb_false_r, ?orb_true_r; try reflexivity; now destruct f.
Qed.
Lemma known_none bs : known bs [] (mkFeat None false None bs false false false).
Proof.
  unfold known. cbn [f_min_pos f_min_named f_rest f_content f_elem f_only_self f_bound_self minimum].
  repeat split; try (intros n (t & k & s & [] & _)); try discriminate.
  - intros (t & n & s & [] & _).
  - intros (t & n & s & [] & _).
  - intros (t & [] & _).
  - intros (_ & t & [] & _).
Qed.
Lemma known_step bs fns f t : known bs fns f -> known bs (fns ++ [t]) (check_one f t 0).
Proof.
  intros (P & N & R & C & E & S & B). rewrite check_one_base. cbv zeta.
  assert (IA : forall (Q : ty -> Prop), (exists u, In u (fns ++ [t]) /\ Q u) <-> (exists u, In u fns /\ Q u) \/ Q t).
  { intros Q. split.
    - intros (u & I & H). apply in_app_or in I. destruct I as [I|[<-|[]]]; [left; eauto|now right].
    - intros [(u & I & H)|H]; [exists u|exists t]; (split; [apply in_or_app|assumption]); [now left|right; now left]. }
  assert (IB : forall (Q : nat -> sig -> Prop), (exists u n s, In u (fns ++ [t]) /\ called u n s /\ Q n s) <-> (exists u n s, In u fns /\ called u n s /\ Q n s) \/ (exists n s, called t n s /\ Q n s)).
  { intros Q. split.
    - intros (u & n & s & I & H). apply in_app_or in I. destruct I as [I|[<-|[]]]; [left; eauto 6|right; eauto].
    - intros [(u & n & s & I & H)|(n & s & H)]; [exists u, n, s|exists t, n, s]; (split; [apply in_or_app|assumption]); [now left|right; now left]. }
  assert (EE : f_elem f || elemb t = true <-> exists u, In u (fns ++ [t]) /\ elemental u). { rewrite IA, orb_true_iff, E, elemb_spec. reflexivity. }
  assert (SS : f_only_self f || (f_bound_self f && selfb t) = true <-> bs = true /\ exists u, In u (fns ++ [t]) /\ selfish u).
  { rewrite IA, orb_true_iff, andb_true_iff, S, B, selfb_spec. tauto. }
  destruct (base t 0) as [[k s]|] eqn:BS.
  - apply base_called in BS.
    assert (ONE : forall (Q : nat -> sig -> Prop), (exists n s, called t n s /\ Q n s) <-> Q k s).
    { intros Q. split; [|eauto]. intros (n' & s' & CC & H). apply base_called in CC. apply base_called in BS. rewrite BS in CC. now injection CC as <- <-. }
    unfold check_sig. unfold known. cbn [f_min_pos f_min_named f_rest f_content f_elem f_only_self f_bound_self].
    split; [|split; [|split; [|split; [|split; [exact EE|split; [exact SS|exact B]]]]]].
    + eapply minimum_step; [exact P|]. intros n. rewrite (IB (fun n' s' => n = length (s_pos s') - n')), ONE. reflexivity.
    + eapply minimum_step; [exact N|]. intros n. rewrite (IB (fun n' s' => n = s_named s')), ONE. reflexivity.
    + rewrite (IB (fun _ s' => s_rest s' = true)), ONE, orb_true_iff, R. reflexivity.
    + rewrite (IB (fun n' s' => nth_error (s_pos s') n' = Some true)), ONE, orb_true_iff, C. destruct (nth_error (s_pos s) k) as [[]|]; intuition congruence.
  - assert (NONE : forall (Q : nat -> sig -> Prop), (exists n s, called t n s /\ Q n s) <-> False).
    { intros Q. split; [|intros []]. intros (n' & s' & CC & _). apply base_called in CC. congruence. }
    unfold known. cbn [f_min_pos f_min_named f_rest f_content f_elem f_only_self f_bound_self].
    split; [|split; [|split; [|split; [|split; [exact EE|split; [exact SS|exact B]]]]]].
    + eapply minimum_same; [exact P|]. intros n. rewrite (IB (fun n' s' => n = length (s_pos s') - n')), NONE. tauto.
    + eapply minimum_same; [exact N|]. intros n. rewrite (IB (fun n' s' => n = s_named s')), NONE. tauto.
    + rewrite (IB (fun _ s' => s_rest s' = true)), NONE, R. tauto.
    + rewrite (IB (fun n' s' => nth_error (s_pos s') n' = Some true)), NONE, C. tauto.
Qed.
Lemma known_all bs fns : known bs fns (feat_of bs fns).
Proof.
  unfold feat_of. induction fns as [|t fns IH] using rev_ind; [apply known_none|]. rewrite fold_left_app. cbn [fold_left]. now apply known_step.
Qed.
(** Names do not depend on one another. *)
Lemma one_reset math a parens c c' d : fst (one math a parens c d) = fst (one math a parens c' d).
Proof. destruct d as [n t]. unfold one. destruct (n =? 0); [reflexivity|]. rewrite (check_reset t c c'). reflexivity. Qed.
Lemma names_flat math a parens : forall ds c, names math a parens c ds = flat_map (fun d => fst (one math a parens (mkChecker [] []) d)) ds.
Proof.
  induction ds as [|d ds IH]; intros c; [reflexivity|]. cbn [names flat_map]. rewrite <- (one_reset math a parens c). destruct (one math a parens c d) as [is c']. cbn. now rewrite IH.
Qed.
