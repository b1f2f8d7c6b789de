(** Proofs about the description of types (C182). *)
From Coq Require Import List Arith Bool Lia.
From Verif Require Import DescModel DescSpec.
Import ListNotations.

Lemma ty_ind2 (P : ty -> Prop) : (forall w, P (Word w)) -> P Silent -> (forall ts, Forall P ts -> P (Union ts)) -> (forall a b, Forall P a -> Forall P b -> P (Let a b)) ->
  (forall s, P s -> P (With s)) -> (forall p n r b, P (Func p n r b)) -> forall t, P t.
Proof.
  intros HW HS HU HL Hw HF. fix F 1. intros [w| |ts|a b|s|p n r b]; [apply HW|exact HS| | |apply Hw, F|apply HF].
  - apply HU. induction ts; constructor; [apply F|assumption].
  - apply HL; [induction a|induction b]; constructor; (apply F || assumption).
Qed.
Fixpoint sizes (ts : list ty) : nat := match ts with [] => 0 | x :: r => size x + sizes r end.
Fixpoint named_sizes (l : list (text * ty)) : nat := match l with [] => 0 | (_, x) :: r => size x + named_sizes r end.
Lemma size_union ts : size (Union ts) = S (sizes ts).
Proof. reflexivity. Qed.
Lemma size_let a b : size (Let a b) = S (sizes a + sizes b).
Proof. reflexivity. Qed.
Lemma size_func p n r b : size (Func p n r b) = S (sizes p + named_sizes n + match r with Some x => size x | None => 0 end + match b with Some x => size x | None => 0 end).
Proof. reflexivity. Qed.
Lemma sizes_app a b : sizes (a ++ b) = sizes a + sizes b.
Proof. induction a; cbn [app sizes]; lia. Qed.
Lemma sizes_in t ts : In t ts -> size t <= sizes ts.
Proof. induction ts as [|x r IH]; cbn [sizes]; [intros []|intros [->|H]; [lia|specialize (IH H); lia]]. Qed.
Lemma named_in n t l : In (n, t) l -> size t <= named_sizes l.
Proof. induction l as [|[m x] r IH]; cbn [named_sizes]; [intros []|intros [E|H]; [injection E as -> ->; lia|specialize (IH H); lia]]. Qed.
(** The collection of texts and functions. *)
Fixpoint iter (ts : list ty) (rs : list text) (fs : list ty) : list text * list ty :=
  match ts with
  | [] => (rs, fs)
  | x :: r => let '(rs1, fs1, w) := describe x rs fs in iter r (match w with [] => rs1 | _ => w :: rs1 end) fs1
  end.
Lemma describe_union ts rs fs : describe (Union ts) rs fs = let '(a, b) := iter ts rs fs in (a, b, []).
Proof. reflexivity. Qed.
Lemma describe_let a b rs fs : describe (Let a b) rs fs = let '(rs1, fs1) := iter a rs fs in let '(rs2, fs2) := iter b rs1 fs1 in (rs2, fs2, []).
Proof. reflexivity. Qed.
Definition ok (t : ty) : Prop := forall rs fs, exists rs' ffs w, describe t rs fs = (rs', fs ++ ffs, w) /\ functions t ffs /\
  (forall x, In x rs' <-> In x rs \/ says t x) /\ (forall x, plain t x <-> x = w /\ w <> []).
Lemma iter_ok ts : Forall ok ts -> forall rs fs, exists rs' fss, iter ts rs fs = (rs', fs ++ concat fss) /\ Forall2 functions ts fss /\
  (forall x, In x rs' <-> In x rs \/ exists t, In t ts /\ (plain t x \/ says t x)).
Proof.
  induction 1 as [|t ts H _ IH]; intros rs fs; cbn [iter].
  - exists rs, []. cbn. rewrite app_nil_r. split; [reflexivity|]. split; [constructor|]. intros x. split; [auto|]. intros [I|(t & [] & _)]. exact I.
  - destruct (H rs fs) as (rs1 & ff & w & E & F & S & P). rewrite E.
    destruct (IH (match w with [] => rs1 | _ => w :: rs1 end) (fs ++ ff)) as (rs' & fss & E' & F' & S'). rewrite E'. exists rs', (ff :: fss).
    split; [cbn [concat]; now rewrite app_assoc|]. split; [now constructor|]. intros x. rewrite S'.
    assert (X : In x (match w with [] => rs1 | _ => w :: rs1 end) <-> In x rs \/ plain t x \/ says t x).
    { rewrite P. destruct w as [|c w]; [rewrite S; split; [tauto|intros [?|[[_ N]|?]]; [auto|now destruct N|auto]]|].
      split.
      - intros [<-|I]; [right; left; split; [reflexivity|discriminate]|]. apply S in I. tauto.
      - intros [I|[[-> _]|I]]; [right; apply S; auto|now left|right; apply S; auto]. }
    rewrite X. split.
    + intros [[I|I]|(u & I & Q)]; [now left|right; exists t; split; [now left|exact I]|right; exists u; split; [now right|exact Q]].
    + intros [I|(u & [<-|I] & Q)]; [auto|auto|right; exists u; auto].
Qed.
Lemma all_ok t : ok t.
Proof.
  induction t as [w| |ts IH|a b IHa IHb|s IH|p n r b] using ty_ind2; intros rs fs.
  - exists rs, [], w. cbn. rewrite app_nil_r. split; [reflexivity|]. split; [constructor|]. split; [intros x; split; [auto|intros [I|I]; [exact I|inversion I]]|].
    intros x. split; [intros P; inversion P; subst; auto|intros [-> N]; now constructor].
  - exists rs, [], []. cbn. rewrite app_nil_r. split; [reflexivity|]. split; [constructor|]. split; [intros x; split; [auto|intros [I|I]; [exact I|inversion I]]|].
    intros x. split; [intros P; inversion P|intros [_ N]; now destruct N].
  - rewrite describe_union. destruct (iter_ok ts IH rs fs) as (rs' & fss & -> & F & S). exists rs', (concat fss), []. split; [reflexivity|]. split; [now constructor|]. split.
    + intros x. rewrite S. split; (intros [I|I]; [now left|right]); [destruct I as (t & I & Q); econstructor; eassumption|inversion I; subst; eauto].
    + intros x. split; [intros P; inversion P|intros [_ N]; now destruct N].
  - rewrite describe_let. destruct (iter_ok a IHa rs fs) as (rs1 & fa & -> & Fa & Sa). destruct (iter_ok b IHb rs1 (fs ++ concat fa)) as (rs2 & fb & -> & Fb & Sb).
    exists rs2, (concat (fa ++ fb)), []. split; [now rewrite concat_app, app_assoc|]. split; [constructor; now apply Forall2_app|]. split.
    + intros x. rewrite Sb, Sa. split.
      * intros [[I|(t & I & Q)]|(t & I & Q)]; [now left|right; eapply S_lower; eassumption|right; eapply S_upper; eassumption].
      * intros [I|I]; [auto|]. inversion I; subst; [left; right; eauto|right; eauto].
    + intros x. split; [intros P; inversion P|intros [_ N]; now destruct N].
  - cbn [describe]. destruct (IH rs fs) as (rs' & ff & w & E & F & S & P). exists rs', ff, w. split; [exact E|]. split; [now constructor|]. split.
    + intros x. rewrite S. split; (intros [I|I]; [now left|right]); [now constructor|now inversion I].
    + intros x. rewrite <- P. split; [intros H; now inversion H|now constructor].
  - exists rs, [Func p n r b], []. cbn. split; [reflexivity|]. split; [constructor|]. split; [intros x; split; [auto|intros [I|I]; [exact I|inversion I]]|].
    intros x. split; [intros P; inversion P|intros [_ N]; now destruct N].
Qed.
Lemma functions_one t : forall a b, functions t a -> functions t b -> a = b.
Proof.
  assert (L : forall ts, Forall (fun t => forall a b, functions t a -> functions t b -> a = b) ts -> forall x y, Forall2 functions ts x -> Forall2 functions ts y -> x = y).
  { induction 1 as [|t0 ts H _ IH]; intros x y X Y; inversion X; inversion Y; subst; [reflexivity|]. f_equal; [eauto|apply IH; assumption]. }
  induction t as [w| |ts IH|l u IHl IHu|s IH|p n r o] using ty_ind2; intros a b A B; inversion A; inversion B; subst; try reflexivity; eauto.
  - f_equal. eapply L; eassumption.
  - f_equal. eapply (L (l ++ u)); [now apply Forall_app|eassumption..].
Qed.
Lemma functions_are t fs : functions t fs -> Forall (fun f => size f <= size t /\ exists p n r b, f = Func p n r b) fs.
Proof.
  assert (L : forall ts, Forall (fun t => forall fs, functions t fs -> Forall (fun f => size f <= size t /\ exists p n r b, f = Func p n r b) fs) ts ->
    forall x, Forall2 functions ts x -> Forall (fun f => size f <= sizes ts /\ exists p n r b, f = Func p n r b) (concat x)).
  { induction 1 as [|t0 ts H _ IH]; intros x X; inversion X; subst; cbn [concat]; [constructor|]. cbn [sizes]. apply Forall_app. split.
    - eapply Forall_impl; [|eauto]. cbn. intros f [? ?]. split; [lia|assumption].
    - eapply Forall_impl; [|eauto]. cbn. intros f [? ?]. split; [lia|assumption]. }
  revert fs. induction t as [w| |ts IH|l u IHl IHu|s IH|p n r o] using ty_ind2; intros fs A; inversion A; subst.
  - constructor.
  - constructor.
  - rewrite size_union. eapply Forall_impl; [|eapply L; eassumption]. cbn. intros f [? ?]. split; [lia|assumption].
  - rewrite size_let, <- sizes_app. eapply Forall_impl; [|eapply (L (l ++ u)); [now apply Forall_app|eassumption]]. cbn. intros f [? ?]. split; [lia|assumption].
  - cbn [size]. eapply Forall_impl; [|eauto]. cbn. intros f [? ?]. split; [lia|assumption].
  - constructor; [|constructor]. split; [lia|]. eauto.
Qed.
(** The order. *)
Lemma less_before a b : less a b = true <-> before a b.
Proof.
  revert b. induction a as [|x a IH]; intros [|y b]; cbn [less].
  - split; [discriminate|intros H; inversion H].
  - split; [constructor|reflexivity].
  - split; [discriminate|intros H; inversion H].
  - rewrite orb_true_iff, andb_true_iff, Nat.ltb_lt, Nat.eqb_eq, IH. split.
    + intros [L|[-> B]]; [now constructor|now apply B_same].
    + intros H. inversion H; subst; auto.
Qed.
Lemma before_trans a b c : before a b -> before b c -> before a c.
Proof.
  intros H. revert c. induction H as [x r|x y a b L|x a b H IH]; intros c K; inversion K; subst; try (constructor; lia); try (now constructor).
  apply B_same. auto.
Qed.
Lemma before_not a : ~ before a a.
Proof. induction a as [|x a IH]; intros H; inversion H; subst; [lia|auto]. Qed.
Lemma before_total a b : before a b \/ a = b \/ before b a.
Proof.
  revert b. induction a as [|x a IH]; intros [|y b]; [auto|left; constructor|right; right; constructor|].
  destruct (lt_eq_lt_dec x y) as [[L| ->]|L]; [left; now constructor| |right; right; now constructor].
  destruct (IH b) as [H|[->|H]]; [left; now apply B_same|auto|right; right; now apply B_same].
Qed.
Lemma put_in w l x : In x (put w l) <-> x = w \/ In x l.
Proof.
  induction l as [|y r IH]; cbn [put]; [cbn; intuition|]. destruct (less w y) eqn:A; [cbn; intuition|]. destruct (less y w) eqn:B.
  - cbn [In]. rewrite IH. intuition.
  - assert (w = y). { destruct (before_total w y) as [H|[H|H]]; [apply less_before in H; congruence|exact H|apply less_before in H; congruence]. } subst y. cbn [In]. intuition.
Qed.
Lemma put_rising w l : rising l -> rising (put w l).
Proof.
  induction 1 as [|y r F R IH]; cbn [put]; [repeat constructor|]. destruct (less w y) eqn:A.
  - apply less_before in A. constructor; [|now constructor]. constructor; [exact A|]. eapply Forall_impl; [|exact F]. intros z Z. eapply before_trans; eassumption.
  - destruct (less y w) eqn:B; [|now constructor]. apply less_before in B. constructor; [|exact IH]. apply Forall_forall. intros z Z. apply put_in in Z as [->|Z]; [exact B|].
    rewrite Forall_forall in F. auto.
Qed.
Lemma ascending_ok l : rising (ascending l) /\ forall x, In x (ascending l) <-> In x l.
Proof.
  unfold ascending. induction l as [|w l [R I]]; cbn [fold_right]; [split; [constructor|reflexivity]|]. split; [now apply put_rising|]. intros x. rewrite put_in, I. cbn. intuition.
Qed.
Lemma rising_one a b : rising a -> rising b -> (forall x, In x a <-> In x b) -> a = b.
Proof.
  intros A. revert b. induction A as [|w a F R IH]; intros b B H.
  - destruct b as [|y b]; [reflexivity|]. exfalso. apply (H y). now left.
  - destruct B as [|y b G S]; [exfalso; apply (H w); now left|]. rewrite Forall_forall in F, G.
    assert (w = y).
    { destruct (proj1 (H w) (or_introl eq_refl)) as [->|I]; [reflexivity|]. destruct (proj2 (H y) (or_introl eq_refl)) as [->|J]; [reflexivity|].
      exfalso. exact (before_not w (before_trans _ _ _ (F y J) (G w I))). }
    subst y. f_equal. apply IH; [exact S|]. intros x. split; intros I.
    + destruct (proj1 (H x) (or_intror I)) as [<-|J]; [exfalso; exact (before_not w (F w I))|exact J].
    + destruct (proj2 (H x) (or_intror I)) as [<-|J]; [exfalso; exact (before_not w (G w I))|exact J].
Qed.
(** The cache. *)
Definition fine (A : list ty) (c : cache) : Prop := forall u w, lookup u c = Some w -> In u A \/ part u w.
Definition unwrap (o : option text) : text := match o with Some w => w | None => any end.
Definition good (root_ : cache -> ty -> option text * cache) (A : list ty) (t : ty) : Prop :=
  forall c, fine A c -> exists r c', root_ c t = (r, c') /\ part t (unwrap r) /\ fine A c'.
Lemma or_any_ok r A t c : good r A t -> fine A c -> exists w c', or_any r c t = (w, c') /\ part t w /\ fine A c'.
Proof. intros G F. unfold or_any. destruct (G c F) as (o & c' & -> & P & F'). exists (unwrap o), c'. split; [destruct o; reflexivity|]. now split. Qed.
Lemma positional_ok r A ts : Forall (good r A) ts -> forall c, fine A c -> exists ws c', positional r c ts = (ws, c') /\ all_parts ts ws /\ fine A c'.
Proof.
  induction 1 as [|t ts G _ IH]; intros c F; cbn [positional]; [exists [], c; split; [reflexivity|]; split; [constructor|exact F]|].
  destruct (or_any_ok _ _ _ _ G F) as (w & c1 & -> & P & F1). destruct (IH c1 F1) as (ws & c2 & -> & Q & F2). exists (w :: ws), c2. split; [reflexivity|]. split; [now constructor|exact F2].
Qed.
Lemma named_ok r A ts : Forall (fun x => good r A (snd x)) ts -> forall c, fine A c -> exists ws c', by_name r c ts = (ws, c') /\ named_parts ts ws /\ fine A c'.
Proof.
  induction 1 as [|[n t] ts G _ IH]; intros c F; cbn [by_name snd] in *; [exists [], c; split; [reflexivity|]; split; [constructor|exact F]|].
  destruct (or_any_ok _ _ _ _ G F) as (w & c1 & -> & P & F1). destruct (IH c1 F1) as (ws & c2 & -> & Q & F2). exists ((n ++ colon ++ w) :: ws), c2. split; [reflexivity|]. split; [now constructor|exact F2].
Qed.
Lemma func_ok r A p n o b t fs c : functions t (Func p n o b :: fs) -> Forall (good r A) p -> Forall (fun x => good r A (snd x)) n ->
  (forall x, o = Some x -> good r A x) -> (forall x, b = Some x -> good r A x) -> fine A c ->
  exists w c', func_text r c p n o b = (w, c') /\ called t [w] /\ fine A c'.
Proof.
  intros FF Gp Gn Go Gb F. unfold func_text. destruct (positional_ok _ _ _ Gp c F) as (ps & c1 & -> & P & F1). destruct (named_ok _ _ _ Gn c1 F1) as (ns & c2 & -> & N & F2).
  assert (R : exists rs c3, match o with Some t => let '(w, c3) := or_any r c2 t in ([dots ++ w], c3) | None => ([], c2) end = (rs, c3) /\ rest_part o rs /\ fine A c3).
  { destruct o as [x|]; [|exists [], c2; split; [reflexivity|]; split; [constructor|exact F2]]. destruct (or_any_ok _ _ _ _ (Go x eq_refl) F2) as (w & c3 & -> & Q & F3).
    exists [dots ++ w], c3. split; [reflexivity|]. split; [now constructor|exact F3]. }
  destruct R as (rs & c3 & -> & R & F3).
  assert (B : exists w c4, match b with Some t => or_any r c3 t | None => (any, c3) end = (w, c4) /\ body_part b w /\ fine A c4).
  { destruct b as [x|]; [|exists any, c3; split; [reflexivity|]; split; [constructor|exact F3]]. destruct (or_any_ok _ _ _ _ (Gb x eq_refl) F3) as (w & c4 & -> & Q & F4).
    exists w, c4. split; [reflexivity|]. split; [now constructor|exact F4]. }
  destruct B as (w & c4 & -> & B & F4). eexists _, c4. split; [reflexivity|]. split; [|exact F4]. eapply C_first; eassumption.
Qed.
Lemma fine_cons A c t w : fine (t :: A) c -> part t w -> fine A ((t, w) :: c).
Proof.
  intros F P u x. cbn [lookup]. destruct (ty_dec t u) as [->|N]; [intros E; injection E as <-; now right|]. intros E. destruct (F u x E) as [[->|I]|Q]; [now destruct N|now left|now right].
Qed.
Lemma root_ok n : forall A t, size t < n -> (forall u, In u A -> size t < size u) ->
  forall c, fine A c -> exists r c', describe_root n c t = (r, c') /\ (lookup t c = None -> described t r) /\ part t (unwrap r) /\ fine A c'.
Proof.
  induction n as [|n IH]; intros A t L AA c F; [lia|]. cbn [describe_root]. destruct (lookup t c) as [w|] eqn:K.
  - exists (Some w), c. split; [reflexivity|]. split; [discriminate|]. split; [|exact F]. destruct (F t w K) as [I|P]; [specialize (AA t I); lia|exact P].
  - destruct (all_ok t [] []) as (rs & ff & w & -> & FF & S & P). cbn [app].
    destruct w as [|x w].
    2:{ assert (D : described t (Some (x :: w))) by (constructor; apply P; split; [reflexivity|discriminate]). eexists _, c. split; [reflexivity|]. split; [intros _; exact D|]. split; [now constructor|exact F]. }
    assert (NP : forall x, ~ plain t x) by (intros x Q; apply P in Q as [_ N]; now destruct N).
    assert (F1 : fine (t :: A) ((t, self) :: c)).
    { intros u y. cbn [lookup]. destruct (ty_dec t u) as [->|N]; [intros _; left; now left|]. intros E. destruct (F u y E) as [I|Q]; [left; now right|now right]. }
    assert (X : exists rs' c2 cs, match ff with
                | Func pos named rest body :: _ => let '(x, c2) := func_text (describe_root n) ((t, self) :: c) pos named rest body in (rs ++ [x], c2)
                | _ => (rs, (t, self) :: c)
                end = (rs', c2) /\ called t cs /\ (forall x, In x rs' <-> says t x \/ In x cs) /\ fine (t :: A) c2).
    { pose proof (functions_are _ _ FF) as AF. destruct ff as [|f fs].
      - exists rs, ((t, self) :: c), []. split; [reflexivity|]. split; [now constructor|]. split; [|exact F1]. intros x. rewrite S. cbn. intuition.
      - inversion AF as [|? ? (SZ & p & m & o & b & ->) _]; subst. rewrite size_func in SZ.
        assert (GD : forall u, size u < size t -> good (describe_root n) (t :: A) u).
        { intros u SU c0 F0. destruct (IH (t :: A) u) with (c := c0) as (r & c' & E & _ & Q & F'); [lia| |exact F0|].
          - intros v [<-|I]; [exact SU|specialize (AA v I); lia].
          - exists r, c'. now split. }
        destruct (func_ok (describe_root n) (t :: A) p m o b t fs ((t, self) :: c) FF) as (w & c2 & -> & C & F2).
        + apply Forall_forall. intros u I. apply GD. apply sizes_in in I. lia.
        + apply Forall_forall. intros [k u] I. apply GD. apply named_in in I. cbn. lia.
        + intros u ->. apply GD. lia.
        + intros u ->. apply GD. lia.
        + exact F1.
        + exists (rs ++ [w]), c2, [w]. split; [reflexivity|]. split; [exact C|]. split; [|exact F2]. intros x. rewrite in_app_iff, S. cbn. intuition. }
    destruct X as (rs' & c2 & cs & -> & C & I & F2). destruct (ascending_ok rs') as [R J].
    assert (D : described t (match ascending rs' with [] => None | _ => Some (join bar (ascending rs')) end)).
    { eapply D_alts; [exact NP|exact C|exact R|]. intros x. now rewrite J, I. }
    destruct (ascending rs') as [|a l].
    + eexists _, _. split; [reflexivity|]. split; [intros _; exact D|]. assert (Q : part t any) by now apply Pt_none. split; [exact Q|now apply fine_cons].
    + eexists _, _. split; [reflexivity|]. split; [intros _; exact D|]. assert (Q : part t (join bar (a :: l))) by now apply Pt_some. split; [exact Q|now apply fine_cons].
Qed.
Lemma repr_described t : described t (repr t).
Proof.
  unfold repr. destruct (root_ok (S (size t)) [] t) with (c := @nil (ty * text)) as (r & c' & E & D & _); [lia|intros u []|intros u w; discriminate|]. rewrite E. apply D. reflexivity.
Qed.
Lemma plain_one t a b : plain t a -> plain t b -> a = b.
Proof. intros H. revert b. induction H; intros b K; inversion K; subst; auto. Qed.
Lemma described_one n : forall t a b, size t < n -> described t a -> described t b -> a = b.
Proof.
  induction n as [|n IH]; intros t a b L A B; [lia|].
  assert (PO : forall u x y, size u < size t -> part u x -> part u y -> x = y).
  { intros u x y SU X Y. inversion X; inversion Y; subst.
    - assert (E : Some x = Some y) by (eapply (IH u); [lia|eassumption..]). now injection E.
    - assert (E : Some x = None) by (eapply (IH u); [lia|eassumption..]). discriminate.
    - assert (E : None = Some y) by (eapply (IH u); [lia|eassumption..]). discriminate.
    - reflexivity. }
  inversion A as [? w P|? ls cs N C R I]; subst; inversion B as [? w' P'|? ls' cs' N' C' R' I']; subst.
  - f_equal. eapply plain_one; eassumption.
  - now apply N' in P.
  - now apply N in P'.
  - assert (EC : cs = cs').
    { inversion C as [? F|? p m o b fs ps ns rs q F Hp Hn Hr Hb]; subst; inversion C' as [? F'|? p' m' o' b' fs' ps' ns' rs' q' F' Hp' Hn' Hr' Hb']; subst.
      - reflexivity.
      - pose proof (functions_one _ _ _ F F'). discriminate.
      - pose proof (functions_one _ _ _ F F'). discriminate.
      - pose proof (functions_one _ _ _ F F') as E. injection E as <- <- <- <- _. pose proof (functions_are _ _ F) as AF. inversion AF as [|? ? [SZ _] _]; subst. rewrite size_func in SZ.
        assert (E1 : ps = ps').
        { assert (SP : forall u, In u p -> size u < size t) by (intros u Iu; apply sizes_in in Iu; lia). clear - SP PO Hp Hp'. revert ps' Hp'.
          induction Hp as [|u x us xs X _ IHp]; intros ps' Hp'; inversion Hp'; subst; [reflexivity|]. f_equal; [eapply (PO u); [apply SP; now left|assumption..]|]. apply IHp; [intros v V; apply SP; now right|assumption]. }
        assert (E2 : ns = ns').
        { assert (SP : forall k u, In (k, u) m -> size u < size t) by (intros k u Iu; apply named_in in Iu; lia). clear - SP PO Hn Hn'. revert ns' Hn'.
          induction Hn as [|k u x us xs X _ IHp]; intros ns' Hn'; inversion Hn'; subst; [reflexivity|]. f_equal; [do 2 f_equal; eapply (PO u); [apply (SP k); now left|assumption..]|].
          apply IHp; [intros k' v V; apply (SP k'); now right|assumption]. }
        assert (E3 : rs = rs'). { inversion Hr; subst; inversion Hr'; subst; [reflexivity|]. do 2 f_equal. eapply (PO t0); [lia|assumption..]. }
        assert (E4 : q = q'). { inversion Hb; subst; inversion Hb'; subst; [reflexivity|]. eapply (PO t0); [lia|assumption..]. }
        now subst. }
    subst cs'. assert (ls = ls') as ->; [|reflexivity]. apply rising_one; [exact R|exact R'|]. intros x. now rewrite I, I'.
Qed.
