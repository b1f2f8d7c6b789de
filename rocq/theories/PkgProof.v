From Coq Require Import List NArith Arith Bool Lia.
From Verif Require Import DigModel DigProof PageModel PageProof PathModel PathSpec PathProof PkgModel PkgSpec.
Import ListNotations.
Open Scope nat_scope.

(** * Equality *)
Lemma ver_eqb_spec v w : ver_eqb v w = true <-> v = w.
Proof.
  destruct v as ((a, b), c), w as ((x, y), z). cbn. rewrite !andb_true_iff, !N.eqb_eq. split; [intros ((-> & ->) & ->); auto|intros [= -> -> ->]; auto].
Qed.
Lemma spec_eqb_spec p q : spec_eqb p q = true <-> p = q.
Proof.
  destruct p, q. unfold spec_eqb. cbn. rewrite !andb_true_iff, !text_eqb_spec, ver_eqb_spec.
  split; [intros ((-> & ->) & ->); auto|intros [= -> -> ->]; auto].
Qed.
Lemma spec_dec (p q : spec) : {p = q} + {p <> q}.
Proof. destruct (spec_eqb p q) eqn:E; [left; now apply spec_eqb_spec|right]. intros X. apply spec_eqb_spec in X. congruence. Qed.
Lemma spec_refl p : spec_eqb p p = true.
Proof. now apply spec_eqb_spec. Qed.
Lemma spec_neq p q : p <> q -> spec_eqb p q = false.
Proof. intros H. destruct (spec_eqb p q) eqn:E; auto. apply spec_eqb_spec in E. contradiction. Qed.
Lemma fs_same d p x s : s_fs (set_dir d p x s) d p = x.
Proof. cbn. rewrite spec_refl. now destruct d. Qed.
Lemma fs_other d p x s e q : d <> e \/ p <> q -> s_fs (set_dir d p x s) e q = s_fs s e q.
Proof. intros H. cbn. destruct d, e; cbn; auto; destruct H; try congruence; now rewrite spec_neq. Qed.

(** * Lists *)
Lemma nth_set {A} (x : A) : forall n l m, nth_error (set_nth n x l) m = if n =? m then option_map (fun _ => x) (nth_error l m) else nth_error l m.
Proof.
  induction n; destruct l; cbn; intros [|m]; cbn; auto. now destruct (n =? m).
Qed.
Lemma nth_snoc {A} (l : list A) (x : A) t y : nth_error (l ++ [x]) t = Some y -> nth_error l t = Some y \/ t = length l /\ y = x.
Proof.
  intros H. destruct (lt_dec t (length l)).
  - left. now rewrite nth_error_app1 in H.
  - right. rewrite nth_error_app2 in H by lia. destruct (t - length l) eqn:E; cbn in H; [|destruct n0; discriminate]. injection H as <-. split; auto. lia.
Qed.

(** * Names and directories *)
Lemma digit_ok n c : In c (print_num 10 n) -> (48 <= c <= 57)%N.
Proof.
  intros H. pose proof (print_chars 10 n ltac:(lia) ltac:(lia)) as F. rewrite Forall_forall in F. destruct (F _ H) as (d & D & ->).
  unfold dchar. destruct (N.ltb_spec d 10); lia.
Qed.
Lemma num_not n c : (c < 48)%N -> ~ In c (print_num 10 n).
Proof. intros H X. apply digit_ok in X. lia. Qed.
Lemma print_parse v : small v -> parse_ver (print_ver v) = Some v.
Proof.
  destruct v as ((a, b), c). cbn [small]. intros (A & B & C). assert (M : forall x : N, (x < 2 ^ 32)%N -> (x <= max32)%N) by (intro x; unfold max32; change (2 ^ 32)%N with 4294967296%N; lia). apply M in A, B, C. clear M. unfold parse_ver, print_ver.
  rewrite split_app, split_app, split_none by (apply num_not; lia). rewrite !parse_print by (auto; lia). reflexivity.
Qed.
Lemma print_ver_inj v w : print_ver v = print_ver w -> v = w.
Proof.
  destruct v as ((a, b), c), w as ((x, y), z). unfold print_ver. intros H. apply (f_equal (split 46%N)) in H.
  rewrite !split_app, !split_none in H by (apply num_not; lia). injection H as A B C.
  apply print_inj in A, B, C; try lia. congruence.
Qed.
Lemma ver_name v : name_ok (print_ver v) /\ ~ In 47%N (print_ver v).
Proof.
  destruct v as ((a, b), c). unfold print_ver.
  assert (X : ~ In 47%N (print_num 10 a ++ 46%N :: print_num 10 b ++ 46%N :: print_num 10 c)).
  { rewrite in_app_iff. cbn. rewrite in_app_iff. cbn. intros [H|[H|[H|[H|H]]]]; try discriminate; revert H; apply num_not; lia. }
  split; auto. pose proof (print_nonempty 10 a) as NE. pose proof (digit_ok a) as D. destruct (print_num 10 a) as [|d ds]; [congruence|].
  repeat split; try discriminate; auto; intros [= -> _]; specialize (D 46%N (or_introl eq_refl)); lia.
Qed.
Lemma ident_name n : ident n -> name_ok n.
Proof. intros (A & B & C). repeat split; auto; intros ->; apply C; cbn; auto. Qed.
Lemma comps_sub p : named p -> components (subdir p) = [Nor (ns p); Nor (name p); Nor (print_ver (ver p))].
Proof.
  intros (A & B). destruct (ver_name (ver p)) as (C & C2). unfold components, subdir.
  rewrite split_app, split_app, split_none by (auto; try apply A; apply B).
  pose proof (ident_name _ A) as A'. pose proof (ident_name _ B) as B'.
  cbn [flat_map]. rewrite !piece_name by auto. destruct (ns p) eqn:E; [now destruct A|]. reflexivity.
Qed.
Lemma dir_comps base p : named p -> pkg_dir base p = base ++ [Nor (ns p); Nor (name p); Nor (print_ver (ver p))].
Proof. intros H. unfold pkg_dir. rewrite comps_sub by auto. unfold join. cbn [fold_left push]. now rewrite <- !app_assoc. Qed.
Lemma dir_inj base p q : named p -> named q -> pkg_dir base p = pkg_dir base q -> p = q.
Proof.
  intros P Q. rewrite !dir_comps by auto. intros H. apply app_inv_head in H. injection H as A B C. apply print_ver_inj in C.
  destruct p, q; cbn in *; congruence.
Qed.

(** * Whole packages *)
Section Whole.
Context (whole : spec -> list nat).
Definition good (a : answer) : Prop := a_place a = Cache -> covers (a_files a) (whole (a_spec a)).
(** What is known of a call at a place in the code, given the directory of its package. *)
Definition okay (d : option (list nat)) (p : spec) (c : pc) : Prop :=
  match c with
  | Unpack false rest bad => bad <> Some false /\ (bad = None -> covers rest (whole p))
  | Unpack true rest bad => bad <> Some false /\ exists l, d = Some l /\ (bad = None -> forall f, In f (whole p) -> In f l \/ In f rest)
  | Check => exists l, d = Some l /\ covers l (whole p)
  | _ => True
  end.
Definition unp (c : pc) : Prop := match c with Unpack true _ _ => True | _ => False end.
Record inv (s : st) : Prop := {
  i_one : forall t u c d, nth_error (s_calls s) t = Some c -> nth_error (s_calls s) u = Some d -> c_spec c = c_spec d -> going c -> going d -> t = u;
  i_dir : forall p l, s_fs s Cache p = Some l -> covers l (whole p) \/ exists t c, nth_error (s_calls s) t = Some c /\ c_spec c = p /\ unp (c_pc c);
  i_okay : forall t c, nth_error (s_calls s) t = Some c -> okay (s_fs s Cache (c_spec c)) (c_spec c) (c_pc c);
  i_ans : Forall good (s_answers s) }.
Lemma inv_move s t p c c' s' : inv s -> nth_error (s_calls s) t = Some (mkCall p c) -> going (mkCall p c) ->
  s_calls s' = set_nth t (mkCall p c') (s_calls s) -> (forall q, q <> p -> s_fs s' Cache q = s_fs s Cache q) ->
  (forall l, s_fs s' Cache p = Some l -> covers l (whole p) \/ unp c') -> okay (s_fs s' Cache p) p c' -> Forall good (s_answers s') -> inv s'.
Proof.
  intros [O D K A] N G E F F1 F2 FA.
  assert (X : forall u d, nth_error (s_calls s') u = Some d -> u = t /\ d = mkCall p c' \/ u <> t /\ nth_error (s_calls s) u = Some d).
  { intros u d. rewrite E, nth_set. destruct (Nat.eqb_spec t u) as [->|Z]; [rewrite N; cbn; intros [= <-]; auto|intros H; right; split; auto]. }
  assert (T : nth_error (s_calls s') t = Some (mkCall p c')) by (rewrite E, nth_set, Nat.eqb_refl, N; reflexivity).
  constructor; auto.
  - intros t1 u c1 d1 H1 H2 S G1 G2. destruct (X _ _ H1) as [(-> & ->)|(Z1 & H1')], (X _ _ H2) as [(-> & ->)|(Z2 & H2')]; auto.
    + apply (O t u (mkCall p c) d1); auto.
    + apply (O t1 t c1 (mkCall p c)); auto.
    + apply (O t1 u c1 d1); auto.
  - intros q l H. destruct (spec_dec q p) as [->|Z].
    + destruct (F1 l H) as [C|U]; auto. right. exists t, (mkCall p c'). auto.
    + rewrite F in H by auto. destruct (D q l H) as [C|(u & d & H1 & <- & H3)]; auto. right. exists u, d. repeat split; auto.
      rewrite E, nth_set. destruct (Nat.eqb_spec t u) as [->|]; auto. rewrite N in H1. injection H1 as <-. now destruct Z.
  - intros u d H. destruct (X _ _ H) as [(-> & ->)|(Z & H')]; auto. pose proof (K u d H') as Y. destruct (spec_dec (c_spec d) p) as [Q|Q]; [|now rewrite F by auto].
    assert (NG : ~ going d) by (intros GD; apply Z; apply (O u t d (mkCall p c)); auto).
    unfold going in NG. destruct (c_pc d); auto; now destruct NG.
Qed.
Lemma add_in f x l : In x (add_file f l) <-> x = f \/ In x l.
Proof.
  unfold add_file. destruct (existsb (Nat.eqb f) l) eqn:E.
  - apply existsb_exists in E. destruct E as (y & H & Y). apply Nat.eqb_eq in Y. subst y. split; auto. intros [->|]; auto.
  - rewrite in_app_iff. cbn. split; [intros [H|[H|[]]]; auto|intros [H|H]; auto].
Qed.
Lemma inv_go s t : inv s -> inv (advance t s).
Proof.
  intros V. unfold advance. destruct (nth_error (s_calls s) t) as [(p, c)|] eqn:N; auto. cbn [c_spec c_pc].
  pose proof V as [O D K A]. pose proof (K t _ N) as OK. cbn [c_spec c_pc] in OK.
  assert (ME : going (mkCall p c) -> forall l, s_fs s Cache p = Some l -> covers l (whole p) \/ unp c).
  { intros G l H. destruct (D p l H) as [C|(u & d & H1 & H2 & H3)]; auto. right.
    assert (u = t) by (apply (O u t d (mkCall p c)); auto; unfold going; destruct (c_pc d); auto). subst u. rewrite N in H1. now injection H1 as <-. }
  destruct c as [| | |[|] rest bad| |r|]; auto.
  - destruct (if s_has s Data then s_fs s Data p else None) as [l|].
    + apply (inv_move s t p AtData (Over (Ok Data)) _ V N I); auto; try (intros l' H; destruct (ME I l' H); auto); cbn; auto.
      apply Forall_app. split; auto. repeat constructor. discriminate.
    + apply (inv_move s t p AtData AtCache _ V N I); auto; try (intros l' H; destruct (ME I l' H); auto); cbn; auto.
  - destruct (s_has s Cache).
    + destruct (s_fs s Cache p) as [l|] eqn:F.
      * destruct (ME I l eq_refl) as [C|[]]. apply (inv_move s t p AtCache (Over (Ok Cache)) _ V N I); auto; cbn; auto.
        -- rewrite F. intros l' [= <-]. auto.
        -- apply Forall_app. split; auto. repeat constructor. intros _. exact C.
      * destruct (text_eqb (ns p) preview).
        -- apply (inv_move s t p AtCache Asking _ V N I); auto; cbn; auto. rewrite F. discriminate.
        -- apply (inv_move s t p AtCache (Over NotFound) _ V N I); auto; cbn; auto. rewrite F. discriminate.
    + apply (inv_move s t p AtCache (Over NotFound) _ V N I); auto; try (intros l' H; destruct (ME I l' H); auto); cbn; auto.
  - destruct OK as (B & l & L & R). destruct rest as [|f rest].
    + destruct bad as [b|].
      * destruct b; [|now destruct B]. unfold give_up.
        apply (inv_move s t p (Unpack true [] (Some true)) (Over Failed) _ V N I); auto; try exact A.
        -- intros q Q. apply fs_other. right. congruence.
        -- intros l' H. cbn [goto s_fs] in H. rewrite fs_same in H. discriminate.
        -- exact I.
      * assert (C : covers l (whole p)) by (intros f H; destruct (R eq_refl f H) as [|[]]; auto).
        apply (inv_move s t p (Unpack true [] None) Check _ V N I); auto; cbn [goto s_fs s_answers]; auto.
        -- rewrite L. intros l' [= <-]. auto.
        -- exists l. auto.
    + rewrite L. apply (inv_move s t p (Unpack true (f :: rest) bad) (Unpack true rest bad) _ V N I); auto; try exact A.
      * intros q Q. apply fs_other. right. congruence.
      * intros l' _. right. exact I.
      * cbn [goto s_fs]. rewrite fs_same. cbn [okay]. split; auto. exists (add_file f l). split; auto. intros Z g G.
        destruct (R Z g G) as [H|[->|H]]; auto; left; apply add_in; auto.
  - apply (inv_move s t p (Unpack false rest bad) (Unpack true rest bad) _ V N I).
    + now destruct (s_fs s Cache p).
    + intros q Q. destruct (s_fs s Cache p); auto. apply (fs_other Cache p (Some []) s). right. congruence.
    + intros l' _. right. exact I.
    + destruct OK as (B & C). cbn [okay]. split; auto. destruct (s_fs s Cache p) as [l|] eqn:F; cbn [goto s_fs].
      * exists l. split; [auto|]. intros Z f W. right. now apply C.
      * rewrite fs_same. exists []. split; [auto|]. intros Z f W. right. now apply C.
    + now destruct (s_fs s Cache p).
  - destruct OK as (l & L & C). rewrite L. apply (inv_move s t p Check (Over (Ok Cache)) _ V N I); auto; cbn; auto.
    + rewrite L. intros l' [= <-]. auto.
    + apply Forall_app. split; auto. repeat constructor. intros _. exact C.
Qed.
Lemma inv_step s e : inv s -> calm whole s e -> inv (step s e).
Proof.
  intros V C. pose proof V as [O D K A]. destruct e as [p|t|t r|t|d p x]; cbn [step].
  - cbn in C. constructor; cbn [s_calls s_fs s_answers]; auto.
    + intros t u c d H1 H2 S G1 G2. destruct (nth_snoc _ _ _ _ H1) as [H1'|(-> & ->)], (nth_snoc _ _ _ _ H2) as [H2'|(-> & ->)]; auto.
      * apply (O t u c d); auto.
      * now destruct (C t c H1' S).
      * now destruct (C u d H2' (eq_sym S)).
    + intros q l H. destruct (D q l H) as [|(t & c & H1 & H2)]; auto. right. exists t, c. split; auto. rewrite nth_error_app1; auto.
      apply nth_error_Some. congruence.
    + intros t c H. destruct (nth_snoc _ _ _ _ H) as [H'|(-> & ->)]; [now apply (K t)|]. exact I.
  - now apply inv_go.
  - destruct (nth_error (s_calls s) t) as [(p, c)|] eqn:N; auto. destruct c as [| | |b rest bad| |r'|]; auto.
    assert (ME : forall l c', s_fs s Cache p = Some l -> covers l (whole p) \/ unp c').
    { intros l c' H. destruct (D p l H) as [Z|(u & d & H1 & H2 & H3)]; auto.
      assert (u = t) by (apply (O u t d (mkCall p Asking)); auto; [unfold going; destruct (c_pc d); auto|exact I]).
      subst u. rewrite N in H1. injection H1 as <-. destruct H3. }
    destruct r as [| |files bad]; 
      (match goal with |- inv (goto _ _ ?c' _) => apply (inv_move s t p Asking c' _ V N I) end); auto; try exact I; try exact A.
    destruct C as (C1 & C2). split; auto. intros B. apply (C2 B _ N).
  - destruct (nth_error (s_calls s) t) as [(p, c)|] eqn:N; auto.
    assert (Z : going (mkCall p c) -> ~ unp c -> inv (goto t p Killed s)).
    { intros G U. eapply (inv_move s t p c Killed); [exact V|exact N|exact G|reflexivity|..]; auto; [|exact I].
      intros l H. destruct (D p l H) as [|(u & d & H1 & H2 & H3)]; auto.
      assert (u = t) by (apply (O u t d (mkCall p c)); auto; unfold going; destruct (c_pc d); auto). subst u. rewrite N in H1. injection H1 as <-. contradiction. }
    destruct c as [| | |[|] rest bad| |r|]; auto; try (apply Z; [exact I|now intros []]).
    exfalso. now apply (C _ rest bad N).
  - assert (FS : forall q, d = Data \/ q <> p -> s_fs (set_dir d p x s) Cache q = s_fs s Cache q).
    { intros q [->|Q]; apply fs_other; [left; discriminate|right; congruence]. }
    assert (DEC : d = Data \/ d = Cache) by (destruct d; auto). destruct DEC as [->| ->].
    + constructor; auto.
    + destruct C as (C1 & C2). constructor; auto.
      * intros q l H. destruct (spec_dec q p) as [->|Q].
        -- rewrite fs_same in H. subst x. auto.
        -- rewrite FS in H by auto. now apply (D q l H).
      * intros t c H. change (nth_error (s_calls s) t = Some c) in H. destruct (spec_dec (c_spec c) p) as [Q|Q].
        -- pose proof (C1 t c H Q) as G. unfold going in G. destruct (c_pc c); try (now destruct G); exact I.
        -- rewrite FS by auto. now apply (K t c).
Qed.
Lemma inv_run es : forall s, inv s -> each (calm whole) s es -> inv (run s es).
Proof. induction es as [|e es IH]; intros s V C; [exact V|]. destruct C as (C1 & C2). apply IH; auto. now apply inv_step. Qed.
Lemma inv_init fs has : (forall p l, fs Cache p = Some l -> covers l (whole p)) -> inv (init fs has).
Proof.
  intros H. constructor; cbn; auto; try (intros t; destruct t; discriminate).
Qed.
Theorem whole_answers fs has es : (forall p l, fs Cache p = Some l -> covers l (whole p)) -> each (calm whole) (init fs has) es ->
  forall a, In a (s_answers (run (init fs has) es)) -> a_place a = Cache -> covers (a_files a) (whole (a_spec a)).
Proof.
  intros H C a Ha P. pose proof (i_ans _ (inv_run es _ (inv_init fs has H) C)) as F. rewrite Forall_forall in F. now apply (F a Ha).
Qed.

(** ** What was answered stays *)
Definition stays (s : st) : Prop :=
  (forall a, In a (s_answers s) -> a_place a = Cache -> s_fs s Cache (a_spec a) <> None /\
    forall t c, nth_error (s_calls s) t = Some c -> c_spec c = a_spec a -> match c_pc c with Asking | Unpack _ _ _ | Check => False | _ => True end).
Definition busy (c : pc) : bool := match c with Asking | Unpack _ _ _ | Check => true | _ => false end.
Lemma stays_move s t p c c' s' : stays s -> inv s -> nth_error (s_calls s) t = Some (mkCall p c) -> going (mkCall p c) ->
  s_calls s' = set_nth t (mkCall p c') (s_calls s) -> (forall q, s_fs s' Cache q = s_fs s Cache q \/ q = p /\ busy c = true) ->
  (s_answers s' = s_answers s \/ exists l d, s_answers s' = s_answers s ++ [mkA t p d l] /\ (d = Cache -> s_fs s' Cache p = Some l /\ busy c' = false)) ->
  (busy c' = true -> busy c = true \/ s_fs s Cache p = None) -> stays s'.
Proof.
  intros S V N G E F A B.
  assert (X : forall u d, nth_error (s_calls s') u = Some d -> u = t /\ d = mkCall p c' \/ u <> t /\ nth_error (s_calls s) u = Some d).
  { intros u d. rewrite E, nth_set. destruct (Nat.eqb_spec t u) as [->|Z]; [rewrite N; cbn; intros [= <-]; auto|intros H; right; split; auto]. }
  assert (OLD : forall a, In a (s_answers s) -> a_place a = Cache -> s_fs s' Cache (a_spec a) <> None /\
    forall t c, nth_error (s_calls s') t = Some c -> c_spec c = a_spec a -> match c_pc c with Asking | Unpack _ _ _ | Check => False | _ => True end).
  { intros a H P. destruct (S a H P) as (S1 & S2). assert (NB : a_spec a = p -> busy c = false).
    { intros Q. pose proof (S2 t _ N (eq_sym Q)) as Y. cbn in Y. now destruct c. }
    split.
    - destruct (F (a_spec a)) as [->|(Q & Bz)]; auto. rewrite NB in Bz by auto. discriminate.
    - intros u d H1 H2. destruct (X _ _ H1) as [(-> & ->)|(Z & H1')]; [|now apply (S2 u)]. cbn in H2. subst p. cbn [c_pc].
      destruct (busy c') eqn:BC; [|now destruct c']. destruct (B eq_refl) as [Y|Y]; [rewrite NB in Y by auto; discriminate|contradiction]. }
  intros a H P. destruct A as [A|(l & d & A & AD)]; rewrite A in H; [now apply OLD|]. apply in_app_iff in H. destruct H as [H|[<-|[]]]; [now apply OLD|].
  cbn [a_place a_spec] in *. destruct (AD P) as (Z1 & Z2). split; [congruence|]. intros u e H1 H2. destruct (X _ _ H1) as [(-> & ->)|(Z & H1')].
  - cbn. now destruct c'.
  - assert (NG : ~ going e) by (intros GE; apply Z; apply (i_one _ V u t e (mkCall p c)); auto). unfold going in NG. destruct (c_pc e); auto; now destruct NG.
Qed.
Lemma stays_go s t : stays s -> inv s -> stays (advance t s).
Proof.
  intros S V. unfold advance. destruct (nth_error (s_calls s) t) as [(p, c)|] eqn:N; auto. cbn [c_spec c_pc].
  destruct c as [| | |[|] rest bad| |r|]; auto.
  - destruct (if s_has s Data then s_fs s Data p else None) as [l|].
    + eapply (stays_move s t p AtData (Over (Ok Data))); [exact S|exact V|exact N|exact I|reflexivity|..]; auto; try discriminate.
      right. exists l, Data. split; auto. discriminate.
    + eapply (stays_move s t p AtData AtCache); [exact S|exact V|exact N|exact I|reflexivity|..]; auto; discriminate.
  - destruct (s_has s Cache); [|eapply (stays_move s t p AtCache (Over NotFound)); [exact S|exact V|exact N|exact I|reflexivity|..]; auto; discriminate].
    destruct (s_fs s Cache p) as [l|] eqn:F.
    + eapply (stays_move s t p AtCache (Over (Ok Cache))); [exact S|exact V|exact N|exact I|reflexivity|..]; auto; try discriminate. right. exists l, Cache. auto.
    + destruct (text_eqb (ns p) preview).
      * eapply (stays_move s t p AtCache Asking); [exact S|exact V|exact N|exact I|reflexivity|..]; auto.
      * eapply (stays_move s t p AtCache (Over NotFound)); [exact S|exact V|exact N|exact I|reflexivity|..]; auto; discriminate.
  - assert (FS : forall x q, s_fs (set_dir Cache p x s) Cache q = s_fs s Cache q \/ q = p /\ busy (Unpack true rest bad) = true).
    { intros x q. destruct (spec_dec q p) as [->|Q]; auto. left. apply fs_other. right. congruence. }
    destruct rest as [|f rest].
    + destruct bad as [[|]|].
      * eapply (stays_move s t p (Unpack true [] (Some true)) (Over Failed)); [exact S|exact V|exact N|exact I|reflexivity|..]; auto. apply FS.
      * eapply (stays_move s t p (Unpack true [] (Some false)) (Over Failed)); [exact S|exact V|exact N|exact I|reflexivity|..]; auto; discriminate.
      * eapply (stays_move s t p (Unpack true [] None) Check); [exact S|exact V|exact N|exact I|reflexivity|..]; auto.
    + destruct (s_fs s Cache p) as [l|].
      * eapply (stays_move s t p (Unpack true (f :: rest) bad) (Unpack true rest bad)); [exact S|exact V|exact N|exact I|reflexivity|..]; auto. apply FS.
      * eapply (stays_move s t p (Unpack true (f :: rest) bad) (Over Failed)); [exact S|exact V|exact N|exact I|reflexivity|..]; auto; try discriminate. apply FS.
  - apply (stays_move s t p (Unpack false rest bad) (Unpack true rest bad) _ S V N I).
    + now destruct (s_fs s Cache p).
    + intros q. destruct (s_fs s Cache p); auto. destruct (spec_dec q p) as [->|Q]; auto. left. apply (fs_other Cache p (Some []) s). right. congruence.
    + left. now destruct (s_fs s Cache p).
    + auto.
  - destruct (s_fs s Cache p) as [l|] eqn:F.
    + eapply (stays_move s t p Check (Over (Ok Cache))); [exact S|exact V|exact N|exact I|reflexivity|..]; auto. right. exists l, Cache. auto.
    + eapply (stays_move s t p Check (Over NotFound)); [exact S|exact V|exact N|exact I|reflexivity|..]; auto.
Qed.
Lemma stays_step s e : stays s -> inv s -> calm whole s e -> keeps e -> stays (step s e).
Proof.
  intros S V C K. destruct e as [p|t|t r|t|d p x]; cbn [step].
  - intros a H P. destruct (S a H P) as (S1 & S2). split; auto. intros t c H1 H2. destruct (nth_snoc _ _ _ _ H1) as [H1'|(-> & ->)]; [now apply (S2 t)|exact I].
  - now apply stays_go.
  - destruct (nth_error (s_calls s) t) as [(p, c)|] eqn:N; auto. destruct c as [| | |b rest bad| |r'|]; auto.
    destruct r as [| |files bad]; 
      (match goal with |- stays (goto _ _ ?c' _) => apply (stays_move s t p Asking c' _ S V N I) end); auto.
  - destruct (nth_error (s_calls s) t) as [(p, c)|] eqn:N; auto.
    destruct c as [| | |b rest bad| |r|]; auto; (eapply (stays_move s t p _ Killed); [exact S|exact V|exact N|exact I|reflexivity|..]); auto; discriminate.
  - intros a H P. destruct (S a H P) as (S1 & S2). split; auto. destruct d; [rewrite fs_other; auto; left; discriminate|].
    destruct (spec_dec p (a_spec a)) as [->|Q]; [|rewrite fs_other by auto; auto]. rewrite fs_same. destruct x; [discriminate|destruct K].
Qed.
Theorem stays_run es : forall s, stays s -> inv s -> each (calm whole) s es -> Forall keeps es -> stays (run s es) /\ inv (run s es).
Proof.
  induction es as [|e es IH]; intros s S V C K; [auto|]. destruct C as (C1 & C2). inversion K; subst. apply IH; auto.
  - now apply stays_step.
  - now apply inv_step.
Qed.
Theorem answered_stays fs has es : (forall p l, fs Cache p = Some l -> covers l (whole p)) -> each (calm whole) (init fs has) es -> Forall keeps es ->
  forall a, In a (s_answers (run (init fs has) es)) -> a_place a = Cache -> exists l, s_fs (run (init fs has) es) Cache (a_spec a) = Some l /\ covers l (whole (a_spec a)).
Proof.
  intros H C K a Ha P. destruct (stays_run es (init fs has)) as (S & V); auto.
  - intros b [].
  - now apply inv_init.
  - destruct (S a Ha P) as (S1 & S2). destruct (s_fs (run (init fs has) es) Cache (a_spec a)) as [l|] eqn:F; [|congruence]. exists l. split; auto.
    destruct (i_dir _ V _ _ F) as [|(t & c & H1 & H2 & H3)]; auto. exfalso. pose proof (S2 t c H1 H2) as Y. destruct (c_pc c); auto.
Qed.
End Whole.

(** * Requests and writes *)
Lemma has_step s e : s_has (step s e) = s_has s.
Proof.
  destruct e as [p|t|t r|t|d p x]; cbn [step]; auto.
  - unfold advance. destruct (nth_error (s_calls s) t) as [(p, c)|]; auto. cbn [c_spec c_pc].
    destruct c as [| | |[|] [|f rest] [[|]|]| |r|]; auto; repeat (match goal with |- context [match ?x with _ => _ end] => destruct x end; auto).
  - destruct (nth_error (s_calls s) t) as [(p, c)|]; auto. destruct c; auto. now destruct r.
  - destruct (nth_error (s_calls s) t) as [(p, c)|]; auto. now destruct c.
Qed.
Lemma has_run es : forall s, s_has (run s es) = s_has s.
Proof. induction es as [|e es IH]; intros s; [reflexivity|]. change (s_has (run (step s e) es) = s_has s). now rewrite IH, has_step. Qed.
(** What a step of a call does: it stays a call of the package, and only its own requests are added. *)
Definition asked (c : pc) : Prop := match c with Asking | Unpack _ _ _ | Check => True | _ => False end.
Definition early (c : pc) : Prop := match c with AtData | AtCache => True | _ => False end.
Lemma go_shape s t p c : nth_error (s_calls s) t = Some (mkCall p c) -> exists c',
  s_calls (advance t s) = set_nth t (mkCall p c') (s_calls s) /\
  (s_reqs (advance t s) = s_reqs s /\ (asked c' -> asked c) /\ (early c' -> early c) \/
   s_reqs (advance t s) = s_reqs s ++ [(t, p)] /\ c = AtCache /\ c' = Asking /\ ns p = preview /\ s_has s Cache = true /\ s_fs s Cache p = None).
Proof.
  intros N. assert (SAME : s_calls s = set_nth t (mkCall p c) (s_calls s)).
  { clear - N. revert t N. induction (s_calls s) as [|x l IH]; intros [|t] N; cbn in *; try discriminate; [congruence|]. now rewrite <- IH. }
  unfold advance. rewrite N. cbn [c_spec c_pc].
  destruct c as [| | |[|] [|f rest] bad| |r|]; try (eexists; split; [exact SAME|left; repeat split; tauto]).
  - destruct (if s_has s Data then s_fs s Data p else None); (eexists; split; [reflexivity|left; cbn; tauto]).
  - destruct (s_has s Cache) eqn:HC; [|eexists; split; [reflexivity|left; cbn; tauto]].
    destruct (s_fs s Cache p) as [l|] eqn:F; [eexists; split; [reflexivity|left; cbn; tauto]|].
    destruct (text_eqb (ns p) preview) eqn:T; [|eexists; split; [reflexivity|left; cbn; tauto]].
    apply text_eqb_spec in T. eexists; split; [reflexivity|right; cbn; repeat split; auto].
  - destruct bad as [[|]|]; (eexists; split; [reflexivity|left; cbn; tauto]).
  - destruct (s_fs s Cache p); (eexists; split; [reflexivity|left; cbn; tauto]).
  - destruct (s_fs s Cache p); (eexists; split; [reflexivity|left; cbn; tauto]).
  - destruct (s_fs s Cache p); (eexists; split; [reflexivity|left; cbn; tauto]).
  - destruct (s_fs s Cache p); (eexists; split; [reflexivity|left; cbn; tauto]).
Qed.
Record reqs_ok (s : st) : Prop := {
  q_ok : forall t p, In (t, p) (s_reqs s) -> ns p = preview /\ s_has s Cache = true /\ exists c, nth_error (s_calls s) t = Some (mkCall p c) /\ ~ early c;
  q_once : NoDup (map fst (s_reqs s));
  q_asked : forall t p c, nth_error (s_calls s) t = Some (mkCall p c) -> asked c -> In (t, p) (s_reqs s) }.
Lemma reqs_move s s' t p c c' : reqs_ok s -> nth_error (s_calls s) t = Some (mkCall p c) -> s_calls s' = set_nth t (mkCall p c') (s_calls s) -> s_has s' = s_has s ->
  (s_reqs s' = s_reqs s /\ (asked c' -> asked c) /\ (early c' -> early c) \/
   s_reqs s' = s_reqs s ++ [(t, p)] /\ c = AtCache /\ c' = Asking /\ ns p = preview /\ s_has s Cache = true) -> reqs_ok s'.
Proof.
  intros [Q1 Q2 Q3] N E H M.
  assert (X : forall u d, nth_error (s_calls s') u = Some d -> u = t /\ d = mkCall p c' \/ u <> t /\ nth_error (s_calls s) u = Some d).
  { intros u d. rewrite E, nth_set. destruct (Nat.eqb_spec t u) as [->|Z]; [rewrite N; cbn; intros [= <-]; auto|intros K; right; split; auto]. }
  assert (Y : forall u q, In (u, q) (s_reqs s) -> ((early c' -> early c) \/ ~ early c') -> ns q = preview /\ s_has s' Cache = true /\ exists d, nth_error (s_calls s') u = Some (mkCall q d) /\ ~ early d).
  { intros u q K R. destruct (Q1 u q K) as (A & B & d & D1 & D2). rewrite H. repeat split; auto. rewrite E, nth_set.
    destruct (Nat.eqb_spec t u) as [->|Z]; [|now exists d]. rewrite D1. cbn. rewrite N in D1. injection D1 as <- <-. exists c'. split; auto. tauto. }
  destruct M as [(M1 & M2 & M3)|(M1 & -> & -> & M2 & M3)].
  - constructor; rewrite M1; auto. intros u q d K A. destruct (X _ _ K) as [(-> & [= -> ->])|(Z & K')]; [apply (Q3 t p c); auto|now apply (Q3 u q d)].
  - constructor; rewrite M1.
    + intros u q K. apply in_app_iff in K. destruct K as [K|[[= <- <-]|[]]]; [now apply Y; auto|]. rewrite H. repeat split; auto.
      exists Asking. split; [|now intros []]. now rewrite E, nth_set, Nat.eqb_refl, N.
    + rewrite map_app. cbn. apply (NoDup_Add (a := t) (l := map fst (s_reqs s))).
      * rewrite <- (app_nil_r (map fst (s_reqs s))) at 1. apply Add_app.
      * split; auto. intros K. apply in_map_iff in K. destruct K as ((u, q) & <- & K). destruct (Q1 u q K) as (_ & _ & d & D1 & D2). cbn in N. rewrite N in D1. injection D1 as <- <-. now apply D2.
    + intros u q d K A. apply in_app_iff. destruct (X _ _ K) as [(-> & [= -> ->])|(Z & K')]; [right; now left|left; now apply (Q3 u q d)].
Qed.
Lemma reqs_step s e : reqs_ok s -> reqs_ok (step s e).
Proof.
  intros Q. pose proof (has_step s e) as H. destruct e as [p|t|t r|t|d p x]; cbn [step] in *.
  - destruct Q as [Q1 Q2 Q3]. constructor; cbn; auto.
    + intros t q K. destruct (Q1 t q K) as (A & B & c & C1 & C2). repeat split; auto. exists c. split; auto. rewrite nth_error_app1; auto. apply nth_error_Some. congruence.
    + intros t q c K A. destruct (nth_snoc _ _ _ _ K) as [K'|(_ & [= -> ->])]; [now apply (Q3 t q c)|destruct A].
  - destruct (nth_error (s_calls s) t) as [(p, c)|] eqn:N; [|unfold advance; now rewrite N].
    destruct (go_shape s t p c N) as (c' & E & M). apply (reqs_move s _ t p c c'); auto. tauto.
  - destruct (nth_error (s_calls s) t) as [(p, c)|] eqn:N; auto. destruct c; auto.
    destruct r; (eapply (reqs_move s _ t p Asking); [exact Q|exact N|reflexivity|reflexivity|left; cbn; tauto]).
  - destruct (nth_error (s_calls s) t) as [(p, c)|] eqn:N; auto.
    destruct c; auto; (eapply (reqs_move s _ t p); [exact Q|exact N|reflexivity|reflexivity|left; cbn; tauto]).
  - destruct Q as [Q1 Q2 Q3]. constructor; auto.
Qed.
Lemma reqs_run es : forall s, reqs_ok s -> reqs_ok (run s es).
Proof. induction es as [|e es IH]; intros s Q; [exact Q|]. apply IH. now apply reqs_step. Qed.
Lemma reqs_init fs has : reqs_ok (init fs has).
Proof. constructor; cbn; [intros ? ? []|constructor|intros [|t]; discriminate]. Qed.
Theorem requests_ok fs has es : let s := run (init fs has) es in
  (forall t p, In (t, p) (s_reqs s) -> ns p = preview /\ has Cache = true /\ option_map c_spec (nth_error (s_calls s) t) = Some p) /\ NoDup (map fst (s_reqs s)).
Proof.
  cbn zeta. destruct (reqs_run es _ (reqs_init fs has)) as [Q1 Q2 Q3]. split; auto. intros t p K. destruct (Q1 t p K) as (A & B & c & C & _).
  rewrite has_run in B. split; [auto|]. split; [exact B|]. now rewrite C.
Qed.
Lemma go_writes s t d q : s_fs (advance t s) d q <> s_fs s d q -> d = Cache /\ exists c, nth_error (s_calls s) t = Some (mkCall q c) /\ asked c.
Proof.
  unfold advance. destruct (nth_error (s_calls s) t) as [(p, c)|] eqn:N; [|congruence]. cbn [c_spec c_pc].
  assert (W : forall x, s_fs (set_dir Cache p x s) d q <> s_fs s d q -> d = Cache /\ p = q).
  { intros x X. destruct d; [exfalso; apply X, fs_other; left; discriminate|]. destruct (spec_dec p q); auto. exfalso. apply X, fs_other. auto. }
  assert (W2 : asked c -> d = Cache /\ p = q -> d = Cache /\ exists c0, Some (mkCall p c) = Some (mkCall q c0) /\ asked c0) by (intros A (-> & ->); split; auto; now exists c).
  destruct c as [| | |[|] [|f rest] bad| |r|]; try congruence.
  - destruct (if s_has s Data then s_fs s Data p else None); cbn; congruence.
  - destruct (s_has s Cache); [|cbn; congruence]. destruct (s_fs s Cache p); [cbn; congruence|]. destruct (text_eqb (ns p) preview); cbn; congruence.
  - destruct bad as [[|]|]; try (cbn; congruence). intros X. apply W2; [exact I|]. exact (W _ X).
  - destruct (s_fs s Cache p); intros X; (apply W2; [exact I|]); exact (W _ X).
  - destruct (s_fs s Cache p); [cbn; congruence|]. intros X. apply W2; [exact I|]. exact (W _ X).
  - destruct (s_fs s Cache p); [cbn; congruence|]. intros X. apply W2; [exact I|]. exact (W _ X).
  - destruct (s_fs s Cache p); cbn; congruence.
Qed.
Theorem writes fs has es e d q : let s := run (init fs has) es in s_fs (step s e) d q <> s_fs s d q ->
  (exists x, e = User d q x) \/ d = Cache /\ ns q = preview /\ exists t, e = Go t /\ In (t, q) (s_reqs s).
Proof.
  cbn zeta. intros H. pose proof (reqs_run es _ (reqs_init fs has)) as [Q1 Q2 Q3]. destruct e as [p|t|t r|t|d' p x]; cbn [step] in H.
  - now destruct H.
  - right. destruct (go_writes _ _ _ _ H) as (-> & c & N & A). pose proof (Q3 t q c N A) as R. split; [auto|]. split; [apply (Q1 t q R)|]. now exists t.
  - exfalso. apply H. destruct (nth_error _ t) as [(p, c)|]; auto. destruct c; auto. now destruct r.
  - exfalso. apply H. destruct (nth_error _ t) as [(p, c)|]; auto. now destruct c.
  - left. destruct (spec_dec p q) as [->|N]; [|exfalso; apply H, fs_other; auto].
    assert (D : d' = d) by (destruct d', d; auto; exfalso; apply H, fs_other; left; discriminate). subst. now exists x.
Qed.

(** * Where a package is looked for *)
Lemma follow (P : st -> Prop) (J : pc -> Prop) p t (H : forall s c, P s -> J c -> nth_error (s_calls s) t = Some (mkCall p c) ->
    (forall c', s_calls (advance t s) = set_nth t (mkCall p c') (s_calls s) -> J c') /\ s_reqs (advance t s) = s_reqs s) (JA : J Asking -> False) (JK : J Killed) :
  forall es s c, always P s es -> nth_error (s_calls s) t = Some (mkCall p c) -> J c -> ~ In t (map fst (s_reqs s)) ->
  exists c', nth_error (s_calls (run s es)) t = Some (mkCall p c') /\ J c' /\ ~ In t (map fst (s_reqs (run s es))).
Proof.
  induction es as [|e es IH]; intros s c A N Jc R; [exists c; auto|]. destruct A as (A1 & A2). cbn [run fold_left].
  assert (X : exists c', nth_error (s_calls (step s e)) t = Some (mkCall p c') /\ J c' /\ ~ In t (map fst (s_reqs (step s e)))).
  { assert (OTH : forall u x, nth_error (set_nth u x (s_calls s)) t = (if u =? t then Some x else Some (mkCall p c))) by (intros; rewrite nth_set; destruct (u =? t); now rewrite N).
    destruct e as [q|u|u r|u|d q x]; cbn [step].
    - exists c. repeat split; auto. cbn. rewrite nth_error_app1; auto. apply nth_error_Some. congruence.
    - destruct (nth_error (s_calls s) u) as [(q, c0)|] eqn:N0; [|unfold advance; rewrite N0; now exists c].
      destruct (go_shape s u q c0 N0) as (c1 & E & M). destruct (Nat.eq_dec u t) as [->|Z].
      + rewrite N in N0. injection N0 as <- <-. destruct (H s c A1 Jc N) as (H1 & H2). exists c1. rewrite E, OTH, Nat.eqb_refl, H2. auto.
      + exists c. rewrite E, OTH. apply Nat.eqb_neq in Z as Z'. rewrite Z'. repeat split; auto. destruct M as [(-> & _)|(-> & _)]; auto.
        rewrite map_app, in_app_iff. cbn. intros [|[|[]]]; auto.
    - destruct (nth_error (s_calls s) u) as [(q, c0)|] eqn:N0; [|now exists c]. destruct (Nat.eq_dec u t) as [->|Z].
      + rewrite N in N0. injection N0 as <- <-. destruct c; try (eexists; split; [exact N|auto]). now destruct (JA Jc).
      + exists c. apply Nat.eqb_neq in Z. destruct c0; auto. destruct r; cbn [goto s_calls s_reqs]; rewrite OTH, Z; auto.
    - destruct (nth_error (s_calls s) u) as [(q, c0)|] eqn:N0; [|now exists c]. destruct (Nat.eq_dec u t) as [->|Z].
      + rewrite N in N0. injection N0 as <- <-. destruct c; try (eexists; split; [exact N|auto]); (exists Killed; cbn [goto s_calls s_reqs]; rewrite OTH, Nat.eqb_refl; auto).
      + exists c. apply Nat.eqb_neq in Z. destruct c0; auto; cbn [goto s_calls s_reqs]; rewrite OTH, Z; auto.
    - exists c. auto. }
  destruct X as (c' & X1 & X2 & X3). apply (IH (step s e) c'); auto.
Qed.
Lemma set_nth_inj {A} (l : list A) t x y z : nth_error l t = Some z -> set_nth t x l = set_nth t y l -> x = y.
Proof.
  intros N H. apply (f_equal (fun l => nth_error l t)) in H. rewrite !nth_set, Nat.eqb_refl, N in H. now injection H.
Qed.
Lemma fresh fs has es : ~ In (length (s_calls (run (init fs has) es))) (map fst (s_reqs (run (init fs has) es))).
Proof.
  intros K. apply in_map_iff in K. destruct K as ((u, q) & E & K). cbn in E. subst u.
  destruct (q_ok _ (reqs_run es _ (reqs_init fs has)) _ _ K) as (_ & _ & c & C & _). assert (nth_error (s_calls (run (init fs has) es)) (length (s_calls (run (init fs has) es))) = None) by now apply nth_error_None. congruence.
Qed.
Definition outcome (s : st) (t : nat) (p : spec) (J : pc -> Prop) : Prop :=
  exists c, nth_error (s_calls s) t = Some (mkCall p c) /\ J c /\ ~ In t (map fst (s_reqs s)).
Section Looked.
Context (fs : place -> spec -> option (list nat)) (has : place -> bool) (es : list event) (p : spec) (es' : list event).
Let s := run (init fs has) es.
Let t := length (s_calls s).
Lemma started P (J : pc -> Prop) : always P (step s (Start p)) es' -> J AtData -> (J Asking -> False) -> J Killed ->
  (forall s c, s_has s = has -> P s -> J c -> nth_error (s_calls s) t = Some (mkCall p c) ->
    (forall c', s_calls (advance t s) = set_nth t (mkCall p c') (s_calls s) -> J c') /\ s_reqs (advance t s) = s_reqs s) ->
  outcome (run s (Start p :: es')) t p J.
Proof.
  intros A J0 JA JK H. unfold outcome. change (run s (Start p :: es')) with (run (step s (Start p)) es').
  apply (follow (fun s => P s /\ s_has s = has) J p t) with (c := AtData); auto.
  - intros s0 c (H1 & H2). now apply H.
  - assert (E : s_has (step s (Start p)) = has) by (rewrite has_step; apply has_run). revert A E. generalize (step s (Start p)).
    induction es' as [|e l IH]; cbn; intros s0 (A1 & A2) E; split; auto. apply IH; auto. now rewrite has_step.
  - cbn [step s_calls]. rewrite nth_error_app2 by (unfold t; lia). unfold t. now rewrite Nat.sub_diag.
  - apply fresh.
Qed.
Theorem data_first : has Data = true -> always (fun s => s_fs s Data p <> None) (step s (Start p)) es' ->
  outcome (run s (Start p :: es')) t p (fun c => c = AtData \/ c = Over (Ok Data) \/ c = Killed).
Proof.
  intros HD A. apply (started _ _ A); auto; [intros [|[|]]; discriminate|]. intros s0 c Hs F J N. unfold advance. rewrite N. cbn [c_spec c_pc].
  rewrite Hs, HD. destruct J as [->|[->| ->]].
  - destruct (s_fs s0 Data p) as [l|]; [|now destruct F]. split; auto. intros c' E. apply (set_nth_inj _ _ _ _ _ N) in E. injection E as <-. auto.
  - split; auto. intros c' E. rewrite E in N. rewrite nth_set, Nat.eqb_refl in N. destruct (nth_error (s_calls s0) t); [|discriminate]. injection N as ->. auto.
  - split; auto. intros c' E. rewrite E in N. rewrite nth_set, Nat.eqb_refl in N. destruct (nth_error (s_calls s0) t); [|discriminate]. injection N as ->. auto.
Qed.
Theorem then_cache : has Cache = true -> always (fun s => s_fs s Cache p <> None) (step s (Start p)) es' ->
  outcome (run s (Start p :: es')) t p (fun c => c = AtData \/ c = AtCache \/ (exists d, c = Over (Ok d)) \/ c = Killed).
Proof.
  intros HC A. apply (started _ _ A); auto; [intros [|[|[(d & X)|]]]; discriminate|]. intros s0 c Hs F J N. unfold advance. rewrite N. cbn [c_spec c_pc].
  assert (ID : forall c', s_calls s0 = set_nth t (mkCall p c') (s_calls s0) -> c' = c).
  { intros c' E. rewrite E in N. rewrite nth_set, Nat.eqb_refl in N. destruct (nth_error (s_calls s0) t); [|discriminate]. now injection N. }
  rewrite Hs, HC. destruct J as [->|[->|[(d & ->)| ->]]].
  - destruct (if has Data then s_fs s0 Data p else None); split; auto; intros c' E; apply (set_nth_inj _ _ _ _ _ N) in E; injection E as <-; eauto.
  - destruct (s_fs s0 Cache p); [|now destruct F]. split; auto. intros c' E. apply (set_nth_inj _ _ _ _ _ N) in E. injection E as <-. eauto.
  - split; [|auto]. intros c' E. rewrite (ID c' E). eauto.
  - split; [|auto]. intros c' E. rewrite (ID c' E). auto.
Qed.
Theorem nowhere : (has Cache = false \/ ns p <> preview) -> always (fun s => s_fs s Data p = None /\ s_fs s Cache p = None) (step s (Start p)) es' ->
  outcome (run s (Start p :: es')) t p (fun c => c = AtData \/ c = AtCache \/ c = Over NotFound \/ c = Killed).
Proof.
  intros HC A. apply (started _ _ A); auto; [intros [|[|[|]]]; discriminate|]. intros s0 c Hs (F1 & F2) J N. unfold advance. rewrite N. cbn [c_spec c_pc].
  assert (ID : forall c', s_calls s0 = set_nth t (mkCall p c') (s_calls s0) -> c' = c).
  { intros c' E. rewrite E in N. rewrite nth_set, Nat.eqb_refl in N. destruct (nth_error (s_calls s0) t); [|discriminate]. now injection N. }
  rewrite F1, F2, Hs. destruct J as [->|[->|[->| ->]]].
  - replace (if has Data then None else None) with (@None (list nat)) by now destruct (has Data).
    split; auto. intros c' E; apply (set_nth_inj _ _ _ _ _ N) in E; injection E as <-; auto.
  - destruct (has Cache) eqn:HC'.
    + destruct HC as [HC|HC]; [discriminate|]. destruct (text_eqb (ns p) preview) eqn:T; [apply text_eqb_spec in T; contradiction|].
      split; [|auto]. intros c' E; apply (set_nth_inj _ _ _ _ _ N) in E; injection E as <-; auto.
    + split; [|auto]. intros c' E; apply (set_nth_inj _ _ _ _ _ N) in E; injection E as <-; auto.
  - split; [|auto]. intros c' E. rewrite (ID c' E). auto.
  - split; [|auto]. intros c' E. rewrite (ID c' E). auto.
Qed.
End Looked.

(** * A download that is left alone *)
Lemma run_app s a b : run s (a ++ b) = run (run s a) b.
Proof. apply fold_left_app. Qed.
Lemma unpack_all t p : forall files s l, nth_error (s_calls s) t = Some (mkCall p (Unpack true files None)) -> s_fs s Cache p = Some l ->
  let s' := run s (repeat (Go t) (length files + 2)) in
  exists l', nth_error (s_calls s') t = Some (mkCall p (Over (Ok Cache))) /\ s_fs s' Cache p = Some l' /\ (forall f, In f l' <-> In f l \/ In f files) /\ s_answers s' = s_answers s ++ [mkA t p Cache l'].
Proof.
  induction files as [|f files IH]; intros s l N F; cbn zeta.
  - cbn [length Nat.add repeat run fold_left step]. exists l.
    assert (E : advance t s = goto t p Check s) by (unfold advance; now rewrite N). rewrite E.
    assert (N2 : nth_error (s_calls (goto t p Check s)) t = Some (mkCall p Check)) by (cbn; now rewrite nth_set, Nat.eqb_refl, N).
    assert (E2 : advance t (goto t p Check s) = found t p Cache l (goto t p Check s)) by (unfold advance; rewrite N2; cbn [c_pc c_spec]; cbn [goto s_fs]; now rewrite F).
    rewrite E2. cbn [found goto s_calls s_fs s_answers]. split; [now rewrite !nth_set, Nat.eqb_refl, N|]. split; auto. split; auto. cbn. tauto.
  - cbn [length Nat.add repeat run fold_left step].
    assert (E : advance t s = goto t p (Unpack true files None) (set_dir Cache p (Some (add_file f l)) s)) by (unfold advance; rewrite N; cbn [c_pc c_spec]; now rewrite F).
    rewrite E. destruct (IH (goto t p (Unpack true files None) (set_dir Cache p (Some (add_file f l)) s)) (add_file f l)) as (l' & A & B & C & D).
    + cbn. now rewrite nth_set, Nat.eqb_refl, N.
    + apply fs_same.
    + exists l'. split; [exact A|]. split; [exact B|]. split; [|exact D]. intros g. rewrite C, add_in. cbn. intuition congruence.
Qed.
Theorem download s p files : s_has s Cache = true -> (if s_has s Data then s_fs s Data p else None) = None -> s_fs s Cache p = None -> ns p = preview ->
  let t := length (s_calls s) in
  let s' := run s ([Start p; Go t; Go t; Reply t (Archive files None); Go t] ++ repeat (Go t) (length files + 2)) in
  exists l, nth_error (s_calls s') t = Some (mkCall p (Over (Ok Cache))) /\ s_fs s' Cache p = Some l /\ (forall f, In f l <-> In f files) /\
    s_answers s' = s_answers s ++ [mkA t p Cache l] /\ s_reqs s' = s_reqs s ++ [(t, p)].
Proof.
  intros HC FD FC NS. cbn zeta. rewrite run_app. set (t := length (s_calls s)).
  assert (T : text_eqb (ns p) preview = true) by now apply text_eqb_spec.
  assert (E : run s [Start p; Go t; Go t; Reply t (Archive files None); Go t] =
    goto t p (Unpack true files None) (set_dir Cache p (Some []) (goto t p (Unpack false files None) (
      let s1 := goto t p Asking (goto t p AtCache (step s (Start p))) in mkSt (s_fs s1) (s_has s1) (s_calls s1) (s_reqs s1 ++ [(t, p)]) (s_answers s1))))).
  { cbn [run fold_left]. set (s1 := step s (Start p)).
    assert (N1 : nth_error (s_calls s1) t = Some (mkCall p AtData)) by (cbn; rewrite nth_error_app2 by (unfold t; lia); unfold t; now rewrite Nat.sub_diag).
    assert (E1 : step s1 (Go t) = goto t p AtCache s1).
    { cbn [step]. unfold advance. rewrite N1. cbn [c_spec c_pc]. change (s_has s1) with (s_has s). change (s_fs s1) with (s_fs s). now rewrite FD. }
    rewrite E1. set (s2 := goto t p AtCache s1). assert (N2 : nth_error (s_calls s2) t = Some (mkCall p AtCache)) by (cbn [s2 goto s_calls]; now rewrite nth_set, Nat.eqb_refl, N1).
    assert (E2 : step s2 (Go t) = (let s1 := goto t p Asking s2 in mkSt (s_fs s1) (s_has s1) (s_calls s1) (s_reqs s1 ++ [(t, p)]) (s_answers s1))).
    { cbn [step]. unfold advance. rewrite N2. cbn [c_spec c_pc]. change (s_has s2) with (s_has s). change (s_fs s2) with (s_fs s). now rewrite HC, FC, T. }
    rewrite E2. cbv zeta. set (s3 := mkSt _ _ _ _ _). assert (N3 : nth_error (s_calls s3) t = Some (mkCall p Asking)) by (cbn [s3 goto s_calls]; now rewrite nth_set, Nat.eqb_refl, N2).
    assert (E3 : step s3 (Reply t (Archive files None)) = goto t p (Unpack false files None) s3) by (cbn [step]; now rewrite N3).
    rewrite E3. set (s4 := goto t p (Unpack false files None) s3). assert (N4 : nth_error (s_calls s4) t = Some (mkCall p (Unpack false files None))) by (cbn [s4 goto s_calls]; now rewrite nth_set, Nat.eqb_refl, N3).
    cbn [step]. unfold advance. rewrite N4. cbn [c_spec c_pc]. change (s_fs s4) with (s_fs s). now rewrite FC. }
  rewrite E. destruct (unpack_all t p files (goto t p (Unpack true files None) (set_dir Cache p (Some []) (goto t p (Unpack false files None) (
      let s1 := goto t p Asking (goto t p AtCache (step s (Start p))) in mkSt (s_fs s1) (s_has s1) (s_calls s1) (s_reqs s1 ++ [(t, p)]) (s_answers s1))))) []) as (l & A & B & C & D).
  - cbn. rewrite !nth_set, Nat.eqb_refl. rewrite nth_error_app2 by (unfold t; lia). unfold t. now rewrite Nat.sub_diag.
  - apply fs_same.
  - exists l. split; [exact A|]. split; [exact B|]. split; [intros f; rewrite C; cbn; tauto|]. split; [exact D|].
    clear - A. match goal with |- s_reqs (run ?s ?es) = _ => assert (R : forall k s0, (exists c, nth_error (s_calls s0) t = Some (mkCall p c) /\ c <> AtCache /\ c <> AtData) -> s_reqs (run s0 (repeat (Go t) k)) = s_reqs s0) end.
    { induction k as [|k IH]; intros s0 (c & N & Z1 & Z2); [reflexivity|]. cbn [repeat run fold_left step]. destruct (go_shape s0 t p c N) as (c' & E & [(M & _ & M2)|(_ & -> & _)]); [|congruence].
      change (s_reqs (run (advance t s0) (repeat (Go t) k)) = s_reqs s0). rewrite IH, M; auto. exists c'. rewrite E, nth_set, Nat.eqb_refl, N. split; auto.
      split; intros ->; destruct c; auto; destruct (M2 I). }
    rewrite R; [reflexivity|]. exists (Unpack true files None). split; [|split; discriminate]. cbn. rewrite !nth_set, Nat.eqb_refl. rewrite nth_error_app2 by (unfold t; lia). unfold t. now rewrite Nat.sub_diag.
Qed.

(** * The listing *)
Lemma there_in l p : there (Some l) p = true <-> exists vs b, In (name p, Some vs) l /\ In (print_ver (ver p), b) vs.
Proof.
  unfold there. rewrite existsb_exists. split.
  - intros ((n, o) & H & X). cbn in X. apply andb_true_iff in X. destruct X as (X1 & X2). apply text_eqb_spec in X1. subst n. destruct o as [vs|]; [|discriminate].
    apply existsb_exists in X2. destruct X2 as ((m, b) & Y & Z). apply text_eqb_spec in Z. cbn in Z. subst m. now exists vs, b.
  - intros (vs & b & H & K). exists (name p, Some vs). split; auto. cbn. apply andb_true_iff. split; [now apply text_eqb_spec|].
    apply existsb_exists. exists (print_ver (ver p), b). split; auto. now apply text_eqb_spec.
Qed.
Lemma listed_in space roots dir q : In (dir, q) (list_packages space roots) <->
  exists base l vs n, In (base, Some l) roots /\ In (name q, Some vs) l /\ In (n, true) vs /\ hidden (name q) = false /\ hidden n = false /\
    parse_ver n = Some (ver q) /\ ns q = space /\ dir = join base (components space) ++ [Nor (name q); Nor n].
Proof.
  unfold list_packages. rewrite in_flat_map. split.
  - intros ((base, o) & R & H). cbn in H. destruct o as [l|]; [|destruct H]. unfold list_names in H. apply in_flat_map in H. destruct H as ((m, o) & H1 & H2). cbn in H2.
    destruct (hidden m) eqn:E1; [destruct H2|]. destruct o as [vs|]; [|destruct H2]. unfold list_versions in H2. apply in_flat_map in H2. destruct H2 as ((n, b) & H3 & H4). cbn in H4.
    destruct (hidden n) eqn:E2; [destruct H4|]. destruct b; [|destruct H4]. cbn in H4. destruct (parse_ver n) as [v|] eqn:E3; [|destruct H4]. destruct H4 as [[= <- <-]|[]].
    exists base, l, vs, n. cbn. repeat split; auto.
  - intros (base & l & vs & n & R & H1 & H2 & E1 & E2 & E3 & E4 & ->). exists (base, Some l). split; auto. cbn. apply in_flat_map. exists (name q, Some vs). split; auto. cbn. rewrite E1.
    apply in_flat_map. exists (n, true). split; auto. cbn. rewrite E2, E3. cbn. left. rewrite <- E4. now destruct q.
Qed.
Theorem listed_local space bd bc ld lc dir q : ident space -> (forall l, ld = Some l \/ lc = Some l -> all_printed l) ->
  In (dir, q) (list_packages space [(bd, ld); (bc, lc)]) -> ident (name q) ->
  ns q = space /\ (dir = pkg_dir bd q /\ local ld lc q = Some Data \/
                   dir = pkg_dir bc q /\ there lc q = true /\ (local ld lc q = Some Cache \/ there ld q = true /\ local ld lc q = Some Data)).
Proof.
  intros SP AP H NQ. apply listed_in in H. destruct H as (base & l & vs & n & R & H1 & H2 & E1 & E2 & E3 & E4 & ->). split; auto.
  assert (PN : n = print_ver (ver q)).
  { apply (AP l) with (n := name q) (vs := vs) (b := true); auto. destruct R as [[= <- <-]|[[= <- <-]|[]]]; auto. }
  assert (TH : there (Some l) q = true) by (apply there_in; exists vs, true; subst n; auto).
  assert (DIR : join base (components space) ++ [Nor (name q); Nor n] = pkg_dir base q).
  { rewrite dir_comps by (split; auto; congruence). subst n. rewrite E4. unfold components. rewrite split_none by apply SP. cbn [flat_map].
    destruct space as [|c0 space']; [now destruct SP|]. rewrite piece_name by now apply ident_name. rewrite app_nil_r. unfold join. cbn [fold_left push]. now rewrite <- app_assoc. }
  rewrite DIR. unfold local. destruct R as [[= <- ->]|[[= <- ->]|[]]].
  - left. now rewrite TH.
  - right. rewrite TH. split; auto. split; auto. destruct (there ld q); auto.
Qed.
Theorem listed_all space roots base l q vs : In (base, Some l) roots -> ns q = space -> In (name q, Some vs) l -> In (print_ver (ver q), true) vs ->
  hidden (name q) = false -> small (ver q) -> In (join base (components space) ++ [Nor (name q); Nor (print_ver (ver q))], q) (list_packages space roots).
Proof.
  intros R S H1 H2 H3 H4. apply listed_in. exists base, l, vs, (print_ver (ver q)). repeat split; auto.
  - destruct (ver q) as ((a, b), c). unfold print_ver. pose proof (print_nonempty 10 a). pose proof (digit_ok a) as D. destruct (print_num 10 a) as [|x xs]; [congruence|]. cbn.
    apply N.eqb_neq. specialize (D x (or_introl eq_refl)). lia.
  - now apply print_parse.
Qed.

(** * The latest version *)
Lemma ver_leb_spec v w : ver_leb v w = true <-> ver_le v w.
Proof.
  destruct v as ((a, b), c), w as ((x, y), z). cbn. rewrite orb_true_iff, andb_true_iff, orb_true_iff, andb_true_iff, !N.ltb_lt, !N.eqb_eq, N.leb_le. tauto.
Qed.
Lemma ver_le_refl v : ver_le v v.
Proof. destruct v as ((a, b), c). cbn. lia. Qed.
Lemma ver_le_trans u v w : ver_le u v -> ver_le v w -> ver_le u w.
Proof. destruct u as ((a, b), c), v as ((d, e), f), w as ((x, y), z). cbn. lia. Qed.
Lemma ver_le_total v w : ver_leb v w = false -> ver_le w v.
Proof.
  intros H. assert (~ ver_le v w) by (rewrite <- ver_leb_spec; congruence). destruct v as ((a, b), c), w as ((x, y), z). cbn in *. lia.
Qed.
Lemma max_fold l : forall m, match fold_left (fun m v => match m with None => Some v | Some w => if ver_leb w v then Some v else Some w end) l m with
  | None => m = None /\ l = []
  | Some v => (In v l \/ m = Some v) /\ (forall w, In w l \/ m = Some w -> ver_le w v)
  end.
Proof.
  induction l as [|x l IH]; intros m; cbn [fold_left].
  - destruct m as [v|]; [|auto]. split; auto. intros w [[]|[= <-]]. apply ver_le_refl.
  - set (m' := match m with None => Some x | Some w => if ver_leb w x then Some x else Some w end).
    assert (M : exists y, m' = Some y /\ (y = x \/ m = Some y) /\ ver_le x y /\ (forall w, m = Some w -> ver_le w y)).
    { unfold m'. destruct m as [w|]; [destruct (ver_leb w x) eqn:E|].
      - exists x. apply ver_leb_spec in E. repeat split; auto using ver_le_refl. intros u [= <-]. auto.
      - exists w. repeat split; auto using ver_le_total. intros u [= <-]. apply ver_le_refl.
      - exists x. repeat split; auto using ver_le_refl. discriminate. }
    destruct M as (y & M1 & M2 & M3 & M4). specialize (IH m'). destruct (fold_left _ l m') as [v|]; [|destruct IH; congruence]. destruct IH as (I1 & I2). split.
    + destruct I1 as [I1|I1]; [left; now right|]. rewrite M1 in I1. injection I1 as ->. destruct M2 as [->|M2]; auto. left. now left.
    + assert (Y : ver_le y v) by (apply I2; auto). intros w [[->|H]|H]; [now apply ver_le_trans with y|apply I2; auto|apply ver_le_trans with y; auto].
Qed.
Lemma max_ver_none l : max_ver l = None <-> l = [].
Proof.
  pose proof (max_fold l None) as H. unfold max_ver. split; [|now intros ->]. intros E. rewrite E in H. apply H.
Qed.
Lemma max_ver_some l v : max_ver l = Some v -> In v l /\ forall w, In w l -> ver_le w v.
Proof.
  pose proof (max_fold l None) as H. unfold max_ver. intros E. rewrite E in H. destruct H as ([H|H] & H2); [|discriminate]. split; auto.
Qed.
Lemma local_in l nm v : In v (local_versions (Some l) nm) <-> exists vs n b, In (nm, Some vs) l /\ In (n, b) vs /\ parse_ver n = Some v.
Proof.
  unfold local_versions. rewrite in_flat_map. split.
  - intros ((m, o) & H1 & H2). cbn in H2. destruct (text_eqb m nm) eqn:E; [|destruct H2]. apply text_eqb_spec in E. subst m. destruct o as [vs|]; [|destruct H2].
    apply in_flat_map in H2. destruct H2 as ((n, b) & H3 & H4). cbn in H4. destruct (parse_ver n) eqn:E; [|destruct H4]. destruct H4 as [->|[]]. now exists vs, n, b.
  - intros (vs & n & b & H1 & H2 & H3). exists (nm, Some vs). split; auto. cbn. assert (E : text_eqb nm nm = true) by now apply text_eqb_spec. rewrite E.
    apply in_flat_map. exists (n, b). split; auto. cbn. rewrite H3. now left.
Qed.
Theorem latest_preview fetch nm s : let '(s', r) := latest fetch preview nm s in
  let l := match i_index s with Some l => l | None => match fetch with Some l => l | None => [] end end in
  i_index s' = Some l /\ match r with
  | Some v => In (nm, v) l /\ forall w, In (nm, w) l -> ver_le w v
  | None => forall w, ~ In (nm, w) l
  end.
Proof.
  unfold latest. assert (E : text_eqb preview preview = true) by now apply text_eqb_spec. rewrite E.
  set (l := match i_index s with Some l => l | None => match fetch with Some l => l | None => [] end end).
  assert (X : download_index fetch s = ((match i_index s with Some _ => s | None => mkStore (Some l) (i_data s) end), l)).
  { unfold download_index, l. now destruct (i_index s). }
  rewrite X. split; [unfold l; destruct (i_index s) eqn:I1; auto|].
  assert (M : forall w, In w (map snd (filter (fun x => text_eqb (fst x) nm) l)) <-> In (nm, w) l).
  { intros w. rewrite in_map_iff. split.
    - intros ((m, u) & <- & H). apply filter_In in H. destruct H as (H & T). apply text_eqb_spec in T. cbn in *. now subst m.
    - intros H. exists (nm, w). split; auto. apply filter_In. split; auto. now apply text_eqb_spec. }
  destruct (max_ver _) as [v|] eqn:MV.
  - apply max_ver_some in MV. destruct MV as (A & B). split; [now apply M|]. intros w H. apply B, M, H.
  - apply max_ver_none in MV. intros w H. apply M in H. rewrite MV in H. destruct H.
Qed.
Theorem latest_local fetch space nm s : space <> preview -> (forall l, i_data s space = Some l -> all_printed l) ->
  let '(s', r) := latest fetch space nm s in s' = s /\ match r with
  | Some v => there (i_data s space) (mkSpec space nm v) = true /\ forall w, small w -> there (i_data s space) (mkSpec space nm w) = true -> ver_le w v
  | None => forall w, small w -> there (i_data s space) (mkSpec space nm w) = false
  end.
Proof.
  intros NP AP. unfold latest. destruct (text_eqb space preview) eqn:E; [apply text_eqb_spec in E; contradiction|]. split; auto.
  destruct (i_data s space) as [l|]; [|cbn; auto].
  assert (UP : forall w, small w -> there (Some l) (mkSpec space nm w) = true -> In w (local_versions (Some l) nm)).
  { intros w SW H. apply there_in in H. destruct H as (vs & b & H1 & H2). apply local_in. exists vs, (print_ver w), b. repeat split; auto. now apply print_parse. }
  destruct (max_ver _) as [v|] eqn:MV.
  - apply max_ver_some in MV. destruct MV as (A & B). split; [|intros w SW H; apply B, UP; auto]. apply local_in in A. destruct A as (vs & n & b & H1 & H2 & H3).
    apply there_in. exists vs, b. split; auto. cbn. now rewrite <- (AP l eq_refl nm vs H1 n b v H2 H3).
  - apply max_ver_none in MV. intros w SW. destruct (there (Some l) (mkSpec space nm w)) eqn:T; auto. apply UP in T; auto. rewrite MV in T. destruct T.
Qed.
Lemma index_kept fetch fetch' s : let s' := fst (download_index fetch s) in snd (download_index fetch' s') = snd (download_index fetch s) /\ fst (download_index fetch' s') = s'.
Proof. unfold download_index. destruct (i_index s) eqn:E; cbn; rewrite ?E; auto. Qed.
