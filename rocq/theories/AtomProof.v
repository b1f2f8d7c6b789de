(** Proofs about atomic writes. *)
From Coq Require Import List Arith NArith Bool Lia.
From Verif Require Import AssocModel AssocProof AtomModel AtomSpec.
Import ListNotations.

Section Inv.
Variable dir0 : list (nat * afile).
Variable D : nat -> Prop.
Definition guarded (p : nat) : Prop := aget p dir0 <> None \/ D p.
Definition perm_ok (p : nat) (q : option N) : Prop :=
  match aget p dir0 with Some f => q = Some (N.land (f_mode f) perm_mask) | None => q = None \/ q = Some temp_mode end.
Definition mode_ok (p : nat) (m : N) : Prop :=
  match aget p dir0 with Some f => m = f_mode f \/ m = N.land (f_mode f) perm_mask | None => m = temp_mode end.
Definition mode_of (q : option N) : N := match q with Some m => m | None => temp_mode end.
Definition temp_ok (w : writer) (d : list (nat * afile)) : Prop :=
  match w_phase w with
  | PBegin => True
  | PMeta q => perm_ok (w_dest w) q
  | PTemp t q rest => perm_ok (w_dest w) q /\ ~ guarded t /\ exists f, aget t d = Some f /\ f_data f ++ rest = w_data w /\ f_mode f = temp_mode
  | PReady t => ~ guarded t /\ exists f q, aget t d = Some f /\ f_data f = w_data w /\ perm_ok (w_dest w) q /\ f_mode f = mode_of q
  end.
Record AI (s : ast) (os : list aout) : Prop := mkAI {
  ai_apart : forall i j v w t, aget i (a_ws s) = Some v -> aget j (a_ws s) = Some w -> temp_of v = Some t -> temp_of w = Some t -> i = j;
  ai_ok : forall i w, aget i (a_ws s) = Some w -> D (w_dest w) /\ temp_ok w (a_dir s);
  ai_data : forall p, guarded p -> data_at p s = last_put p (option_map f_data (aget p dir0)) os;
  ai_mode : forall p f, guarded p -> aget p (a_dir s) = Some f -> mode_ok p (f_mode f);
}.
Lemma AI0 : AI (start dir0) [].
Proof.
  constructor; cbn; try discriminate.
  - reflexivity.
  - intros p f _ H. unfold mode_ok. rewrite H. auto.
Qed.
Lemma land_511 m : N.land (N.land m perm_mask) perm_mask = N.land m perm_mask.
Proof. rewrite <- N.land_assoc. now rewrite N.land_diag. Qed.
(** Changing one temporary file does not matter to the other writers. *)
Lemma temp_ok_other w d t f : temp_of w <> Some t -> temp_ok w d -> temp_ok w (aset t f d).
Proof.
  unfold temp_of, temp_ok. destruct (w_phase w) as [|q|u q rest|u]; auto; intros N.
  - intros (A & B & g & C). split; auto. split; auto. exists g. rewrite aget_aset_neq by congruence. exact C.
  - intros (A & g & q & C). split; auto. exists g, q. rewrite aget_aset_neq by congruence. exact C.
Qed.
Lemma temp_ok_del w d t : temp_of w <> Some t -> temp_ok w d -> temp_ok w (adel t d).
Proof.
  unfold temp_of, temp_ok. destruct (w_phase w) as [|q|u q rest|u]; auto; intros N.
  - intros (A & B & g & C). split; auto. split; auto. exists g. rewrite aget_adel_neq by congruence. exact C.
  - intros (A & g & q & C). split; auto. exists g, q. rewrite aget_adel_neq by congruence. exact C.
Qed.
Lemma temp_not_guarded w d t : temp_ok w d -> temp_of w = Some t -> ~ guarded t /\ exists f, aget t d = Some f.
Proof.
  unfold temp_ok, temp_of. destruct (w_phase w) as [|q|u q rest|u]; try discriminate; intros H [= ->].
  - destruct H as (_ & A & f & B & _). eauto.
  - destruct H as (A & f & q & B & _). eauto.
Qed.
(** A writer in a new phase with a change to its temporary file. *)
Lemma set_temp s os i w w' t f : AI s os -> aget i (a_ws s) = Some w ->
  (temp_of w = Some t \/ (temp_of w = None /\ aget t (a_dir s) = None /\ ~ guarded t)) ->
  w_dest w' = w_dest w -> temp_of w' = Some t -> temp_ok w' (aset t f (a_dir s)) ->
  AI (mkA (aset t f (a_dir s)) (aset i w' (a_ws s))) os.
Proof.
  intros [A B C M] G T W T' K.
  assert (NG : ~ guarded t). { destruct T as [T|T]; [|tauto]. destruct (B _ _ G) as [_ X]. exact (proj1 (temp_not_guarded _ _ _ X T)). }
  assert (OT : forall j v, j <> i -> aget j (a_ws s) = Some v -> temp_of v <> Some t).
  { intros j v N H E. destruct T as [T|(T & X & Y)].
    - apply N. exact (A j i v w t H G E T).
    - destruct (B _ _ H) as [_ Z]. destruct (temp_not_guarded _ _ _ Z E) as [_ [g Z2]]. congruence. }
  constructor; cbn.
  - intros a b u v x. rewrite !aget_aset. destruct (Nat.eqb_spec a i) as [->|Na], (Nat.eqb_spec b i) as [->|Nb]; auto.
    + intros [= <-] H E1 E2. rewrite T' in E1. injection E1 as <-. destruct (OT b v Nb H E2).
    + intros H [= <-] E1 E2. rewrite T' in E2. injection E2 as <-. destruct (OT a u Na H E1).
    + apply A.
  - intros j v. rewrite aget_aset. destruct (Nat.eqb_spec j i) as [->|N].
    + intros [= <-]. split; auto. rewrite W. apply (B _ _ G).
    + intros H. destruct (B _ _ H) as [X Y]. split; auto. apply temp_ok_other; auto. eapply OT; eauto.
  - intros p P. rewrite <- (C p P). unfold data_at. cbn. rewrite aget_aset_neq; auto. intros ->. contradiction.
  - intros p g P. rewrite aget_aset_neq; [apply M, P|]. intros ->. contradiction.
Qed.
(** A writer without a temporary file in a new phase. *)
Lemma set_phase s os i w' : AI s os -> (aget i (a_ws s) = None \/ exists v, aget i (a_ws s) = Some v /\ temp_of v = None) ->
  D (w_dest w') -> temp_of w' = None -> temp_ok w' (a_dir s) -> AI (mkA (a_dir s) (aset i w' (a_ws s))) os.
Proof.
  intros [A B C M] G W T K. constructor; cbn; auto.
  - intros a b u v x. rewrite !aget_aset. destruct (Nat.eqb_spec a i) as [->|Na], (Nat.eqb_spec b i) as [->|Nb]; auto; try congruence.
    apply A.
  - intros j v. rewrite aget_aset. destruct (Nat.eqb_spec j i) as [->|N]; [intros [= <-]; auto|apply B].
Qed.
Lemma del_writer s os i : AI s os -> AI (mkA (a_dir s) (adel i (a_ws s))) os.
Proof.
  intros [A B C M]. constructor; cbn; auto.
  - intros a b u v x. rewrite !aget_adel. destruct (Nat.eqb_spec a i), (Nat.eqb_spec b i); try discriminate. apply A.
  - intros j v. rewrite aget_adel. destruct (Nat.eqb_spec j i); [discriminate|apply B].
Qed.
Lemma last_put_app a : forall p c b, last_put p c (a ++ b) = last_put p (last_put p c a) b.
Proof. induction a as [|[i d x|i] a IH]; intros p c b; cbn; auto. Qed.
Lemma failed_out s os i : AI s os -> AI s (os ++ [OFailed i]).
Proof. intros [A B C M]. constructor; auto. intros p P. rewrite last_put_app. cbn. auto. Qed.

Lemma astep_ok s os e s' o : AI s os -> (forall i d x, e = ABegin i d x -> D d) -> (forall i t, e = ACreate i t -> ~ D t) ->
  (forall k, e <> APower k) -> astep s e = (s', o) -> AI s' (os ++ o).
Proof.
  intros H HD HT HP R. pose proof H as [A B C M].
  assert (SK : (s', o) = (s, []) -> AI s' (os ++ o)) by (intros [= -> ->]; now rewrite app_nil_r).
  destruct e as [i dest data|i|i t|i n|i|i|i|i|k]; cbn [astep] in R.
  - destruct (aget i (a_ws s)) as [w|] eqn:G; [apply SK; congruence|]. injection R as <- <-. rewrite app_nil_r.
    eapply set_phase; eauto; cbn; auto.
  - destruct (aget i (a_ws s)) as [w|] eqn:G; [|apply SK; congruence].
    destruct (w_phase w) as [|q|t q rest|t] eqn:P; try (apply SK; congruence). injection R as <- <-. rewrite app_nil_r.
    destruct (B _ _ G) as [X Y]. eapply set_phase; eauto.
    + right. exists w. split; auto. unfold temp_of. now rewrite P.
    + unfold temp_ok, perm_ok. cbn. pose proof (fun f => M (w_dest w) f (or_intror X)) as Z.
      pose proof (C (w_dest w) (or_intror X)) as C1. unfold data_at in C1.
      destruct (aget (w_dest w) (a_dir s)) as [f|] eqn:F; cbn.
      * specialize (Z f eq_refl). unfold mode_ok in Z. destruct (aget (w_dest w) dir0) as [f0|].
        -- destruct Z as [->| ->]; [reflexivity|]. now rewrite land_511.
        -- rewrite Z. right. reflexivity.
      * destruct (aget (w_dest w) dir0) as [f0|]; [|auto]. exfalso. cbn in C1. clear - C1. revert C1.
        generalize (f_data f0). induction os as [|[a b c|a] os IH]; cbn; intros x; [discriminate| |apply IH].
        destruct (b =? w_dest w); apply IH.
  - destruct (aget i (a_ws s)) as [w|] eqn:G; [|apply SK; congruence].
    destruct (w_phase w) as [|q|u q rest|u] eqn:P; try (apply SK; congruence).
    destruct (aget t (a_dir s)) as [f|] eqn:F; [apply SK; congruence|]. injection R as <- <-. rewrite app_nil_r.
    assert (NG : ~ guarded t).
    { intros [X|X]; [|exact (HT _ _ eq_refl X)]. pose proof (C t (or_introl X)) as C1. unfold data_at in C1. rewrite F in C1. cbn in C1.
      destruct (aget t dir0) as [f0|]; [|congruence]. cbn in C1. clear - C1. revert C1.
      generalize (f_data f0). induction os as [|[a b c|a] os IH]; cbn; intros x; [discriminate| |apply IH].
      destruct (b =? t); apply IH. }
    destruct (B _ _ G) as [X Y]. unfold temp_ok in Y. rewrite P in Y.
    apply (set_temp _ _ _ w); [exact H|exact G| |reflexivity|reflexivity|].
    + right. split; [unfold temp_of; now rewrite P|auto].
    + unfold temp_ok. cbn. split; auto. split; auto. eexists. rewrite aget_aset_eq. split; [reflexivity|auto].
  - destruct (aget i (a_ws s)) as [w|] eqn:G; [|apply SK; congruence].
    destruct (w_phase w) as [|q|u q rest|u] eqn:P; try (apply SK; congruence).
    destruct (aget u (a_dir s)) as [f|] eqn:F; [|apply SK; congruence]. injection R as <- <-. rewrite app_nil_r.
    destruct (B _ _ G) as [X Y]. unfold temp_ok in Y. rewrite P in Y. destruct Y as (Y1 & Y2 & g & Y3 & Y4 & Y5).
    rewrite F in Y3. injection Y3 as <-.
    apply (set_temp _ _ _ w); [exact H|exact G| |reflexivity|reflexivity|].
    + left. unfold temp_of. now rewrite P.
    + unfold temp_ok. cbn. split; auto. split; auto. eexists. rewrite aget_aset_eq. split; [reflexivity|]. cbn.
      rewrite <- app_assoc, firstn_skipn. auto.
  - destruct (aget i (a_ws s)) as [w|] eqn:G; [|apply SK; congruence].
    destruct (w_phase w) as [|q|u q [|y rest]|u] eqn:P; try (apply SK; congruence).
    destruct (aget u (a_dir s)) as [f|] eqn:F; [|apply SK; congruence]. injection R as <- <-. rewrite app_nil_r.
    destruct (B _ _ G) as [X Y]. unfold temp_ok in Y. rewrite P in Y. destruct Y as (Y1 & Y2 & g & Y3 & Y4 & Y5).
    rewrite F in Y3. injection Y3 as <-. rewrite app_nil_r in Y4.
    assert (T : temp_of w = Some u) by (unfold temp_of; now rewrite P).
    destruct q as [m|].
    + apply (set_temp _ _ _ w); [exact H|exact G|left; exact T|reflexivity|reflexivity|].
      unfold temp_ok. cbn. split; auto. eexists. exists (Some m). rewrite aget_aset_eq. split; [reflexivity|]. cbn. auto.
    + constructor; cbn; auto.
      * intros a b v v' x. rewrite !aget_aset. destruct (Nat.eqb_spec a i) as [->|Na], (Nat.eqb_spec b i) as [->|Nb]; auto.
        -- intros [= <-] Q E1 E2. cbn in E1. exact (A i b w v' x G Q (eq_trans T E1) E2).
        -- intros Q [= <-] E1 E2. cbn in E2. exact (A a i v w x Q G E1 (eq_trans T E2)).
        -- apply A.
      * intros j v. rewrite aget_aset. destruct (Nat.eqb_spec j i) as [->|N]; [|apply B]. intros [= <-]. split; auto.
        unfold temp_ok. cbn. split; auto. exists f, None. auto.
  - destruct (aget i (a_ws s)) as [w|] eqn:G; [|apply SK; congruence].
    destruct (w_phase w) as [|q|u q rest|u] eqn:P; try (apply SK; congruence).
    destruct (aget u (a_dir s)) as [f|] eqn:F; [|apply SK; congruence]. injection R as <- <-.
    destruct (B _ _ G) as [X Y]. unfold temp_ok in Y. rewrite P in Y. destruct Y as (Y1 & g & q & Y2 & Y3 & Y4 & Y5).
    rewrite F in Y2. injection Y2 as <-.
    assert (T : temp_of w = Some u) by (unfold temp_of; now rewrite P).
    constructor; cbn.
    + intros a b v v' x. rewrite !aget_adel. destruct (Nat.eqb_spec a i), (Nat.eqb_spec b i); try discriminate. apply A.
    + intros j v. rewrite aget_adel. destruct (Nat.eqb_spec j i) as [|N]; [discriminate|]. intros Q. destruct (B _ _ Q) as [Z1 Z2].
      split; auto. apply temp_ok_other; [|apply temp_ok_del]; auto.
      * intros E. destruct (temp_not_guarded _ _ _ Z2 E) as [K _]. apply K. right. exact X.
      * intros E. apply N. exact (A j i v w u Q G E T).
    + intros p Gp. rewrite last_put_app. cbn. rewrite <- (C p Gp). unfold data_at. cbn. rewrite aget_aset, aget_adel.
      rewrite (Nat.eqb_sym (w_dest w) p). destruct (Nat.eqb_spec p (w_dest w)); [cbn; now rewrite Y3|].
      destruct (Nat.eqb_spec p u) as [->|]; [contradiction|reflexivity].
    + intros p h Gp. rewrite aget_aset, aget_adel. destruct (Nat.eqb_spec p (w_dest w)) as [->|].
      * intros [= <-]. rewrite Y5. unfold mode_ok, perm_ok in *. destruct (aget (w_dest w) dir0) as [f0|].
        -- rewrite Y4. cbn. auto.
        -- destruct Y4 as [-> | ->]; reflexivity.
      * destruct (Nat.eqb_spec p u) as [->|]; [contradiction|]. apply M, Gp.
  - destruct (aget i (a_ws s)) as [w|] eqn:G; [|apply SK; congruence]. injection R as <- <-. apply failed_out.
    destruct (B _ _ G) as [X Y]. unfold drop_temp. destruct (temp_of w) as [t|] eqn:T; [|now apply del_writer].
    destruct (temp_not_guarded _ _ _ Y T) as [NG _].
    constructor; cbn.
    + intros a b v v' x. rewrite !aget_adel. destruct (Nat.eqb_spec a i), (Nat.eqb_spec b i); try discriminate. apply A.
    + intros j v. rewrite aget_adel. destruct (Nat.eqb_spec j i) as [|N]; [discriminate|]. intros Q. destruct (B _ _ Q) as [Z1 Z2].
      split; auto. apply temp_ok_del; auto. intros E. apply N. exact (A j i v w t Q G E T).
    + intros p Gp. rewrite <- (C p Gp). unfold data_at. cbn. rewrite aget_adel. destruct (Nat.eqb_spec p t) as [->|]; [contradiction|reflexivity].
    + intros p h Gp. rewrite aget_adel. destruct (Nat.eqb_spec p t) as [->|]; [contradiction|]. apply M, Gp.
  - injection R as <- <-. rewrite app_nil_r. now apply del_writer.
  - destruct (HP k eq_refl).
Qed.
Lemma arun_ok es : forall s os s' o, AI s os -> (forall d, In d (dests es) -> D d) -> (forall t, In t (temps es) -> ~ D t) ->
  no_power_loss es -> arun s es = (s', o) -> AI s' (os ++ o).
Proof.
  induction es as [|e es IH]; intros s os s' o H HD HT HP R; cbn in R.
  - injection R as <- <-. now rewrite app_nil_r.
  - destruct (astep s e) as [s1 o1] eqn:S1. destruct (arun s1 es) as [s2 o2] eqn:S2. injection R as <- <-.
    rewrite app_assoc. eapply IH; [|intros d X; apply HD|intros d X; apply HT|intros k X; apply (HP k); right; exact X|exact S2].
    + eapply astep_ok; eauto.
      * intros i d x ->. apply HD. cbn. auto.
      * intros i t ->. apply HT. cbn. auto.
      * intros k ->. apply (HP k). left. reflexivity.
    + unfold dests in *. cbn. apply in_app_iff. auto.
    + unfold temps in *. cbn. apply in_app_iff. auto.
Qed.
End Inv.

Theorem contents_atomic d es s os p : arun (start d) es = (s, os) -> temps_apart es -> no_power_loss es ->
  aget p d <> None \/ In p (dests es) -> data_at p s = last_put p (option_map f_data (aget p d)) os.
Proof.
  intros R T P G. pose proof (arun_ok d (fun x => In x (dests es)) es _ [] s os (AI0 d _) (fun _ H => H) T P R) as H.
  cbn in H. exact (ai_data _ _ _ _ H p G).
Qed.
Theorem mode_kept d es s os p f : arun (start d) es = (s, os) -> temps_apart es -> no_power_loss es ->
  aget p d <> None \/ In p (dests es) -> aget p (a_dir s) = Some f ->
  match aget p d with Some f0 => f_mode f = f_mode f0 \/ f_mode f = N.land (f_mode f0) perm_mask | None => f_mode f = temp_mode end.
Proof.
  intros R T P G F. pose proof (arun_ok d (fun x => In x (dests es)) es _ [] s os (AI0 d _) (fun _ H => H) T P R) as H.
  exact (ai_mode _ _ _ _ H p f G F).
Qed.

(** Results come from calls. *)
Definition from_begin (es : list aevent) (s : ast) : Prop :=
  forall i w, aget i (a_ws s) = Some w -> In (ABegin i (w_dest w) (w_data w)) es.
Lemma step_from_begin es s e s' o : from_begin es s -> astep s e = (s', o) -> from_begin (es ++ [e]) s' /\
  forall i d x, In (ODone i d x) o -> In (ABegin i d x) es.
Proof.
  intros H R.
  assert (W : forall i w, aget i (a_ws s) = Some w -> In (ABegin i (w_dest w) (w_data w)) (es ++ [e])).
  { intros i w G. apply in_app_iff. left. now apply H. }
  assert (SK : (s', o) = (s, []) -> from_begin (es ++ [e]) s' /\ forall i d x, In (ODone i d x) o -> In (ABegin i d x) es).
  { intros [= -> ->]. split; [exact W|intros i d x []]. }
  assert (ST : forall i w w' d, aget i (a_ws s) = Some w -> w_dest w' = w_dest w -> w_data w' = w_data w ->
    (s', o) = (mkA d (aset i w' (a_ws s)), []) -> from_begin (es ++ [e]) s' /\ forall i d x, In (ODone i d x) o -> In (ABegin i d x) es).
  { intros i w w' d G E1 E2 [= -> ->]. split; [|intros a b c []]. intros j v. cbn. rewrite aget_aset. destruct (Nat.eqb_spec j i) as [->|]; [|apply W].
    intros [= <-]. rewrite E1, E2. now apply W. }
  assert (DL : forall i d, from_begin (es ++ [e]) (mkA d (adel i (a_ws s)))).
  { intros i d j v. cbn. rewrite aget_adel. destruct (j =? i); [discriminate|apply W]. }
  destruct e as [i dest data|i|i t|i n|i|i|i|i|k]; cbn [astep] in R.
  - destruct (aget i (a_ws s)) as [w|] eqn:G; [apply SK; congruence|]. injection R as <- <-. split; [|intros a b c []].
    intros j v. cbn. rewrite aget_aset. destruct (Nat.eqb_spec j i) as [->|]; [|apply W]. intros [= <-]. cbn. apply in_app_iff. right. left. reflexivity.
  - destruct (aget i (a_ws s)) as [w|] eqn:G; [|apply SK; congruence].
    destruct (w_phase w); try (apply SK; congruence). eapply ST; [exact G| | |symmetry; exact R]; reflexivity.
  - destruct (aget i (a_ws s)) as [w|] eqn:G; [|apply SK; congruence].
    destruct (w_phase w); try (apply SK; congruence). destruct (aget t (a_dir s)); [apply SK; congruence|]. eapply ST; [exact G| | |symmetry; exact R]; reflexivity.
  - destruct (aget i (a_ws s)) as [w|] eqn:G; [|apply SK; congruence].
    destruct (w_phase w); try (apply SK; congruence). destruct (aget _ (a_dir s)) eqn:F; [|apply SK; congruence]. eapply ST; [exact G| | |symmetry; exact R]; reflexivity.
  - destruct (aget i (a_ws s)) as [w|] eqn:G; [|apply SK; congruence].
    destruct (w_phase w) as [|q|u q [|y rest]|u]; try (apply SK; congruence). destruct (aget _ (a_dir s)) eqn:F; [|apply SK; congruence]. eapply ST; [exact G| | |symmetry; exact R]; reflexivity.
  - destruct (aget i (a_ws s)) as [w|] eqn:G; [|apply SK; congruence].
    destruct (w_phase w); try (apply SK; congruence). destruct (aget _ (a_dir s)) eqn:F; [|apply SK; congruence]. injection R as <- <-.
    split; [apply DL|]. intros a' b' c' [[= <- <- <-]|[]]. now apply H.
  - destruct (aget i (a_ws s)) as [w|] eqn:G; [|apply SK; congruence]. injection R as <- <-. split; [apply DL|]. intros a b c [X|[]]; discriminate.
  - injection R as <- <-. split; [apply DL|]. intros a b c [].
  - injection R as <- <-. split; [|intros a b c []]. intros j v. cbn. discriminate.
Qed.
Lemma run_from_begin es : forall pre s s' o, from_begin pre s -> arun s es = (s', o) ->
  forall i d x, In (ODone i d x) o -> In (ABegin i d x) (pre ++ es).
Proof.
  induction es as [|e es IH]; intros pre s s' o H R i d x I; cbn in R.
  - injection R as <- <-. destruct I.
  - destruct (astep s e) as [s1 o1] eqn:S1. destruct (arun s1 es) as [s2 o2] eqn:S2. injection R as <- <-.
    destruct (step_from_begin _ _ _ _ _ H S1) as [F1 F2]. apply in_app_iff in I. destruct I as [I|I].
    + apply in_app_iff. left. eauto.
    + replace (pre ++ e :: es) with ((pre ++ [e]) ++ es) by now rewrite <- app_assoc. eapply IH; eauto.
Qed.
Theorem done_was_asked d es s os i p x : arun (start d) es = (s, os) -> In (ODone i p x) os -> In (ABegin i p x) es.
Proof. intros R. apply (run_from_begin es [] (start d) s os); auto. intros j w H. discriminate. Qed.

(** Nothing is left behind. *)
Definition names_ok (d : list (nat * afile)) (os : list aout) (s : ast) : Prop :=
  forall p, aget p (a_dir s) <> None -> aget p d <> None \/ (exists i x, In (ODone i p x) os) \/ exists i w, aget i (a_ws s) = Some w /\ temp_of w = Some p.
Lemma step_names d os s e s' o : names_ok d os s -> (forall i, e <> AKill i) -> (forall k, e <> APower k) -> astep s e = (s', o) -> names_ok d (os ++ o) s'.
Proof.
  intros H K1 K2 R.
  assert (W : forall p, aget p (a_dir s) <> None -> aget p d <> None \/ (exists i x, In (ODone i p x) (os ++ o)) \/ exists i w, aget i (a_ws s) = Some w /\ temp_of w = Some p).
  { intros p X. destruct (H p X) as [Y|[(i & x & Y)|Y]]; auto. right. left. exists i, x. apply in_app_iff. auto. }
  assert (SK : (s', o) = (s, []) -> names_ok d (os ++ o) s') by (intros [= -> ->]; exact W).
  assert (ST : forall i w' d', (forall p, aget p d' <> None -> aget p (a_dir s) <> None \/ temp_of w' = Some p) ->
    (forall w p, aget i (a_ws s) = Some w -> temp_of w = Some p -> temp_of w' = Some p) ->
    (s', o) = (mkA d' (aset i w' (a_ws s)), []) -> names_ok d (os ++ o) s').
  { intros i w' d' Q1 Q2 [= -> ->] p X. cbn in *.
    assert (N : temp_of w' = Some p -> exists j w, aget j (aset i w' (a_ws s)) = Some w /\ temp_of w = Some p).
    { intros T. exists i, w'. rewrite aget_aset_eq. auto. }
    destruct (Q1 p X) as [Y|Y]; [|auto]. destruct (W p Y) as [Z|[Z|(j & w & Z1 & Z2)]]; auto.
    destruct (Nat.eq_dec j i) as [->|Nj]; [right; right; apply N; eauto|]. right. right. exists j, w. rewrite aget_aset_neq; auto. }
  destruct e as [i dest data|i|i t|i n|i|i|i|i|k]; cbn [astep] in R.
  - destruct (aget i (a_ws s)) as [w|] eqn:G; [apply SK; congruence|]. eapply ST; [| |symmetry; exact R]; auto. congruence.
  - destruct (aget i (a_ws s)) as [w|] eqn:G; [|apply SK; congruence].
    destruct (w_phase w) eqn:P; try (apply SK; congruence). eapply ST; [| |symmetry; exact R]; auto.
    intros v p Q. rewrite G in Q. injection Q as <-. unfold temp_of. rewrite P. discriminate.
  - destruct (aget i (a_ws s)) as [w|] eqn:G; [|apply SK; congruence].
    destruct (w_phase w) eqn:P; try (apply SK; congruence). destruct (aget t (a_dir s)) eqn:F; [apply SK; congruence|].
    eapply ST; [| |symmetry; exact R].
    + intros p. rewrite aget_aset. destruct (Nat.eqb_spec p t) as [->|]; auto.
    + intros v p Q. rewrite G in Q. injection Q as <-. unfold temp_of. rewrite P. discriminate.
  - destruct (aget i (a_ws s)) as [w|] eqn:G; [|apply SK; congruence].
    destruct (w_phase w) eqn:P; try (apply SK; congruence). destruct (aget t (a_dir s)) eqn:F; [|apply SK; congruence].
    eapply ST; [| |symmetry; exact R].
    + intros p. rewrite aget_aset. destruct (Nat.eqb_spec p t) as [->|]; auto.
    + intros v p Q. rewrite G in Q. injection Q as <-. unfold temp_of. rewrite P. auto.
  - destruct (aget i (a_ws s)) as [w|] eqn:G; [|apply SK; congruence].
    destruct (w_phase w) as [|q|u q [|y rest]|u] eqn:P; try (apply SK; congruence). destruct (aget u (a_dir s)) eqn:F; [|apply SK; congruence].
    eapply ST; [| |symmetry; exact R].
    + intros p. destruct q; auto. rewrite aget_aset. destruct (Nat.eqb_spec p u) as [->|]; auto.
    + intros v p Q. rewrite G in Q. injection Q as <-. unfold temp_of. rewrite P. auto.
  - destruct (aget i (a_ws s)) as [w|] eqn:G; [|apply SK; congruence].
    destruct (w_phase w) eqn:P; try (apply SK; congruence). destruct (aget t (a_dir s)) eqn:F; [|apply SK; congruence]. injection R as <- <-.
    intros p. cbn. rewrite aget_aset, aget_adel. destruct (Nat.eqb_spec p (w_dest w)) as [->|].
    + intros _. right. left. exists i, (w_data w). apply in_app_iff. right. left. reflexivity.
    + destruct (Nat.eqb_spec p t) as [->|N]; [congruence|]. intros X. destruct (W p X) as [Z|[Z|(j & v & Z1 & Z2)]]; auto.
      right. right. exists j, v. rewrite aget_adel_neq; auto. intros ->. rewrite G in Z1. injection Z1 as <-. unfold temp_of in Z2. rewrite P in Z2. congruence.
  - destruct (aget i (a_ws s)) as [w|] eqn:G; [|apply SK; congruence]. injection R as <- <-. intros p. cbn. unfold drop_temp. intros X.
    assert (Y : aget p (a_dir s) <> None /\ temp_of w <> Some p).
    { destruct (temp_of w) as [t|] eqn:T; [|split; congruence]. rewrite aget_adel in X. destruct (Nat.eqb_spec p t) as [->|]; [congruence|]. split; congruence. }
    destruct Y as [Y1 Y2]. destruct (W p Y1) as [Z|[Z|(j & v & Z1 & Z2)]]; auto.
    right. right. exists j, v. rewrite aget_adel_neq; auto. intros ->. rewrite G in Z1. injection Z1 as <-. contradiction.
  - destruct (K1 i eq_refl).
  - destruct (K2 k eq_refl).
Qed.
Lemma run_names d es : forall os s s' o, names_ok d os s -> no_kill es -> no_power_loss es -> arun s es = (s', o) -> names_ok d (os ++ o) s'.
Proof.
  induction es as [|e es IH]; intros os s s' o H K P R; cbn in R.
  - injection R as <- <-. now rewrite app_nil_r.
  - destruct (astep s e) as [s1 o1] eqn:S1. destruct (arun s1 es) as [s2 o2] eqn:S2. injection R as <- <-. rewrite app_assoc.
    eapply IH; [eapply step_names; eauto| | |exact S2].
    + intros i ->. apply (K i). left. reflexivity.
    + intros k ->. apply (P k). left. reflexivity.
    + intros i X. apply (K i). right. exact X.
    + intros k X. apply (P k). right. exact X.
Qed.
Theorem nothing_left d es s os p : arun (start d) es = (s, os) -> no_kill es -> no_power_loss es -> a_ws s = [] ->
  aget p (a_dir s) <> None -> aget p d <> None \/ exists i x, In (ODone i p x) os.
Proof.
  intros R K P W X. assert (H : names_ok d os s).
  { apply (run_names d es [] (start d) s os); auto. intros q Q. auto. }
  destruct (H p X) as [Y|[Y|(i & w & Y & _)]]; auto. rewrite W in Y. discriminate.
Qed.
