(** The search for references visits the files it should, each once. *)
From Coq Require Import List Arith Bool Lia FinFun.
From Verif Require Import ScopeModel ScopeSpec RefsModel RefsSpec.
Import ListNotations.

Lemma mem_iff x l : existsb (Nat.eqb x) l = true <-> In x l.
Proof.
  rewrite existsb_exists. split.
  - intros [y [I E]]. apply Nat.eqb_eq in E. now subst.
  - intros I. exists x. split; [exact I|apply Nat.eqb_refl].
Qed.

Lemma dependents_in P f k : In k (dependents P f) <-> imports_ws P f k.
Proof.
  unfold dependents, imports_ws. split.
  - destruct (nth_error P f) as [i|] eqn:F; [|intros []]. destruct (i_ws i) eqn:Wi; [|intros []].
    intros H. apply filter_In in H. destruct H as [_ H].
    destruct (nth_error P k) as [j|] eqn:K; [|discriminate]. apply andb_prop in H. destruct H as [H1 H2].
    apply mem_iff in H2. exists i, j. auto.
  - intros [i [j [-> [K [Wi [Wj I]]]]]]. rewrite Wi. apply filter_In. split.
    + apply in_seq. split; [lia|]. cbn. apply nth_error_Some. congruence.
    + rewrite K, Wj. cbn. now apply mem_iff.
Qed.

Lemma refs_in_iff d i s :
  In s (refs_in d i) <-> s <> 0 /\ exists r, find s (i_table i) = Some r /\ is_ref d r = true.
Proof.
  unfold refs_in. rewrite filter_In, nodup_In. split.
  - intros [_ H]. apply andb_prop in H. destruct H as [H1 H2]. apply negb_true_iff, Nat.eqb_neq in H1.
    destruct (find s (i_table i)) as [r|]; [|discriminate]. eauto.
  - intros [H1 [r [F R]]]. split.
    + revert F. induction (i_table i) as [|[y b] l IH]; [discriminate|]. cbn.
      destruct (Nat.eqb s y) eqn:Q; [apply Nat.eqb_eq in Q; subst; auto|auto].
    + rewrite F, R. apply Nat.eqb_neq in H1. now rewrite H1.
Qed.

(** Putting files on the list. *)
Lemma push_spec l : forall st,
  NoDup (searched st) -> NoDup (work st) -> incl (work st) (searched st) ->
  let st' := fold_left push l st in
  NoDup (searched st') /\ NoDup (work st') /\ incl (work st') (searched st')
  /\ (forall k, In k (searched st') <-> In k (searched st) \/ In k l)
  /\ (forall k, In k (work st') <-> In k (work st) \/ (In k l /\ ~ In k (searched st)))
  /\ length (searched st') + length (work st) = length (searched st) + length (work st')
  /\ out st' = out st.
Proof.
  induction l as [|f l IH]; intros st N1 N2 I; cbn [fold_left].
  - cbn. repeat split; auto; try tauto. 
  - assert (H : let st1 := push st f in
      NoDup (searched st1) /\ NoDup (work st1) /\ incl (work st1) (searched st1)
      /\ (forall k, In k (searched st1) <-> In k (searched st) \/ k = f)
      /\ (forall k, In k (work st1) <-> In k (work st) \/ (k = f /\ ~ In k (searched st)))
      /\ length (searched st1) + length (work st) = length (searched st) + length (work st1)
      /\ out st1 = out st).
    { cbn zeta. unfold push. destruct (existsb (Nat.eqb f) (searched st)) eqn:E.
      - apply mem_iff in E. split; [exact N1|]. split; [exact N2|]. split; [exact I|]. split; [|split; [|auto]].
        + intros k. split; [auto|]. intros [H| ->]; auto.
        + intros k. split; [auto|]. intros [H|[-> H]]; [auto|contradiction].
      - assert (E' : ~ In f (searched st)) by (intros X; apply mem_iff in X; congruence).
        cbn [searched work out]. split; [now constructor|]. split; [constructor; [intros X; apply E', I, X|exact N2]|].
        split; [intros k [<-|X]; [now left|right; now apply I]|]. split; [|split; [|split; [cbn; lia|reflexivity]]].
        + intros k. cbn. split; intros [X|X]; auto.
        + intros k. cbn. split.
          * intros [<-|X]; [right; auto|auto].
          * intros [X|[-> X]]; auto. }
    cbn zeta in H. destruct H as [M1 [M2 [M3 [M4 [M5 [M6 M7]]]]]].
    destruct (IH (push st f) M1 M2 M3) as [R1 [R2 [R3 [R4 [R5 [R6 R7]]]]]].
    cbn zeta. split; [exact R1|]. split; [exact R2|]. split; [exact R3|]. split; [|split; [|split]].
    + intros k. rewrite R4, M4. cbn [In]. split; [intros [[H|H]|H]; auto|intros [H|[H|H]]; auto].
    + intros k. rewrite R5, M4, M5. cbn [In].
      split.
      * intros [[H|[H1 H2]]|[H1 H2]]; [auto|subst; auto|]. right. split; [auto|]. intros H. apply H2. auto.
      * intros [H|[[H|H] H2]]; [auto|subst; auto|]. destruct (Nat.eq_dec k f) as [->|N]; [auto|].
        right. split; [exact H|]. intros [Y|Y]; contradiction.
    + lia.
    + congruence.
Qed.

Section Search.
Variables (P : list info) (d : decl) (f0 : nat).

Let mentions_d (k : nat) : Prop := mentions_name P d k.

(** [done]: the files visited. *)
Record sinv (done : list nat) (st : search) : Prop := {
  s_nodup : NoDup (searched st);
  s_work : NoDup (work st);
  s_incl : incl (work st) (searched st);
  s_after : forall k, In k (searched st) -> after P d f0 k;
  s_done : forall k, In k done <-> k = f0 \/ (In k (searched st) /\ ~ In k (work st));
  s_closed : forall f k, In f done -> hands_on P d f -> imports_ws P f k -> In k (searched st);
  s_out : forall k s, In (k, s) (out st) <-> In k done /\ mentions_d k /\ refers P d k s }.

Lemma visit_spec f st :
  NoDup (searched st) -> NoDup (work st) -> incl (work st) (searched st) ->
  let st' := visit P d f st in
  NoDup (searched st') /\ NoDup (work st') /\ incl (work st') (searched st')
  /\ (forall k, In k (searched st') <-> In k (searched st) \/ (hands_on P d f /\ imports_ws P f k))
  /\ (forall k, In k (work st') <-> In k (work st) \/ (~ In k (searched st) /\ hands_on P d f /\ imports_ws P f k))
  /\ length (searched st') + length (work st) = length (searched st) + length (work st')
  /\ (exists new, out st' = new ++ out st
       /\ (forall k s, In (k, s) new <-> k = f /\ mentions_d f /\ refers P d f s) /\ NoDup new).
Proof.
  intros N1 N2 I. cbn zeta. unfold visit, hands_on.
  destruct (nth_error P f) as [i|] eqn:F.
  2:{ split; [exact N1|]. split; [exact N2|]. split; [exact I|]. split; [|split; [|split; [lia|]]].
      - intros k. split; [auto|]. intros [H|[[i [H _]] _]]; [exact H|discriminate].
      - intros k. split; [auto|]. intros [H|[_ [[i [H _]] _]]]; [exact H|discriminate].
      - exists []. split; [reflexivity|]. split; [|constructor]. intros k s. split; [intros []|].
        intros [_ [[i [H _]] _]]. congruence. }
  destruct (existsb (Nat.eqb (dname d)) (i_idents i)) eqn:E.
  2:{ assert (X : ~ In (dname d) (i_idents i)) by (intros X; apply mem_iff in X; congruence).
      split; [exact N1|]. split; [exact N2|]. split; [exact I|]. split; [|split; [|split; [lia|]]].
      - intros k. split; [auto|]. intros [H|[[i' [[= <-] [H _]]] _]]; [exact H|contradiction].
      - intros k. split; [auto|]. intros [H|[_ [[i' [[= <-] [H _]]] _]]]; [exact H|contradiction].
      - exists []. split; [reflexivity|]. split; [|constructor]. intros k s. split; [intros []|].
        intros [_ [[i' [H H1]] _]]. rewrite F in H. injection H as <-. contradiction. }
  apply mem_iff in E.
  set (st1 := mksearch (searched st) (work st) (map (fun s => (f, s)) (refs_in d i) ++ out st)).
  assert (O : exists new, out st1 = new ++ out st
       /\ (forall k s, In (k, s) new <-> k = f /\ mentions_d f /\ refers P d f s) /\ NoDup new).
  { exists (map (fun s => (f, s)) (refs_in d i)). split; [reflexivity|]. split.
    - intros k s. rewrite in_map_iff. split.
      + intros [s' [[= <- <-] H]]. apply refs_in_iff in H. destruct H as [H1 [r [H2 H3]]].
        split; [reflexivity|]. split; [exists i; auto|]. exists i, r. auto.
      + intros [-> [_ [i' [r [H1 [H2 [H3 H4]]]]]]]. rewrite F in H1. injection H1 as <-.
        exists s. split; [reflexivity|]. apply refs_in_iff. eauto.
    - apply FinFun.Injective_map_NoDup; [intros a b [= H]; exact H|]. apply NoDup_filter, NoDup_nodup. }
  destruct (is_exported d (i_exports i)) eqn:X.
  - unfold push_dependents. destruct (push_spec (dependents P f) st1 N1 N2 I) as [R1 [R2 [R3 [R4 [R5 [R6 R7]]]]]].
    split; [exact R1|]. split; [exact R2|]. split; [exact R3|]. split; [|split; [|split; [exact R6|rewrite R7; exact O]]].
    + intros k. rewrite R4, dependents_in. cbn [searched st1]. split; intros [H|H]; auto.
      * right. split; [exists i; auto|exact H].
      * right. apply H.
    + intros k. rewrite R5, dependents_in. cbn [searched work st1]. split; intros [H|H]; auto.
      * right. split; [apply H|]. split; [exists i; auto|apply H].
      * right. split; apply H.
  - split; [exact N1|]. split; [exact N2|]. split; [exact I|]. split; [|split; [|split; [reflexivity|exact O]]].
    + intros k. split; [auto|]. intros [H|[[i' [[= <-] [_ H]]] _]]; [exact H|congruence].
    + intros k. split; [auto|]. intros [H|[_ [[i' [[= <-] [_ H]]] _]]]; [exact H|congruence].
Qed.

Lemma after_reached k : after P d f0 k -> reached P d f0 k.
Proof. intros [f k' R H I]. eapply reached_next; eauto. Qed.

Lemma sinv_start : sinv [f0] (visit P d f0 (mksearch [] [] [])).
Proof.
  destruct (visit_spec f0 (mksearch [] [] [])) as [R1 [R2 [R3 [R4 [R5 [R6 [new [R7 [R8 R9]]]]]]]]];
    [constructor|constructor|intros ? []|].
  split; auto.
  - intros k H. apply R4 in H. destruct H as [[]|[H1 H2]]. eapply after_next; [apply reached_here|exact H1|exact H2].
  - intros k. cbn. split; [intros [<-|[]]; auto|]. intros [->|[H1 H2]]; [auto|].
    exfalso. apply H2. apply R5. right. split; [intros []|]. apply R4 in H1. destruct H1 as [[]|H1]. exact H1.
  - intros f k [<-|[]] H I. apply R4. auto.
  - intros k s. rewrite R7. cbn [out]. rewrite app_nil_r, R8. cbn. split.
    + intros [-> [H1 H2]]. auto.
    + intros [[<-|[]] [H1 H2]]. auto.
Qed.

Lemma sinv_step done f w st :
  sinv done st -> work st = f :: w ->
  sinv (f :: done) (visit P d f (mksearch (searched st) w (out st))).
Proof.
  intros [a1 a2 a3 a4 a5 a6 a7] E. rewrite E in *. inversion a2 as [|? ? a2' a2'']; subst.
  destruct (visit_spec f (mksearch (searched st) w (out st))) as [R1 [R2 [R3 [R4 [R5 [R6 [new [R7 [R8 R9]]]]]]]]];
    cbn [searched work out] in *; [exact a1|exact a2''|intros k H; apply a3; now right|].
  assert (Sf : In f (searched st)) by (apply a3; now left).
  split; auto.
  - intros k H. apply R4 in H. destruct H as [H|[H1 H2]]; [auto|].
    eapply after_next; [|exact H1|exact H2]. apply after_reached, a4, Sf.
  - intros k. cbn [In]. rewrite a5, R4, R5. cbn [In].
    destruct (Nat.eq_dec k f) as [->|N].
    + split; [|auto]. intros _. right. split; [left; exact Sf|]. intros [H|[H _]]; contradiction.
    + split.
      * intros [H|[H|[H1 H2]]]; [congruence|auto|]. right. split; [auto|]. intros [H|[H _]]; [apply H2; auto|contradiction].
      * intros [H|[[H1|H1] H2]]; [auto|right; right; split; [exact H1|]|].
        -- intros [H|H]; [congruence|]. apply H2. auto.
        -- right. right. destruct (in_dec Nat.eq_dec k (searched st)) as [Y|Y].
           ++ split; [exact Y|]. intros [H|H]; [congruence|apply H2; auto].
           ++ exfalso. apply H2. right. split; [exact Y|exact H1].
  - intros g k [<-|H] H1 H2; apply R4; [auto|]. left. eapply a6; eauto.
  - intros k s. rewrite R7, in_app_iff, R8, a7. cbn [In]. split.
    + intros [[-> [H1 H2]]|[H1 H2]]; auto.
    + intros [[<-|H] H1]; auto.
Qed.

Lemma loop_spec n : forall done st,
  sinv done st -> length P + length (work st) <= n + length (searched st) ->
  exists done', sinv done' (loop P d n st) /\ work (loop P d n st) = [].
Proof.
  induction n as [|n IH]; intros done st V L.
  - cbn. exists done. split; [exact V|]. destruct (work st) as [|f w] eqn:E; [reflexivity|]. exfalso.
    assert (B : length (searched st) <= length P).
    { rewrite <- (seq_length (length P) 0). apply NoDup_incl_length; [apply (s_nodup _ _ V)|].
      intros k H. apply (s_after _ _ V) in H. destruct H as [g k' _ _ [i [j [_ [K _]]]]].
      apply in_seq. split; [lia|]. cbn. apply nth_error_Some. congruence. }
    cbn in L. lia.
  - cbn [loop]. destruct (work st) as [|f w] eqn:E; [exists done; auto|].
    apply (IH (f :: done)); [now apply sinv_step|].
    destruct (visit_spec f (mksearch (searched st) w (out st))) as [_ [_ [_ [_ [_ [R6 _]]]]]];
      cbn [searched work out] in *.
    + apply (s_nodup _ _ V).
    + pose proof (s_work _ _ V) as Nw. rewrite E in Nw. now inversion Nw.
    + intros k H. apply (s_incl _ _ V). rewrite E. now right.
    + cbn in L. lia.
Qed.

Theorem search_ends n : length P <= n -> work (references P d f0 n) = [].
Proof.
  intros L. destruct (loop_spec n [f0] (visit P d f0 (mksearch [] [] [])) sinv_start) as [done [_ H]]; [|exact H].
  destruct (visit_spec f0 (mksearch [] [] [])) as [_ [_ [_ [_ [_ [R6 _]]]]]];
    [constructor|constructor|intros ? []|]. cbn in R6. lia.
Qed.

Theorem search_finds n : length P <= n -> forall k s,
  In (k, s) (out (references P d f0 n)) <-> reached P d f0 k /\ mentions_d k /\ refers P d k s.
Proof.
  intros L k s.
  destruct (loop_spec n [f0] (visit P d f0 (mksearch [] [] [])) sinv_start) as [done [V E]].
  { destruct (visit_spec f0 (mksearch [] [] [])) as [_ [_ [_ [_ [_ [R6 _]]]]]];
      [constructor|constructor|intros ? []|]. cbn in R6. lia. }
  unfold references. rewrite (s_out _ _ V).
  assert (D : forall j, In j done <-> reached P d f0 j).
  { intros j. split.
    - intros H. apply (s_done _ _ V) in H. destruct H as [->|[H _]]; [apply reached_here|].
      apply after_reached, (s_after _ _ V), H.
    - induction 1 as [|f j R IH H I]; apply (s_done _ _ V); [now left|]. right. split.
      + eapply (s_closed _ _ V); eauto.
      + rewrite E. intros []. }
  rewrite D. tauto.
Qed.

(** Each reference once, unless the definition's own file comes after it. *)
Lemma loop_nodup : ~ after P d f0 f0 -> forall n done st,
  sinv done st -> NoDup (out st) -> NoDup (out (loop P d n st)).
Proof.
  intros A. induction n as [|n IH]; intros done st V N; [exact N|]. cbn [loop].
  destruct (work st) as [|f w] eqn:E; [exact N|].
  apply (IH (f :: done)); [now apply sinv_step|].
  destruct (visit_spec f (mksearch (searched st) w (out st))) as [_ [_ [_ [_ [_ [_ [new [R7 [R8 R9]]]]]]]]];
    cbn [searched work out] in *.
  - apply (s_nodup _ _ V).
  - pose proof (s_work _ _ V) as Nw. rewrite E in Nw. now inversion Nw.
  - intros k H. apply (s_incl _ _ V). rewrite E. now right.
  - rewrite R7. clear R7.
    assert (ND : ~ In f done).
    { intros H. apply (s_done _ _ V) in H. rewrite E in H. destruct H as [->|[_ H]].
      - apply A. apply (s_after _ _ V), (s_incl _ _ V). rewrite E. now left.
      - apply H. now left. }
    assert (D : forall x, In x new -> ~ In x (out st)).
    { intros [k s] H1 H2. apply R8 in H1. apply (s_out _ _ V) in H2. destruct H1 as [-> _]. apply ND, H2. }
    clear R8. induction new as [|x new IHn]; [exact N|]. cbn. inversion R9; subst. constructor.
    + intros H. apply in_app_or in H. destruct H as [H|H]; [contradiction|]. apply (D x); [now left|exact H].
    + apply IHn; auto. intros y Hy. apply D. now right.
Qed.

Theorem search_once n : ~ after P d f0 f0 -> NoDup (out (references P d f0 n)).
Proof.
  intros A. apply (loop_nodup A n [f0]); [apply sinv_start|].
  destruct (visit_spec f0 (mksearch [] [] [])) as [_ [_ [_ [_ [_ [_ [new [R7 [_ R9]]]]]]]]];
    [constructor|constructor|intros ? []|]. rewrite R7. cbn. now rewrite app_nil_r.
Qed.

Lemma acyclic_once : (forall k i f, nth_error P k = Some i -> In f (i_imports i) -> f < k) -> ~ after P d f0 f0.
Proof.
  intros A.
  assert (R : forall k, reached P d f0 k -> f0 <= k).
  { induction 1 as [|f k _ IH _ [i [j [_ [K [_ [_ I]]]]]]]; [lia|]. specialize (A _ _ _ K I). lia. }
  intros H. inversion H as [f k F _ [i [j [_ [K [_ [_ I]]]]]] E]. specialize (A _ _ _ K I). specialize (R _ F). lia.
Qed.
End Search.
