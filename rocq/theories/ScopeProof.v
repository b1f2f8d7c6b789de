(** Proofs about the resolution of names. *)
From Coq Require Import List Arith Bool Lia.
From Verif Require Import ScopeModel ScopeSpec.
Import ListNotations.

(** * Looking up *)

Definition srch (W : world) (w : st) (x : nat) := search W (last w :: up w) x.

Lemma library_eq W m x : library W m x = lib_get W m x.
Proof. destruct m; reflexivity. Qed.

Lemma srch_insert W y e w x :
  srch W (insert y e w) x = if Nat.eqb x y then (Some e, None) else srch W w x.
Proof.
  unfold srch, insert. destruct (last w) as [m|v] eqn:L; cbn.
  - destruct (Nat.eqb x y) eqn:Q; [reflexivity|].  reflexivity.
  - destruct (Nat.eqb x y) eqn:Q; reflexivity.
Qed.

Lemma empty_get W sc x : scope_empty W sc = true -> scope_get W sc x = (None, None).
Proof.
  destruct sc as [[|]|v]; cbn; try discriminate; [reflexivity|].
  destruct (members W v); [reflexivity|discriminate].
Qed.

Lemma srch_push W sc w x :
  srch W (push_scope W sc w) x =
  if found (scope_get W sc x) then scope_get W sc x else srch W w x.
Proof.
  unfold srch, push_scope. cbn [last up set_scopes search].
  destruct (scope_empty W (last w)) eqn:Q; [|reflexivity].
  rewrite (empty_get _ _ x Q). reflexivity.
Qed.

Lemma srch_open W w x : srch W (set_scopes (SLex []) (last w :: up w) w) x = srch W w x.
Proof. reflexivity. Qed.

Lemma search_shape W l x : match search W l x with (Some _, Some _) => False | _ => True end.
Proof.
  induction l as [|sc l IH]; [exact I|]. cbn.
  destruct sc as [m|v]; cbn.
  - destruct (find x m); cbn; [exact I|exact IH].
  - destruct (find x (members W v)); cbn; [exact I|exact IH].
Qed.

(** * Scopes that agree with an environment *)

Definition agr (r : option expr * option nat) (o : option tgt) : Prop :=
  match r with
  | (Some e, _) => o = Some (texp e)
  | (None, Some v) => o = Some (TVal v)
  | (None, None) => o = None
  end.

Definition agree (W : world) (x : nat) (w : st) (E : env) : Prop := agr (srch W w x) (find x E).

Definition plainw (w : st) : Prop :=
  forall m x e, In (SLex m) (last w :: up w) -> In (x, e) m -> plain e = true.

Lemma find_in {A} x (l : list (nat * A)) a : find x l = Some a -> In (x, a) l.
Proof.
  induction l as [|[y b] l IH]; [discriminate|]. cbn.
  destruct (Nat.eqb x y) eqn:Q.
  - apply Nat.eqb_eq in Q. intros [= ->]. left. congruence.
  - intros H. right. auto.
Qed.

Lemma find_none {A} x (l : list (nat * A)) : find x l = None <-> ~ In x (map fst l).
Proof.
  induction l as [|[y b] l IH]; cbn; [tauto|].
  destruct (Nat.eqb x y) eqn:Q.
  - apply Nat.eqb_eq in Q. split; [discriminate|]. intros H. exfalso. apply H. left. congruence.
  - apply Nat.eqb_neq in Q. rewrite IH. split.
    + intros H [E|E]; [congruence|auto].
    + intros H E. apply H. now right.
Qed.

Lemma find_app {A} x (a b : list (nat * A)) :
  find x (a ++ b) = match find x a with Some r => Some r | None => find x b end.
Proof.
  induction a as [|[y c] a IH]; [reflexivity|]. cbn. destruct (Nat.eqb x y); [reflexivity|exact IH].
Qed.

Lemma find_map {A B} (g : A -> B) x (l : list (nat * A)) :
  find x (map (fun '(y, a) => (y, g a)) l) = option_map g (find x l).
Proof.
  induction l as [|[y a] l IH]; [reflexivity|]. cbn. destruct (Nat.eqb x y); [reflexivity|exact IH].
Qed.

Lemma srch_plain W w x e v : plainw w -> srch W w x = (Some e, v) -> plain e = true.
Proof.
  unfold srch. intros P. assert (G : forall l, incl l (last w :: up w) -> search W l x = (Some e, v) -> plain e = true).
  { induction l as [|sc l IH]; intros L; [discriminate|]. cbn.
    destruct (found (scope_get W sc x)) eqn:F.
    - destruct sc as [m|u]; cbn; [|discriminate]. intros [= H _].
      apply (P m x e); [apply L; now left|now apply find_in].
    - intros H. apply IH; [|exact H]. intros y Y. apply L. now right. }
  apply G. apply incl_refl.
Qed.

Lemma agree_insert W x y e w E t :
  t = texp e -> agree W x w E -> agree W x (insert y e w) ((y, t) :: E).
Proof.
  intros -> H. unfold agree. rewrite srch_insert. cbn [find].
  destruct (Nat.eqb x y); [reflexivity|exact H].
Qed.

Lemma agree_insert_other W x y e w E :
  x <> y -> agree W x w E -> agree W x (insert y e w) E.
Proof.
  intros N H. unfold agree. rewrite srch_insert.
  apply Nat.eqb_neq in N. now rewrite N.
Qed.

Lemma plain_insert y e w : plain e = true -> plainw w -> plainw (insert y e w).
Proof.
  intros Q P. unfold insert. destruct (last w) as [m|v] eqn:L; intros m' x e'; cbn; intros [H|H] I.
  - injection H as <-. destruct I as [I|I]; [injection I as <- <-; exact Q|].
    apply (P m x e'); [left; exact L|exact I].
  - apply (P m' x e'); [right; exact H|exact I].
  - injection H as <-. destruct I as [I|[]]. injection I as <- <-. exact Q.
  - apply (P m' x e'); [|exact I]. destruct H as [H|H]; [discriminate|now right].
Qed.

Lemma last_resolve s r w : last (resolve_at s r w) = last w. Proof. reflexivity. Qed.

(** * The effect on the table *)

Definition fits (r : refx) (t : tgt) : Prop :=
  tgt_of_ref r = t /\ forall d, local d = true -> (is_ref d r = true <-> t = TDef d).

Definition silent (r : refx) : Prop := forall d, local d = true -> is_ref d r = false.

Record good (mk : list nat) (us : list use) (w w' : st) : Prop := {
  g_init : init w' = init w;
  g_stuck : stuck w' = stuck w;
  g_crashed : crashed w' = crashed w;
  g_up : exists pre, up w' = pre ++ up w;
  g_plain : plainw w -> plainw w';
  g_in : forall k s t, In (k, s, t) us -> In s mk;
  g_buf : exists new,
    buf w' = new ++ buf w /\ incl (map fst new) mk
    /\ (forall s t, In (false, s, t) us -> exists r, find s new = Some r /\ fits r t)
    /\ (forall s r, find s new = Some r -> (exists t, In (false, s, t) us /\ fits r t) \/ silent r);
  g_deps : exists new, deps w' = new ++ deps w /\ forall s f, In (true, s, TMod f) us -> In f new }.

Lemma good_refl mk w : good mk [] w w.
Proof.
  split; try reflexivity; auto.
  - now exists [].
  - intros k s t [].
  - exists []. split; [reflexivity|]. split; [intros s []|]. split; [intros s t []|discriminate].
  - exists []. split; [reflexivity|intros s f []].
Qed.

Lemma good_seq m1 m2 u1 u2 w w1 w2 :
  good m1 u1 w w1 -> good m2 u2 w1 w2 -> (forall s, In s m1 -> In s m2 -> False) ->
  good (m1 ++ m2) (u1 ++ u2) w w2.
Proof.
  intros [a1 a2 a3 [p1 a4] a5 a6 [n1 [a7 [a8 [a9 a10]]]] [d1 [a11 a12]]]
    [b1 b2 b3 [p2 b4] b5 b6 [n2 [b7 [b8 [b9 b10]]]] [d2 [b11 b12]]] D.
  split; try congruence; auto.
  - exists (p2 ++ p1). rewrite b4, a4. apply app_assoc.
  - intros k s t H. apply in_app_iff. apply in_app_iff in H. destruct H; eauto.
  - exists (n2 ++ n1).
    assert (K1 : forall s r, find s n1 = Some r -> In s m1)
      by (intros s r H; apply a8; apply find_in in H; apply (in_map fst) in H; exact H).
    assert (K2 : forall s r, find s n2 = Some r -> In s m2)
      by (intros s r H; apply b8; apply find_in in H; apply (in_map fst) in H; exact H).
    split; [rewrite b7, a7; apply app_assoc|]. split; [|split].
    + intros s. rewrite map_app. rewrite !in_app_iff. intros [H|H]; auto.
    + intros s t H. rewrite find_app. apply in_app_iff in H. destruct H as [H|H].
      * destruct (a9 _ _ H) as [r [R1 R2]]. exists r. split; [|exact R2].
        destruct (find s n2) eqn:F; [|exact R1]. exfalso. eapply D; eauto.
      * destruct (b9 _ _ H) as [r [R1 R2]]. exists r. rewrite R1. auto.
    + intros s r. rewrite find_app. destruct (find s n2) eqn:F.
      * intros [= <-]. destruct (b10 _ _ F) as [[t [T1 T2]]|S]; [left; exists t; rewrite in_app_iff; auto|auto].
      * intros H. destruct (a10 _ _ H) as [[t [T1 T2]]|S]; [left; exists t; rewrite in_app_iff; auto|auto].
  - exists (d2 ++ d1). split; [rewrite b11, a11; apply app_assoc|].
    intros s f H. apply in_app_iff. apply in_app_iff in H. destruct H; eauto.
Qed.

Lemma good_equiv m m' u u' w w' :
  incl m m' -> (forall x, In x u <-> In x u') -> good m u w w' -> good m' u' w w'.
Proof.
  intros M U [a1 a2 a3 a4 a5 a6 [n1 [a7 [a8 [a9 a10]]]] [d1 [a11 a12]]]. split; auto.
  - intros k s t H. apply M. eapply a6. apply U. exact H.
  - exists n1. split; [exact a7|]. split; [eapply incl_tran; eauto|]. split.
    + intros s t H. apply a9. now apply U.
    + intros s r H. destruct (a10 _ _ H) as [[t [T1 T2]]|S]; [left; exists t; rewrite <- U; auto|auto].
  - exists d1. split; [exact a11|]. intros s f H. eapply a12. apply U. exact H.
Qed.

Lemma good_scope m u w f :
  good m u (set_scopes (SLex []) (last w :: up w) w) (f (set_scopes (SLex []) (last w :: up w) w)) ->
  good m u w (with_scope f w) /\ last (with_scope f w) = last w /\ up (with_scope f w) = up w.
Proof.
  intros G. unfold with_scope. set (w1 := set_scopes (SLex []) (last w :: up w) w) in *.
  destruct G as [a1 a2 a3 [pre a4] a5 a6 a7 a8].
  assert (X : skipn (length (up (f w1)) - length (up w1)) (up (f w1)) = last w :: up w).
  { rewrite a4, app_length. replace (length pre + length (up w1) - length (up w1)) with (length pre) by lia.
    rewrite skipn_app, skipn_all, Nat.sub_diag. reflexivity. }
  rewrite X. split; [|split; reflexivity]. split; auto.
  exists []. reflexivity.
Qed.

Lemma good_insert y e w : plain e = true -> good [] [] w (insert y e w).
Proof.
  intros P. split; try (unfold insert; destruct (last w); reflexivity).
  - unfold insert. destruct (last w); [now exists []|now exists [SVal v]].
  - now apply plain_insert.
  - intros k s t [].
  - exists []. split; [unfold insert; destruct (last w); reflexivity|].
    split; [intros s []|]. split; [intros s t []|discriminate].
  - exists []. split; [unfold insert; destruct (last w); reflexivity|intros s f []].
Qed.

Lemma good_resolve s r t w : fits r t -> good [s] [here s t] w (resolve_at s r w).
Proof.
  intros F. split; try reflexivity.
  - now exists [].
  - intros P m x e H. apply (P m x e H).
  - intros k s' t' [H|[]]. injection H as <- <- <-. now left.
  - exists [(s, r)]. split; [reflexivity|]. split; [apply incl_refl|]. split.
    + intros s' t' [H|[]]. injection H as <- <-. exists r. cbn. rewrite Nat.eqb_refl. auto.
    + intros s' r'. cbn. destruct (Nat.eqb s' s) eqn:Q; [|discriminate].
      apply Nat.eqb_eq in Q. subst. intros [= <-]. left. exists t. split; [now left|exact F].
  - exists []. split; [reflexivity|]. intros s' f [H|[]]. discriminate.
Qed.

Lemma good_silent s r w : silent r -> good [s] [] w (resolve_at s r w).
Proof.
  intros F. split; try reflexivity.
  - now exists [].
  - intros P m x e H. apply (P m x e H).
  - intros k s' t' [].
  - exists [(s, r)]. split; [reflexivity|]. split; [apply incl_refl|]. split.
    + intros s' t' [].
    + intros s' r'. cbn. destruct (Nat.eqb s' s); [|discriminate]. intros [= <-]. auto.
  - exists []. split; [reflexivity|intros s' f []].
Qed.

(** A later entry of the same span. *)
Lemma good_again s r t r' w w1 u :
  good [s] u w w1 -> fits r t -> (forall x, In x u -> x = here s t) ->
  r' = r -> good [s] [here s t] w (resolve_at s r' w1).
Proof.
  intros [a1 a2 a3 a4 a5 a6 [n [a7 [a8 [a9 a10]]]] [nd [a11 a12]]] F U ->. split; auto.
  - intros k s' t' [H|[]]. injection H as <- <- <-. now left.
  - exists ((s, r) :: n). split; [cbn; now rewrite a7|]. split; [|split].
    + intros x [<-|H]; [now left|auto].
    + intros s' t' [H|[]]. injection H as <- <-. exists r. cbn. rewrite Nat.eqb_refl. auto.
    + intros s' r'. cbn. destruct (Nat.eqb s' s) eqn:Q.
      * apply Nat.eqb_eq in Q. subst. intros [= <-]. left. exists t. split; [now left|exact F].
      * intros H. apply find_in in H. apply (in_map fst) in H. apply a8 in H. cbn in H.
        destruct H as [<-|[]]. rewrite Nat.eqb_refl in Q. discriminate.
  - exists nd. split; [exact a11|]. intros s' f [H|[]]. discriminate.
Qed.

Lemma decl_eqb (a b : decl) : (if decl_eq_dec a b then true else false) = true <-> a = b.
Proof. destruct (decl_eq_dec a b); split; congruence. Qed.

Lemma fits_def d : local d = true -> fits (as_def d) (TDef d).
Proof.
  intros L. split.
  - destruct d; try discriminate; reflexivity.
  - intros d' L'. unfold is_ref, as_def. cbn [r_decl r_root].
    rewrite orb_diag, decl_eqb. split; congruence.
Qed.

Lemma fits_ref r t : local (r_decl r) = false -> tgt_of_ref r = t -> fits r t.
Proof.
  intros L T. split; [exact T|]. intros d D. unfold is_ref.
  destruct (decl_eq_dec (r_decl r) d) as [E|N]; [subst; congruence|]. cbn [orb].
  subst t. unfold tgt_of_ref, rtgt. destruct (r_root r) as [[d'|? ? ? ?|? ?|v|v x]|]; try (split; discriminate).
  - rewrite decl_eqb. destruct d'; split; try congruence; intros <-; discriminate.
  - destruct (r_term r); [split; discriminate|]. destruct (r_step r); split; discriminate.
Qed.

(** * Names *)

Lemma ident_fits W w d m E :
  plainw w -> local d = false -> agree W (dname d) w E ->
  exists r, resolve_ident W d m w = resolve_at (dspan d) r w /\ fits r (look W E m (dname d)).
Proof.
  intros P L A. unfold resolve_ident, eval_ident, look.
  change (search W (last w :: up w) (dname d)) with (srch W w (dname d)).
  unfold agree in A. pose proof (srch_plain W w (dname d)) as PL.
  destruct (srch W w (dname d)) as [[e|] v] eqn:S; cbn [found agr] in *.
  - rewrite A. specialize (PL e v P eq_refl).
    assert (V : v = None).
    { pose proof (search_shape W (last w :: up w) (dname d)) as X. unfold srch in S. rewrite S in X.
      destruct v; [destruct X|reflexivity]. }
    subst v. destruct (extract_ref (Some e)) as [root step] eqn:X. eexists. split; [reflexivity|].
    apply fits_ref; [exact L|]. unfold tgt_of_ref. cbn [r_root r_term r_step].
    destruct e as [d'|d' s' root' term'|k l|v|v x]; cbn in X; injection X as <- <-; try reflexivity.
    cbn. destruct root'; [reflexivity|]. destruct term'; [discriminate|reflexivity].
  - destruct v as [v|].
    + rewrite A. cbn [extract_ref]. eexists. split; [reflexivity|]. apply fits_ref; [exact L|]. reflexivity.
    + rewrite A. cbn [extract_ref]. eexists. split; [reflexivity|]. apply fits_ref; [exact L|].
      unfold tgt_of_ref. rewrite library_eq. cbn. destruct (lib_get W m (dname d)); reflexivity.
Qed.

Lemma srch_resolve W s r w x : srch W (resolve_at s r w) x = srch W w x.
Proof. reflexivity. Qed.

Lemma agree_resolve W x s r w E : agree W x w E -> agree W x (resolve_at s r w) E.
Proof. auto. Qed.

(** * Declarations *)

Definition declares (l : list (nat * nat)) (w : st) : st :=
  fold_left (fun w '(s, x) => declare (DVar s x) w) l w.

Section pat_induction.
  Variable P : pat -> Prop.
  Hypothesis Hhole : P PHole.
  Hypothesis Hvar : forall s x, P (PVar s x).
  Hypothesis Htup : forall ps, Forall P ps -> P (PTuple ps).
  Fixpoint pat_ind' (p : pat) : P p :=
    match p with
    | PHole => Hhole
    | PVar s x => Hvar s x
    | PTuple ps => Htup ps ((fix go l : Forall P l :=
        match l with [] => Forall_nil _ | p :: l' => Forall_cons _ (pat_ind' p) (go l') end) ps)
    end.
End pat_induction.

Lemma pvars_tuple ps : forall acc,
  fold_left (fun acc p => pvars p ++ acc) ps acc = fold_left (fun acc p => pvars p ++ acc) ps [] ++ acc.
Proof.
  induction ps as [|p ps IH]; intros acc; [reflexivity|]. cbn.
  rewrite IH. rewrite (IH (pvars p ++ [])). rewrite app_nil_r, app_assoc. reflexivity.
Qed.

Lemma check_pattern_declares p : forall w, check_pattern p w = declares (rev (pvars p)) w.
Proof.
  induction p using pat_ind'; intros w; [reflexivity|reflexivity|].
  cbn [check_pattern pvars]. revert w. induction H as [|p ps Hp Hps IH]; intros w; [reflexivity|].
  cbn [fold_left]. rewrite IH, Hp. rewrite app_nil_r, (pvars_tuple ps (pvars p)), rev_app_distr.
  unfold declares. now rewrite fold_left_app.
Qed.

Lemma srch_declare W s x w y : srch W (declare (DVar s x) w) y = if Nat.eqb y x then (Some (EDecl (DVar s x)), None) else srch W w y.
Proof. unfold declare. rewrite srch_insert. reflexivity. Qed.

Lemma good_declare s x w : good [s] [here s (TDef (DVar s x))] w (declare (DVar s x) w).
Proof.
  unfold declare. change (dname (DVar s x)) with x.
  eapply good_equiv; [| |eapply (good_seq [s] [] [here s (TDef (DVar s x))] [])].
  - rewrite app_nil_r. apply incl_refl.
  - intros u. rewrite app_nil_r. tauto.
  - unfold resolve_as. apply good_resolve. now apply fits_def.
  - now apply good_insert.
  - intros ? _ [].
Qed.

Lemma declares_ok W l : forall w, NoDup (map fst l) ->
  good (map fst l) (sites l) w (declares l w)
  /\ (forall x F, agree W x w F -> agree W x (declares l w) (bind (rev l) ++ F))
  /\ (forall x, ~ In x (map snd l) -> srch W (declares l w) x = srch W w x).
Proof.
  induction l as [|[s x] l IH]; intros w N.
  - split; [apply good_refl|]. split; auto.
  - cbn [map fst] in N. inversion N as [|? ? N1 N2]; subst.
    destruct (IH (declare (DVar s x) w) N2) as [I1 [I2 I3]].
    split; [|split].
    + cbn [declares fold_left]. change (map fst ((s, x) :: l)) with ([s] ++ map fst l).
      change (sites ((s, x) :: l)) with ([here s (TDef (DVar s x))] ++ sites l).
      eapply good_seq; [apply good_declare|exact I1|].
      intros y [<-|[]] Y. contradiction.
    + intros y F A. cbn [declares fold_left rev]. unfold bind. rewrite map_app, <- app_assoc. apply I2.
      unfold agree. rewrite srch_declare. cbn. destruct (Nat.eqb y x); [reflexivity|exact A].
    + intros y Y. cbn [declares fold_left]. unfold declares in I3. rewrite I3 by (intros K; apply Y; now right).
      rewrite srch_declare. destruct (Nat.eqb y x) eqn:Q; [|reflexivity].
      apply Nat.eqb_eq in Q. subst. exfalso. apply Y. now left.
Qed.

Lemma sites_rev l x : In x (sites l) <-> In x (sites (rev l)).
Proof. unfold sites. rewrite map_rev. apply in_rev. Qed.

Lemma pattern_ok W p w : NoDup (map fst (pvars p)) ->
  good (map fst (pvars p)) (sites (pvars p)) w (check_pattern p w)
  /\ (forall x F, agree W x w F -> agree W x (check_pattern p w) (bind (pvars p) ++ F))
  /\ (forall x, ~ In x (map snd (pvars p)) -> srch W (check_pattern p w) x = srch W w x).
Proof.
  intros N. rewrite check_pattern_declares.
  assert (N' : NoDup (map fst (rev (pvars p)))) by (rewrite map_rev; now apply NoDup_rev).
  destruct (declares_ok W _ w N') as [I1 [I2 I3]]. split; [|split].
  - eapply good_equiv; [| |exact I1].
    + rewrite map_rev. intros y Y. now apply in_rev.
    + intros y. symmetry. apply sites_rev.
  - intros x F A. specialize (I2 x F A). now rewrite rev_involutive in I2.
  - intros x X. apply I3. rewrite map_rev. intros K. apply X. now apply in_rev.
Qed.
