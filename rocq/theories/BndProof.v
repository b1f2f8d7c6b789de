From Coq Require Import List Arith Bool Lia.
From Verif Require Import BndModel BndSpec.
Import ListNotations.

Section Ind.
Variable P : ty -> Prop.
Hypothesis HU : forall ts, Forall P ts -> P (Union ts).
Hypothesis HL : forall a b, Forall P a -> Forall P b -> P (Let a b).
Hypothesis HV : forall v, P (Var v).
Hypothesis HP : forall t, P t -> P (Param t).
Hypothesis HW : forall t, P t -> P (With t).
Hypothesis HS : forall b t, P t -> P (Select b t).
Hypothesis HSrc : forall k n, P (Src k n).
Hypothesis HLeaf : forall k n, P (Leaf k n).
Fixpoint ty_rect' (t : ty) : P t :=
  let all := fix all ts : Forall P ts := match ts with [] => Forall_nil _ | x :: r => Forall_cons _ (ty_rect' x) (all r) end in
  match t with
  | Union ts => HU ts (all ts)
  | Let a b => HL a b (all a) (all b)
  | Var v => HV v
  | Param u => HP u (ty_rect' u)
  | With u => HW u (ty_rect' u)
  | Select b u => HS b u (ty_rect' u)
  | Src k n => HSrc k n
  | Leaf k n => HLeaf k n
  end.
End Ind.

Lemma walk_union c ts p : walk c (Union ts) p = tys c ts p.
Proof. cbn [walk]. induction ts as [|x r IH]; [reflexivity|]. cbn [tys]. now rewrite <- IH. Qed.
Lemma walk_let c a b p : walk c (Let a b) p = then_ (tys c a p) (tys c b (negb p)).
Proof. rewrite <- !walk_union. reflexivity. Qed.
Lemma walk_atom c t p : atom t -> walk c t p = Some [(t, p)].
Proof. destruct t; cbn; tauto. Qed.
Lemma then_some a b l : then_ a b = Some l -> exists x y, a = Some x /\ b = Some y /\ l = x ++ y.
Proof. destruct a as [x|], b as [y|]; cbn; try discriminate. intros [= <-]. eauto. Qed.

Section Sound.
Variables (e : env) (c : nat -> bool -> option seen).
Hypothesis HC : forall v p l, c v p = Some l -> trace e (Var v) p l.
Lemma walk_trace : forall t p l, walk c t p = Some l -> trace e t p l.
Proof.
  assert (T : forall ts, Forall (fun t => forall p l, walk c t p = Some l -> trace e t p l) ts -> forall p l, tys c ts p = Some l -> traces e ts p l).
  { induction ts as [|x r IH]; intros F p l H; cbn in H; [injection H as <-; constructor|].
    apply then_some in H. destruct H as (a & b & A & B & ->). constructor; [now apply (Forall_inv F)|now apply IH; [exact (Forall_inv_tail F)|]]. }
  induction t as [ts IH|a b IHa IHb|v|t IH|t IH|b t IH|k n|k n] using ty_rect'; intros p l H.
  - rewrite walk_union in H. constructor. now apply T.
  - rewrite walk_let in H. apply then_some in H. destruct H as (x & y & X & Y & ->). constructor; now apply T.
  - now apply HC.
  - injection H as <-. now constructor.
  - injection H as <-. now constructor.
  - injection H as <-. now constructor.
  - injection H as <-. now constructor.
  - injection H as <-. now constructor.
Qed.
Lemma tys_traces ts p l : tys c ts p = Some l -> traces e ts p l.
Proof.
  revert l. induction ts as [|x r IH]; intros l H; cbn in H; [injection H as <-; constructor|].
  apply then_some in H. destruct H as (a & b & A & B & ->). constructor; [now apply walk_trace|now apply IH].
Qed.
End Sound.
Lemma check_var_trace e : forall fuel v p l, check_var_rec e fuel v p = Some l -> trace e (Var v) p l.
Proof.
  induction fuel as [|n IH]; intros v p l H; [discriminate|]. cbn [check_var_rec] in H. destruct (e v) as [[us ls]|] eqn:E.
  - apply then_some in H. destruct H as (a & b & A & B & ->). eapply trace_var; [exact E|eapply tys_traces; eassumption|eapply tys_traces; eassumption].
  - injection H as <-. now constructor.
Qed.
Lemma bounds_trace e fuel t p l : bounds e fuel t p = Some l -> trace e t p l.
Proof. apply walk_trace. apply check_var_trace. Qed.

(** More depth changes nothing. *)
Section Mono.
Variables (c c' : nat -> bool -> option seen).
Hypothesis HC : forall v p l, c v p = Some l -> c' v p = Some l.
Lemma walk_mono : forall t p l, walk c t p = Some l -> walk c' t p = Some l.
Proof.
  assert (T : forall ts, Forall (fun t => forall p l, walk c t p = Some l -> walk c' t p = Some l) ts -> forall p l, tys c ts p = Some l -> tys c' ts p = Some l).
  { induction ts as [|x r IH]; intros F p l H; cbn in *; [exact H|].
    apply then_some in H. destruct H as (a & b & A & B & ->). rewrite (Forall_inv F _ _ A), (IH (Forall_inv_tail F) _ _ B). reflexivity. }
  induction t as [ts IH|a b IHa IHb|v|t IH|t IH|b t IH|k n|k n] using ty_rect'; intros p l H; try exact H.
  - rewrite walk_union in *. now apply T.
  - rewrite walk_let in *. apply then_some in H. destruct H as (x & y & X & Y & ->). rewrite (T a IHa _ _ X), (T b IHb _ _ Y). reflexivity.
  - now apply HC.
Qed.
Lemma tys_mono ts p l : tys c ts p = Some l -> tys c' ts p = Some l.
Proof.
  revert l. induction ts as [|x r IH]; intros l H; cbn in *; [exact H|].
  apply then_some in H. destruct H as (a & b & A & B & ->). rewrite (walk_mono _ _ _ A), (IH _ B). reflexivity.
Qed.
End Mono.
Lemma check_var_mono e : forall n m v p l, n <= m -> check_var_rec e n v p = Some l -> check_var_rec e m v p = Some l.
Proof.
  induction n as [|n IH]; intros m v p l L H; [discriminate|]. destruct m as [|m]; [lia|]. cbn [check_var_rec] in *.
  destruct (e v) as [[us ls]|]; [|exact H]. apply then_some in H. destruct H as (a & b & A & B & ->).
  assert (HC : forall v p l, check_var_rec e n v p = Some l -> check_var_rec e m v p = Some l) by (intros; eapply IH; [lia|eassumption]).
  rewrite (tys_mono _ _ HC _ _ _ A), (tys_mono _ _ HC _ _ _ B). reflexivity.
Qed.
Scheme trace_ind2 := Induction for trace Sort Prop with traces_ind2 := Induction for traces Sort Prop.
Combined Scheme trace_traces from trace_ind2, traces_ind2.
Lemma trace_bounds e : (forall t p l, trace e t p l -> exists n, forall m, n <= m -> walk (check_var_rec e m) t p = Some l)
  /\ (forall ts p l, traces e ts p l -> exists n, forall m, n <= m -> tys (check_var_rec e m) ts p = Some l).
Proof.
  apply (trace_traces e (fun t p l _ => exists n, forall m, n <= m -> walk (check_var_rec e m) t p = Some l) (fun ts p l _ => exists n, forall m, n <= m -> tys (check_var_rec e m) ts p = Some l)).
  - intros t p A. exists 0. intros m _. now apply walk_atom.
  - intros ts p l _ (n & H). exists n. intros m L. rewrite walk_union. now apply H.
  - intros us ls p a b _ (n & H) _ (k & K). exists (n + k). intros m L. rewrite walk_let, H, K by lia. reflexivity.
  - intros v p E. exists 1. intros [|m] L; [lia|]. cbn. now rewrite E.
  - intros v us ls p a b E _ (n & H) _ (k & K). exists (S (n + k)). intros [|m] L; [lia|]. cbn [walk check_var_rec]. rewrite E, H, K by lia. reflexivity.
  - intros p. exists 0. reflexivity.
  - intros t ts p a b _ (n & H) _ (k & K). exists (n + k). intros m L. cbn [tys]. rewrite H, K by lia. reflexivity.
Qed.
Lemma trace_det e t p l l' : trace e t p l -> trace e t p l' -> l = l'.
Proof.
  intros A B. destruct (proj1 (trace_bounds e) _ _ _ A) as (n & N). destruct (proj1 (trace_bounds e) _ _ _ B) as (k & K).
  specialize (N (n + k) ltac:(lia)). specialize (K (n + k) ltac:(lia)). congruence.
Qed.
Lemma trace_sees e : (forall t p l, trace e t p l -> forall u q, In (u, q) l <-> sees e t p u q)
  /\ (forall ts p l, traces e ts p l -> forall u q, In (u, q) l <-> exists t, In t ts /\ sees e t p u q).
Proof.
  apply (trace_traces e (fun t p l _ => forall u q, In (u, q) l <-> sees e t p u q) (fun ts p l _ => forall u q, In (u, q) l <-> exists t, In t ts /\ sees e t p u q)).
  - intros t p A u q. split.
    + intros [[= <- <-]|[]]. now constructor.
    + intros H. destruct H; try contradiction. now left.
  - intros ts p l _ H u q. rewrite H. split.
    + intros (t & I & S). econstructor; eassumption.
    + intros S. inversion S; subst; [contradiction|eauto].
  - intros us ls p a b _ H _ K u q. rewrite in_app_iff, H, K. split.
    + intros [(t & I & S)|(t & I & S)]; [eapply see_upper; eassumption|eapply see_lower; eassumption].
    + intros S. inversion S; subst; [contradiction|left; eauto|right; eauto].
  - intros v p E u q. split; [intros []|]. intros S. inversion S; subst; [contradiction|congruence|congruence].
  - intros v us ls p a b E _ H _ K u q. rewrite in_app_iff, H, K. split.
    + intros [(t & I & S)|(t & I & S)]; [eapply see_var_upper; eassumption|eapply see_var_lower; eassumption].
    + intros S. inversion S as [| | | |? us' ls' ? ? ? ? E'|? us' ls' ? ? ? ? E']; subst; [contradiction| |]; rewrite E in E'; injection E' as <- <-; [left; eauto|right; eauto].
  - intros p u q. split; [intros []|]. now intros (t & [] & _).
  - intros t ts p a b _ H _ K u q. rewrite in_app_iff, H, K. split.
    + intros [S|(x & I & S)]; [exists t; split; [now left|assumption]|exists x; split; [now right|assumption]].
    + intros (x & [<-|I] & S); [now left|right; eauto].
Qed.
Lemma flip_trace e : (forall t p l, trace e t p l -> trace e t (negb p) (map (fun x => (fst x, negb (snd x))) l))
  /\ (forall ts p l, traces e ts p l -> traces e ts (negb p) (map (fun x => (fst x, negb (snd x))) l)).
Proof.
  apply (trace_traces e (fun t p l _ => trace e t (negb p) (map (fun x => (fst x, negb (snd x))) l)) (fun ts p l _ => traces e ts (negb p) (map (fun x => (fst x, negb (snd x))) l))).
  - intros t p A. now constructor.
  - intros ts p l _ H. now constructor.
  - intros us ls p a b _ H _ K. rewrite map_app. now constructor.
  - intros v p E. now constructor.
  - intros v us ls p a b E _ H _ K. rewrite map_app. econstructor; eassumption.
  - intros p. constructor.
  - intros t ts p a b _ H _ K. rewrite map_app. now constructor.
Qed.
(** Without cycles there are always bounds. *)
Lemma traces_all e ts p : (forall t, In t ts -> exists l, trace e t p l) -> exists l, traces e ts p l.
Proof.
  induction ts as [|t ts IH]; intros H; [exists []; constructor|]. destruct (H t (or_introl eq_refl)) as (a & A). destruct IH as (b & B); [intros x X; apply H; now right|].
  exists (a ++ b). now constructor.
Qed.
Lemma trace_direct e : forall t, (forall v p, direct t v -> exists l, trace e (Var v) p l) -> forall p, exists l, trace e t p l.
Proof.
  induction t as [ts IH|a b IHa IHb|v|t IH|t IH|b t IH|k n|k n] using ty_rect'; intros H p; try (eexists; now constructor).
  - rewrite Forall_forall in IH. destruct (traces_all e ts p) as (l & L).
    + intros t I. apply IH; [assumption|]. intros v q D. apply H. econstructor; eassumption.
    + exists l. now constructor.
  - rewrite Forall_forall in IHa, IHb. destruct (traces_all e a p) as (l & L).
    { intros t I. apply IHa; [assumption|]. intros v q D. apply H. eapply direct_upper; eassumption. }
    destruct (traces_all e b (negb p)) as (k & K).
    { intros t I. apply IHb; [assumption|]. intros v q D. apply H. eapply direct_lower; eassumption. }
    exists (l ++ k). now constructor.
  - apply H. constructor.
Qed.
Lemma acyclic_trace e t p : acyclic e -> exists l, trace e t p l.
Proof.
  intros (rank & R). apply trace_direct. intros v q _. clear t p.
  remember (rank v) as n eqn:N. revert v q N. induction n as [n IH] using lt_wf_ind. intros v q N.
  destruct (e v) as [[us ls]|] eqn:E; [|exists []; now constructor].
  assert (S : forall t p, In t (us ++ ls) -> exists l, trace e t p l).
  { intros t p I. apply trace_direct. intros w x D. apply (IH (rank w)); [|reflexivity]. rewrite N. eapply R; eassumption. }
  destruct (traces_all e us q) as (a & A); [intros t I; apply S; apply in_or_app; now left|].
  destruct (traces_all e ls (negb q)) as (b & B); [intros t I; apply S; apply in_or_app; now right|].
  exists (a ++ b). eapply trace_var; eassumption.
Qed.
Lemma fold_or {A} (f : A -> bool) l b : fold_left (fun r x => r || f x) l b = b || existsb f l.
Proof. revert b. induction l as [|x l IH]; intros b; cbn; [now rewrite orb_false_r|]. rewrite IH. now rewrite orb_assoc. Qed.
Lemma asks_spec f ks e n t b : (forall k, f k = true <-> In k ks) -> ~ In Other ks -> asks f e n t = Some b -> (b = true <-> some_bound e t ks).
Proof.
  intros F NO H. unfold asks in H. destruct (bounds e n t true) as [l|] eqn:B; [|discriminate]. injection H as <-. apply bounds_trace in B.
  rewrite (fold_or (fun x => f (kind_of (fst x)))). cbn [orb]. rewrite existsb_exists. split.
  - intros ((u & q) & I & K). apply (proj1 (trace_sees e) _ _ _ B) in I. apply F in K. cbn in K.
    destruct u; cbn in K; try contradiction; [exists (Src k n0), q, k, n0|exists (Leaf k n0), q, k, n0]; auto.
  - intros (u & q & k & m & S & E & K). exists (u, q). split; [now apply (proj1 (trace_sees e) _ _ _ B)|]. apply F. destruct E as [-> | ->]; exact K.
Qed.
Lemma sources_union ts : sources (Union ts) = flat_map sources ts.
Proof. cbn [sources]. induction ts as [|x r IH]; [reflexivity|]. cbn [flat_map]. now rewrite <- IH. Qed.
Lemma sources_let a b : sources (Let a b) = flat_map sources a ++ flat_map sources b.
Proof. rewrite <- !sources_union. reflexivity. Qed.
Lemma sources_spec : forall t s, In s (sources t) <-> source_of t s.
Proof.
  assert (T : forall ts, Forall (fun t => forall s, In s (sources t) <-> source_of t s) ts -> forall s, In s (flat_map sources ts) <-> exists t, In t ts /\ source_of t s).
  { intros ts F s. rewrite in_flat_map. rewrite Forall_forall in F. split; intros (t & I & S); exists t; (split; [assumption|]); now apply F. }
  induction t as [ts IH|a b IHa IHb|v|t IH|t IH|b t IH|k n|k n] using ty_rect'; intros s.
  - rewrite sources_union, (T ts IH). split; [intros (t & I & S); econstructor; eassumption|]. intros H. inversion H; subst. eauto.
  - rewrite sources_let, in_app_iff, (T a IHa), (T b IHb). split.
    + intros [(t & I & S)|(t & I & S)]; [eapply source_upper; eassumption|eapply source_lower; eassumption].
    + intros H. inversion H; subst; [left; eauto|right; eauto].
  - cbn. split; [intros [<-|[]]; constructor|]. intros H. inversion H; subst. now left.
  - cbn [sources]. rewrite IH. split; [now constructor|]. intros H. now inversion H.
  - cbn [sources]. rewrite IH. split; [now constructor|]. intros H. now inversion H.
  - destruct b; cbn [sources].
    + rewrite IH. split; [now constructor|]. intros H. now inversion H.
    + split; [intros []|]. intros H. inversion H.
  - cbn. split; [intros [<-|[]]; constructor|]. intros H. inversion H; subst. now left.
  - cbn. split; [intros []|]. intros H. inversion H.
Qed.
