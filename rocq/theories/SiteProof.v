(** Proofs about definitions and renaming (C188). *)
From Coq Require Import List Arith Bool Lia.
From Verif Require Import SiteModel SiteSpec.
Import ListNotations.

Lemma root_fun e t d u : root e t d u -> forall d' u', root e t d' u' -> d' = d /\ u' = u.
Proof. induction 1; intros d' u' R; inversion R; subst; auto. Qed.
Lemma of_expr_root g : forall e t d u, root e t d u -> of_expr g e t = g d u.
Proof. induction 1; cbn; auto. Qed.
Lemma of_expr_none g : forall e t, (forall d u, ~ root e t d u) -> of_expr g e t = Nothing.
Proof.
  fix IH 1. intros [d|[r|] [x|]|] t N; cbn; try reflexivity.
  - exfalso. apply (N d t). constructor.
  - apply IH. intros d u R. apply (N d u). now constructor.
  - apply IH. intros d u R. apply (N d u). now constructor.
Qed.
Lemma root_dec : forall e t, (exists d u, root e t d u) \/ forall d u, ~ root e t d u.
Proof.
  fix IH 1. intros [d|[r|] [x|]|] t; try (right; intros d' u R; inversion R; fail).
  - left. exists d, t. constructor.
  - destruct (IH r (Some x)) as [(d & u & R)|N]; [left; exists d, u; now constructor|right]. intros d u R. inversion R; subst. now apply (N d u).
  - destruct (IH r t) as [(d & u & R)|N]; [left; exists d, u; now constructor|right]. intros d u R. inversion R; subst. now apply (N d u).
Qed.
Section Table.
Variable file_of : nat -> option nat.
Variable resolves : nat -> option (option expr * option ty).
Notation leads := (leads resolves). Notation term := (term resolves). Notation dead := (dead resolves). Notation of_span := (of_span file_of resolves).
Lemma leads_fun s d t d' t' : leads s d t -> leads s d' t' -> d' = d /\ t' = t.
Proof. intros (_ & e & u & E & R) (_ & e' & u' & E' & R'). rewrite E in E'. injection E' as <- <-. eapply root_fun; eauto. Qed.
Lemma leads_term s d t u : leads s d t -> ~ term s u.
Proof. intros (_ & e & x & E & _) (_ & F). congruence. Qed.
Lemma cases s : (exists d t, leads s d t) \/ (exists t, term s t) \/ dead s.
Proof.
  destruct (Nat.eq_dec s 0) as [->|N]; [right; right; split; [intros d t (H & _)|intros t (H & _)]; now apply H|].
  destruct (resolves s) as [[[e|] [t|]]|] eqn:E.
  - destruct (root_dec e (Some t)) as [(d & u & R)|X]; [left; exists d, u; split; [exact N|exists e, (Some t); auto]|].
    right. right. split; [intros d u (_ & e' & u' & E' & R)|intros u (_ & F)]; rewrite E in *; [|discriminate]. injection E' as <- <-. now apply (X d u).
  - destruct (root_dec e None) as [(d & u & R)|X]; [left; exists d, u; split; [exact N|exists e, None; auto]|].
    right. right. split; [intros d u (_ & e' & u' & E' & R)|intros u (_ & F)]; rewrite E in *; [|discriminate]. injection E' as <- <-. now apply (X d u).
  - right. left. exists t. now split.
  - right. right. split; [intros d u (_ & e' & u' & E' & R)|intros u (_ & F)]; rewrite E in *; discriminate.
  - right. right. split; [intros d u (_ & e' & u' & E' & R)|intros u (_ & F)]; rewrite E in *; discriminate.
Qed.
Definition step (n : nat) (d : decl) (t : option ty) : res :=
  match d_kind d with
  | KImport | KImportAlias => match n with 0 => Deep | S m => match of_span m (d_span d) with Nothing => Found d t | r => r end end
  | _ => Found d t end.
Lemma span_leads n s d t : leads s d t -> of_span n s = step n d t.
Proof.
  intros (N & e & u & E & R). apply Nat.eqb_neq in N. destruct n; cbn [SiteModel.of_span]; rewrite N, E; rewrite (of_expr_root _ _ _ _ _ R); reflexivity.
Qed.
Lemma span_term n s t : term s t -> of_span n s = of_term file_of t.
Proof. intros (N & E). apply Nat.eqb_neq in N. destruct n; cbn [SiteModel.of_span]; rewrite N, E; reflexivity. Qed.
Lemma span_dead n s : dead s -> of_span n s = Nothing.
Proof.
  intros (A & B). destruct (Nat.eq_dec s 0) as [->|N]; [now destruct n|]. pose proof N as N'. apply Nat.eqb_neq in N'.
  destruct (resolves s) as [[[e|] t]|] eqn:E; destruct n; cbn [SiteModel.of_span]; rewrite N', E; try reflexivity;
    try (apply of_expr_none; intros d u R; apply (A d u); split; [exact N|exists e, t; auto]);
    destruct t as [t|]; try reflexivity; exfalso; apply (B t); now split.
Qed.
Lemma term_some t : of_term file_of t <> Nothing /\ of_term file_of t <> Deep.
Proof.
  unfold of_term. destruct t as [[f [n|] s|[n|]|v]|t]; cbn; split; discriminate.
Qed.
Lemma step_import n d t : import d -> step (S n) d t = match of_span n (d_span d) with Nothing => Found d t | r => r end.
Proof. unfold step. intros [->| ->]; reflexivity. Qed.
Lemma step_zero d t : import d -> step 0 d t = Deep.
Proof. unfold step. intros [->| ->]; reflexivity. Qed.
Lemma import_dec d : import d \/ ~ import d.
Proof. unfold import. destruct (d_kind d); (left; (left + right); reflexivity) || (right; intros [H|H]; discriminate). Qed.
Lemma step_other n d t : ~ import d -> step n d t = Found d t.
Proof. unfold step, import. intros N. destruct (d_kind d); try reflexivity; exfalso; apply N; auto. Qed.
Lemma span_nothing n s : of_span n s = Nothing -> dead s.
Proof.
  revert s. induction n as [|n IH]; intros s H; (destruct (cases s) as [(d & t & L)|[(t & T)|D]]; [|exfalso; rewrite (span_term _ _ _ T) in H; destruct (term_some t) as (X & _); now apply X|exact D]); rewrite (span_leads _ _ _ _ L) in H; exfalso; (destruct (import_dec d) as [I|I]; [|rewrite (step_other _ _ _ I) in H; discriminate]).
  - rewrite (step_zero _ _ I) in H. discriminate.
  - rewrite (step_import _ _ _ I) in H. destruct (of_span n (d_span d)); discriminate.
Qed.
Lemma dead_dec s : dead s \/ ~ dead s.
Proof. destruct (cases s) as [(d & t & L)|[(t & T)|D]]; [right; intros (A & _); now apply (A d t)|right; intros (_ & B); now apply (B t)|now left]. Qed.
Lemma span_spec n : forall s, match of_span n s with
  | Deep => True
  | Nothing => dead s
  | r => (exists d t, declared resolves s d t /\ r = Found d t) \/ (exists t, valued resolves s t /\ r = of_term file_of t)
  end.
Proof.
  induction n as [|n IH]; intros s; (destruct (cases s) as [(d & t & L)|[(t & T)|D]];
    [|rewrite (span_term _ _ _ T); pose proof (term_some t) as (A & B); destruct (of_term file_of t) eqn:E; try contradiction; try exact I; (right; exists t; split; [exists s; split; [apply T_here|exact T]|now symmetry])
     |rewrite (span_dead _ _ D); exact D]); rewrite (span_leads _ _ _ _ L); (destruct (import_dec d) as [I|I]; [|rewrite (step_other _ _ _ I); left; exists d, t; split; [|reflexivity]; exists s; split; [apply T_here|]; split; [exact L|intros J; contradiction]]).
  - now rewrite (step_zero _ _ I).
  - rewrite (step_import _ _ _ I). specialize (IH (d_span d)). destruct (dead_dec (d_span d)) as [D|D].
    + rewrite (span_dead _ _ D). left. exists d, t. split; [|reflexivity]. exists s. split; [apply T_here|]. now split.
    + destruct (of_span n (d_span d)) eqn:E; try contradiction; try exact Logic.I.
      * destruct IH as [(d' & t' & (s' & P & Q) & F)|(t' & (s' & P & Q) & F)]; [left; exists d', t'|right; exists t']; (split; [exists s'; split; [econstructor; eauto|exact Q]|exact F]).
      * destruct IH as [(d' & t' & (s' & P & Q) & F)|(t' & (s' & P & Q) & F)]; [left; exists d', t'|right; exists t']; (split; [exists s'; split; [econstructor; eauto|exact Q]|exact F]).
Qed.
Lemma span_ends rank : ordered resolves rank -> forall n s, rank s <= n -> of_span n s <> Deep.
Proof.
  intros O. induction n as [|n IH]; intros s K; (destruct (cases s) as [(d & t & L)|[(t & T)|D]]; [|rewrite (span_term _ _ _ T); apply term_some|rewrite (span_dead _ _ D); discriminate]); rewrite (span_leads _ _ _ _ L); (destruct (import_dec d) as [I|I]; [|rewrite (step_other _ _ _ I); discriminate]); pose proof (O s d t L I).
  - lia.
  - rewrite (step_import _ _ _ I). specialize (IH (d_span d)). destruct (of_span n (d_span d)); try discriminate. apply IH. lia.
Qed.
Lemma through_leads s s' : through resolves s s' -> forall n, of_span n s <> Deep -> exists m, of_span m s' <> Deep /\ (of_span m s' <> Nothing -> of_span n s = of_span m s').
Proof.
  induction 1 as [s|s d t s' L I D T IH]; intros n N; [exists n; auto|]. rewrite (span_leads n _ _ _ L) in N |- *. destruct n as [|n]; [rewrite (step_zero _ _ I) in N; contradiction|]. rewrite (step_import _ _ _ I) in N |- *.
  destruct (IH n) as (m & A & B); [intros E; rewrite E in N; now apply N|]. exists m. split; [exact A|]. intros C. specialize (B C). rewrite B. destruct (of_span m s'); try reflexivity. contradiction.
Qed.
Lemma declared_span n s d t : of_span n s <> Deep -> declared resolves s d t -> of_span n s = Found d t.
Proof.
  intros N (s' & T & L & I). destruct (through_leads _ _ T n N) as (m & A & B).
  assert (E : of_span m s' = Found d t). { rewrite (span_leads _ _ _ _ L) in A |- *. destruct (import_dec d) as [J|J]; [|now apply step_other]. destruct m as [|m]; [rewrite (step_zero _ _ J) in A; contradiction|]. rewrite (step_import _ _ _ J). now rewrite (span_dead _ _ (I J)). }
  rewrite B; [exact E|]. rewrite E. discriminate.
Qed.
Lemma valued_span n s t : of_span n s <> Deep -> valued resolves s t -> of_span n s = of_term file_of t.
Proof.
  intros N (s' & T & L). destruct (through_leads _ _ T n N) as (m & A & B). rewrite B; rewrite (span_term _ _ _ L); [reflexivity|]. apply term_some.
Qed.
End Table.
Lemma renamable_own f : renamable f = true <-> own f.
Proof. split; [induction f; cbn; try discriminate; intros H; constructor; auto|induction 1; auto]. Qed.
