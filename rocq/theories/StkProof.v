(** Proofs about scopes (C194). *)
From Coq Require Import List Arith Bool Lia.
From Verif Require Import StkModel StkSpec.
Import ListNotations.

Lemma lookup_none : forall n s, lookup n s = None <-> ~ In n (map fst s).
Proof.
  intros n. induction s as [|(m, v) r IH]; cbn; [split; [intros _ []|reflexivity]|]. destruct (m =? n) eqn:E.
  - apply Nat.eqb_eq in E. split; [discriminate|intros H; exfalso; apply H; now left].
  - apply Nat.eqb_neq in E. rewrite IH. split; [intros H [X|X]; contradiction|intros H X; apply H; now right].
Qed.
Lemma lookup_some : forall n v s, lookup n s = Some v <-> exists x y, s = x ++ (n, v) :: y /\ ~ In n (map fst x).
Proof.
  intros n v. induction s as [|(m, w) r IH]; cbn [lookup].
  - split; [discriminate|intros ([|? ?] & y & E & _); discriminate].
  - destruct (m =? n) eqn:E.
    + apply Nat.eqb_eq in E. subst m. split; [intros H; injection H as ->; exists [], r; split; [reflexivity|intros []]|].
      intros ([|(k, u) x] & y & H & N); [now injection H as ->|]. injection H as -> -> _. exfalso. apply N. now left.
    + apply Nat.eqb_neq in E. rewrite IH. split.
      * intros (x & y & -> & N). exists ((m, w) :: x), y. split; [reflexivity|]. intros [X|X]; contradiction.
      * intros ([|(k, u) x] & y & H & N); [injection H as -> _ _; contradiction|]. injection H as -> -> ->. exists x, y. split; [reflexivity|]. intros X. apply N. now right.
Qed.
Lemma find_binds : forall n v l, find n l = Some v <-> binds n v l.
Proof.
  intros n v. induction l as [|s r IH]; cbn [find].
  - split; [discriminate|intros ([|? ?] & f & b & x & y & E & _); discriminate].
  - destruct (lookup n s) as [w|] eqn:L.
    + split.
      * intros H. injection H as ->. apply lookup_some in L. destruct L as (x & y & E & N). exists [], s, r, x, y. split; [reflexivity|]. split; [intros g []|now split].
      * intros ([|g a] & f & b & x & y & E & N & F & X).
        -- injection E as -> ->. rewrite <- L. apply lookup_some. now exists x, y.
        -- injection E as -> ->. exfalso. assert (Q : lookup n g = None) by (apply lookup_none; apply N; now left). congruence.
    + rewrite IH. apply lookup_none in L. split.
      * intros (a & f & b & x & y & -> & N & F & X). exists (s :: a), f, b, x, y. split; [reflexivity|]. split; [intros g [<-|G]; [exact L|now apply N]|now split].
      * intros ([|g a] & f & b & x & y & E & N & F & X).
        -- injection E as -> ->. exfalso. apply L. rewrite F, map_app. apply in_or_app. right. now left.
        -- injection E as -> ->. exists a, f, b, x, y. split; [reflexivity|]. split; [intros h H; apply N; now right|now split].
Qed.
Lemma lookup_put : forall n v m s, lookup m (put n v s) = if n =? m then Some v else lookup m s.
Proof.
  intros n v m. induction s as [|(k, w) r IH]; cbn; [reflexivity|]. destruct (k =? n) eqn:E; cbn.
  - apply Nat.eqb_eq in E. subst k. now destruct (n =? m).
  - destruct (k =? m) eqn:F; [|exact IH]. apply Nat.eqb_eq in F. subst k. rewrite Nat.eqb_sym in E. now rewrite E.
Qed.
Lemma put_names : forall n v s, In n (map fst s) -> map fst (put n v s) = map fst s.
Proof. intros n v. induction s as [|(k, w) r IH]; intros I; [destruct I|]. cbn. destruct (k =? n) eqn:E; [reflexivity|]. cbn. f_equal. apply IH. destruct I as [X|X]; [apply Nat.eqb_neq in E; cbn in X; contradiction|exact X]. Qed.
Lemma write_spec : forall n v l, match write n v l with
  | Some l' => find n l <> None /\ (forall m, find m l' = if n =? m then Some v else find m l) /\ map (map fst) l' = map (map fst) l
  | None => find n l = None end.
Proof.
  intros n v. induction l as [|s r IH]; cbn [write find]; [reflexivity|]. destruct (lookup n s) as [w|] eqn:L.
  - split; [discriminate|]. split.
    + intros m. cbn [find]. rewrite lookup_put. destruct (n =? m) eqn:E; [reflexivity|reflexivity].
    + cbn [map]. f_equal. apply put_names. apply lookup_some in L. destruct L as (x & y & -> & _). rewrite map_app. apply in_or_app. right. now left.
  - destruct (write n v r) as [r'|]; [|exact IH]. destruct IH as (A & B & C). split; [exact A|]. split; [|cbn [map]; now f_equal].
    intros m. cbn [find]. rewrite B. destruct (n =? m) eqn:E; [|reflexivity]. apply Nat.eqb_eq in E. subst m. now rewrite L.
Qed.
Lemma set_spec : forall n v s, match set n v s with
  | Some s' => get n s <> None /\ (forall m, get m s' = if n =? m then Some v else get m s) /\ map (map fst) (frames s') = map (map fst) (frames s)
  | None => get n s = None end.
Proof.
  intros n v s. unfold set, get, frames. pose proof (write_spec n v (top s :: rev (below s))) as W. destruct (write n v (top s :: rev (below s))) as [[|t r]|]; [|cbn [top below]; now rewrite rev_involutive|exact W].
  destruct W as (_ & _ & W). discriminate.
Qed.
Lemma set_below : forall n v s s', set n v s = Some s' -> length (below s') = length (below s).
Proof.
  intros n v s s' E. pose proof (set_spec n v s) as W. rewrite E in W. destruct W as (_ & _ & W). unfold frames in W. cbn [map] in W. injection W as _ W. apply (f_equal (@length _)) in W. rewrite !map_length, !rev_length in W. exact W.
Qed.
Lemma exit_some : forall s, match exit s with Some s' => below s = below s' ++ [top s'] | None => below s = [] end.
Proof. intros s. unfold exit. destruct (rev (below s)) as [|t r] eqn:E; apply (f_equal (@rev _)) in E; rewrite rev_involutive in E; exact E. Qed.
Lemma exit_push : forall t b u, exit {| top := u; below := b ++ [t] |} = Some {| top := t; below := b |}.
Proof. intros t b u. unfold exit. cbn [below]. rewrite rev_app_distr. cbn. now rewrite rev_involutive. Qed.
Lemma run_app : forall a b s, run (a ++ b) s = match run a s with Some s' => run b s' | None => None end.
Proof. induction a as [|[ | |n v|n v] a IH]; intros b s; cbn [app run]; try apply IH; [reflexivity|]. destruct (exit s); [apply IH|reflexivity]. Qed.
Lemma run_depth : forall l s, match run l s with Some s' => depth l (length (below s)) = Some (length (below s')) | None => depth l (length (below s)) = None end.
Proof.
  induction l as [|[ | |n v|n v] l IH]; intros s; cbn [run depth]; [reflexivity| | | |].
  - specialize (IH (enter s)). cbn [enter below] in IH. rewrite app_length, Nat.add_comm in IH. exact IH.
  - pose proof (exit_some s) as X. destruct (exit s) as [s'|]; rewrite X; [|reflexivity]. rewrite app_length, Nat.add_comm. cbn. apply IH.
  - exact (IH (define n v s)).
  - destruct (set n v s) as [s'|] eqn:E; [|apply IH]. rewrite <- (set_below _ _ _ _ E). apply IH.
Qed.
(** Steps that leave what they enter keep the names of the scopes below. *)
Lemma balanced_names : forall l, balanced l -> forall s, exists s', run l s = Some s' /\ map (map fst) (below s') = map (map fst) (below s).
Proof.
  intros l B. induction B as [|n v r B IH|n v r B IH|a r A IHA R IHR]; intros s; cbn [run].
  - now exists s.
  - destruct (IH (define n v s)) as (s' & E & F). now exists s'.
  - destruct (set n v s) as [t|] eqn:E; [|apply IH]. destruct (IH t) as (s' & X & F). exists s'. split; [exact X|]. rewrite F.
    pose proof (set_spec n v s) as W. rewrite E in W. destruct W as (_ & _ & W). unfold frames in W. cbn [map] in W. injection W as _ W. rewrite !map_rev in W. apply (f_equal (@rev _)) in W. now rewrite !rev_involutive in W.
  - rewrite run_app. destruct (IHA (enter s)) as (t & E & F). rewrite E. cbn [run]. pose proof (exit_some t) as X. cbn [enter below] in F. destruct (exit t) as [u|].
    + rewrite X, !map_app in F. apply app_inj_tail in F. destruct F as (F & _). destruct (IHR u) as (s' & Y & G). exists s'. split; [exact Y|]. now rewrite G.
    + rewrite X, map_app in F. cbn [map] in F. now apply app_cons_not_nil in F.
Qed.
(** Without writes they keep the scopes below as they are. *)
Lemma balanced_same : forall l, balanced l -> (forall n v, ~ In (Set_ n v) l) -> forall s, exists s', run l s = Some s' /\ below s' = below s.
Proof.
  intros l B. induction B as [|n v r B IH|n v r B IH|a r A IHA R IHR]; intros N s; cbn [run].
  - now exists s.
  - destruct (IH (fun m w I => N m w (or_intror I)) (define n v s)) as (s' & E & F). now exists s'.
  - exfalso. apply (N n v). now left.
  - rewrite run_app. destruct (IHA (fun m w I => N m w (or_intror (in_or_app _ _ _ (or_introl I)))) (enter s)) as (t & E & F). rewrite E. cbn [run].
    pose proof (exit_some t) as X. cbn [enter below] in F. destruct (exit t) as [u|].
    + rewrite X in F. apply app_inj_tail in F. destruct F as (F & _). assert (M : forall m w, ~ In (Set_ m w) r) by (intros m w I; apply (N m w); right; apply in_or_app; right; now right). destruct (IHR M u) as (s' & Y & G). exists s'. split; [exact Y|]. now rewrite G.
    + rewrite X in F. now destruct (below s).
Qed.
