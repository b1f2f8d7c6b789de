(** Proofs about the map with undo log. *)
From Coq Require Import List Arith Bool Lia.
From Verif Require Import AssocModel AssocProof SnapModel SnapSpec.
Import ListNotations.

Definition same (m : list (nat * nat)) (f : nat -> option nat) : Prop := forall k, aget k m = f k.
Lemma undo_to_app t : forall l m, t <= length l -> exists a, l = a ++ snd (undo_to t l m) /\ length (snd (undo_to t l m)) = t.
Proof.
  induction l as [|u l IH]; intros m H; cbn [undo_to length] in *; [exists []; split; cbn in *; auto; lia|].
  destruct (Nat.leb_spec (S (length l)) t); cbn [fst snd].
  - exists []. split; auto. cbn. lia.
  - destruct (IH (reverse u m) ltac:(lia)) as (a & E & L). exists (u :: a). split; [cbn; now f_equal|exact L].
Qed.
(** Going further down later is the same as going down at once. *)
Lemma undo_to_twice t t' : t <= t' -> forall l m, undo_to t (snd (undo_to t' l m)) (fst (undo_to t' l m)) = undo_to t l m.
Proof.
  intros T. induction l as [|u l IH]; intros m; [reflexivity|]. cbn [undo_to].
  destruct (Nat.leb_spec (length (u :: l)) t') as [X|X].
  - cbn [fst snd undo_to]. reflexivity.
  - destruct (Nat.leb_spec (length (u :: l)) t); [cbn in *; lia|]. apply IH.
Qed.
Lemma reverse_same u m f : same m f -> same (reverse u m) (match u with Inserted k => put f k None | Overwrite k v => put f k (Some v) end).
Proof.
  intros S k. destruct u as [j|j v]; cbn [reverse]; unfold put; [rewrite aget_adel|rewrite aget_aset]; destruct (k =? j); auto.
Qed.
Lemma undo_to_ext t : forall l m m', (forall k, aget k m = aget k m') ->
  snd (undo_to t l m) = snd (undo_to t l m') /\ forall k, aget k (fst (undo_to t l m)) = aget k (fst (undo_to t l m')).
Proof.
  induction l as [|u l IH]; intros m m' E; [cbn; auto|]. cbn [undo_to]. destruct (length (u :: l) <=? t); [cbn; auto|].
  apply IH. intros k. destruct u as [j|j v]; cbn [reverse]; [rewrite !aget_adel|rewrite !aget_aset]; destruct (k =? j); auto.
Qed.
(** The invariant: from the current map the log leads back to each copy. *)
Fixpoint tokens_ok (hi : nat) (ts : list nat) : Prop :=
  match ts with [] => True | t :: r => t <= hi /\ (r = [] -> t = 0) /\ tokens_ok t r end.
Definition inv (x : sstate) (r : rstate) : Prop :=
  s_open (fst x) = length (snd x) /\ (snd x = [] -> s_log (fst x) = []) /\ tokens_ok (length (s_log (fst x))) (snd x) /\
  same (s_map (fst x)) (fst r) /\ Forall2 (fun t f => same (fst (undo_to t (s_log (fst x)) (s_map (fst x)))) f) (snd x) (snd r).
Lemma tokens_le hi ts : tokens_ok hi ts -> Forall (fun t => t <= hi) ts.
Proof.
  revert hi. induction ts as [|t ts IH]; intros hi H; constructor; destruct H as (A & _ & B); auto.
  specialize (IH _ B). eapply Forall_impl; [|exact IH]. cbn. intros. lia.
Qed.
Lemma tokens_mono hi hi' ts : hi <= hi' -> tokens_ok hi ts -> tokens_ok hi' ts.
Proof. destruct ts as [|t ts]; cbn; auto. intros H (A & B & C). repeat split; auto. lia. Qed.
(** One logged change. *)
Lemma pushed s ts f fs u m' :
  inv (s, ts) (f, fs) -> (forall k, aget k (reverse u m') = aget k (s_map s)) ->
  inv (mkSm m' (push u (s_open s) (s_log s)) (s_open s), ts) ((fun k => aget k m'), fs).
Proof.
  intros (A & B & C & D & E) R. unfold inv in *. cbn [fst snd s_map s_log s_open] in *. split; auto.
  destruct ts as [|t ts].
  - rewrite A. cbn [length push]. split; [intros _; auto|]. split; [exact I|]. split; [intros k; auto|]. inversion E. constructor.
  - rewrite A. cbn [length push]. split; [discriminate|]. split; [eapply tokens_mono; [|exact C]; cbn; lia|]. split; [intros k; auto|].
    pose proof (tokens_le _ _ C) as L. revert E L. generalize (t :: ts). clear - R. intros us. induction 1 as [|t f us fs H E IH]; intros L; constructor.
    + inversion L as [|? ? X]; subst. intros k. cbn [undo_to]. replace (length (u :: s_log s) <=? t) with false by (symmetry; apply Nat.leb_gt; cbn; lia).
      rewrite (proj2 (undo_to_ext t (s_log s) _ _ R)). apply H.
    + apply IH. now inversion L.
Qed.
Lemma inv_ext x f g fs : inv x (f, fs) -> (forall k, f k = g k) -> inv x (g, fs).
Proof. intros (A & B & C & D & E) H. repeat split; auto. intros k. rewrite <- H. apply D. Qed.
Lemma step_ok x r c : inv x r -> (c = SClear -> snd x = []) ->
  exists x', sstep x c = Some (x', snd (rstep r c)) /\ inv x' (fst (rstep r c)).
Proof.
  destruct x as [s ts], r as [f fs]. intros I NC. pose proof I as (A & B & C & D & E). cbn [fst snd] in *. destruct c as [k v|k| | | |]; cbn [sstep rstep fst snd].
  - unfold sm_insert. rewrite <- (D k). destruct (aget k (s_map s)) as [old|] eqn:G; (eexists; split; [reflexivity|]).
    + eapply inv_ext; [apply (pushed s ts f fs (Overwrite k old) _ I)|].
      * intros j. cbn [reverse]. rewrite !aget_aset. destruct (Nat.eqb_spec j k) as [->|]; auto.
      * intros j. cbn. rewrite aget_aset. unfold put. destruct (j =? k); auto.
    + eapply inv_ext; [apply (pushed s ts f fs (Inserted k) _ I)|].
      * intros j. cbn [reverse]. rewrite aget_adel, aget_aset. destruct (Nat.eqb_spec j k) as [->|]; auto.
      * intros j. cbn. rewrite aget_aset. unfold put. destruct (j =? k); auto.
  - unfold sm_remove. rewrite <- (D k). destruct (aget k (s_map s)) as [old|] eqn:G; (eexists; split; [reflexivity|]).
    + eapply inv_ext; [apply (pushed s ts f fs (Overwrite k old) _ I)|].
      * intros j. cbn [reverse]. rewrite aget_aset, aget_adel. destruct (Nat.eqb_spec j k) as [->|]; auto.
      * intros j. cbn. rewrite aget_adel. unfold put. destruct (j =? k); auto.
    + eapply inv_ext; [exact I|]. intros j. unfold put. destruct (Nat.eqb_spec j k) as [->|]; auto. rewrite <- D. exact G.
  - specialize (NC eq_refl). subst ts. eexists. split; [reflexivity|]. inversion E; subst. repeat split; cbn; auto.
  - eexists. split; [reflexivity|]. unfold inv. cbn [fst snd s_map s_log s_open length]. rewrite A. split; auto. split; [discriminate|].
    split; [cbn; split; [lia|split; [intros ->; now rewrite B|exact C]]|]. split; auto. constructor; auto.
    replace (undo_to (length (s_log s)) (s_log s) (s_map s)) with (s_map s, s_log s); [exact D|].
    destruct (s_log s); auto. cbn [undo_to]. now rewrite Nat.leb_refl.
  - destruct ts as [|t ts], fs as [|g fs]; [eexists; split; [reflexivity|exact I]|inversion E|inversion E|]. inversion E as [|? ? ? ? G1 G2]; subst.
    destruct C as (T1 & T2 & T3). unfold sm_rollback, open_ok. rewrite A. cbn [length]. apply Nat.leb_le in T1 as T1'. rewrite T1'. cbn [Nat.ltb Nat.leb andb].
    destruct (undo_to_app t (s_log s) (s_map s) T1) as (a & P & Q).
    destruct (undo_to t (s_log s) (s_map s)) as [m l] eqn:U. cbn [fst snd] in *. eexists. split; [reflexivity|]. unfold inv. cbn [fst snd s_map s_log s_open pred]. split; auto.
    split; [intros ->; specialize (T2 eq_refl); destruct l; auto; cbn in Q; lia|]. split; [now rewrite Q|]. split; auto.
    pose proof (tokens_le _ _ T3) as L. clear - G2 L U. induction G2 as [|t' f' us fs H E IH]; constructor.
    + inversion L as [|? ? X]; subst. pose proof (undo_to_twice t' t X (s_log s) (s_map s)) as W. rewrite U in W. cbn [fst snd] in W. rewrite W. exact H.
    + apply IH. now inversion L.
  - destruct ts as [|t ts], fs as [|g fs]; [eexists; split; [reflexivity|exact I]|inversion E|inversion E|]. inversion E as [|? ? ? ? G1 G2]; subst.
    destruct C as (T1 & T2 & T3). unfold sm_commit, open_ok. rewrite A. cbn [length]. apply Nat.leb_le in T1 as T1'. rewrite T1'. cbn [Nat.ltb Nat.leb andb].
    destruct ts as [|t' ts].
    + cbn [length Nat.eqb]. rewrite (T2 eq_refl). cbn [Nat.eqb]. eexists. split; [reflexivity|]. inversion G2; subst. repeat split; cbn; auto. 
    + cbn [length Nat.eqb pred]. eexists. split; [reflexivity|]. unfold inv. cbn [fst snd s_map s_log s_open]. split; auto. split; [discriminate|].
      split; [eapply tokens_mono; [|exact T3]; lia|]. split; auto.
Qed.
Lemma run_ok cs : forall x r, inv x r -> no_clear_inside (length (snd x)) cs ->
  exists x', srun x cs = Some (x', snd (rrun r cs)) /\ inv x' (fst (rrun r cs)).
Proof.
  induction cs as [|c cs IH]; intros x r I NC; [eexists; split; [reflexivity|exact I]|].
  assert (H : c = SClear -> snd x = []). { intros ->. destruct NC as [NC _]. now apply length_zero_iff_nil. }
  destruct (step_ok x r c I H) as (x1 & S & I1). cbn [srun rrun]. rewrite S. destruct (rstep r c) as [r1 b] eqn:R. cbn [fst snd] in *.
  assert (NC1 : no_clear_inside (length (snd x1)) cs).
  { destruct I as (_ & _ & _ & _ & F). destruct x as [s ts]. destruct c; cbn in NC, S.
    - destruct (sm_insert k v s); injection S as <- <-. exact NC.
    - destruct (sm_remove k s); injection S as <- <-. exact NC.
    - injection S as <- <-. apply NC.
    - injection S as <- <-. exact NC.
    - destruct ts as [|t ts]; [injection S as <- <-; exact NC|]. destruct (sm_rollback t s); [|discriminate]. injection S as <- <-. exact NC.
    - destruct ts as [|t ts]; [injection S as <- <-; exact NC|]. destruct (sm_commit t s); [|discriminate]. injection S as <- <-. exact NC. }
  destruct (IH x1 r1 I1 NC1) as (x2 & S2 & I2). rewrite S2. destruct (rrun r1 cs) as [r2 bs]. cbn [fst snd] in *. eexists. split; [reflexivity|exact I2].
Qed.
Lemma inv0 : inv (smap0, []) rstate0.
Proof. repeat split; cbn; auto. Qed.

(** * Balanced pieces *)
Lemma rrun_app a b r : fst (rrun r (a ++ b)) = fst (rrun (fst (rrun r a)) b).
Proof.
  revert r. induction a as [|c a IH]; intros r; [reflexivity|]. cbn [app rrun]. destruct (rstep r c) as [r1 o]. specialize (IH r1).
  destruct (rrun r1 (a ++ b)), (rrun r1 a). cbn [fst] in *. exact IH.
Qed.
Lemma rrun_cons c b r : fst (rrun r (c :: b)) = fst (rrun (fst (rstep r c)) b).
Proof. cbn [rrun]. destruct (rstep r c) as [r1 o]. cbn [fst]. destruct (rrun r1 b). reflexivity. Qed.
Lemma balanced_stack b : balanced b -> forall m ms, snd (fst (rrun (m, ms) b)) = ms.
Proof.
  induction 1 as [|k v r H IH|k r H IH|b r Hb IHb Hr IHr|b r Hb IHb Hr IHr]; intros m ms; [reflexivity| | | |]; rewrite rrun_cons; cbn [rstep fst]; auto.
  - rewrite rrun_app. specialize (IHb m (m :: ms)). destruct (fst (rrun (m, m :: ms) b)) as [m1 ms1]. cbn [snd] in IHb. subst ms1. rewrite rrun_cons. cbn [rstep fst]. apply IHr.
  - rewrite rrun_app. specialize (IHb m (m :: ms)). destruct (fst (rrun (m, m :: ms) b)) as [m1 ms1]. cbn [snd] in IHb. subst ms1. rewrite rrun_cons. cbn [rstep fst]. apply IHr.
Qed.
Lemma balanced_frame b : balanced b -> forall m ms ms', fst (fst (rrun (m, ms) b)) = fst (fst (rrun (m, ms') b)).
Proof.
  induction 1 as [|k v r H IH|k r H IH|b r Hb IHb Hr IHr|b r Hb IHb Hr IHr]; intros m ms ms'; [reflexivity| | | |]; rewrite !rrun_cons; cbn [rstep fst]; auto.
  - rewrite !rrun_app. pose proof (balanced_stack b Hb m (m :: ms)) as A. pose proof (balanced_stack b Hb m (m :: ms')) as B.
    destruct (fst (rrun (m, m :: ms) b)) as [m1 s1], (fst (rrun (m, m :: ms') b)) as [m2 s2]. cbn [snd] in A, B. subst. rewrite !rrun_cons. cbn [rstep fst]. apply IHr.
  - rewrite !rrun_app. pose proof (balanced_stack b Hb m (m :: ms)) as A. pose proof (balanced_stack b Hb m (m :: ms')) as B. specialize (IHb m (m :: ms) (m :: ms')).
    destruct (fst (rrun (m, m :: ms) b)) as [m1 s1], (fst (rrun (m, m :: ms') b)) as [m2 s2]. cbn [fst snd] in A, B, IHb. subst. rewrite !rrun_cons. cbn [rstep fst]. apply IHr.
Qed.
Lemma depth_app a b : forall d, no_clear_inside d (a ++ b) -> no_clear_inside d a.
Proof.
  induction a as [|c a IH]; intros d H; [exact I|]. destruct c; cbn in *; auto. destruct H. auto.
Qed.
Lemma balanced_depth b : balanced b -> forall d r, no_clear_inside d r -> no_clear_inside d (b ++ r).
Proof.
  induction 1 as [|k v r H IH|k r H IH|b r Hb IHb Hr IHr|b r Hb IHb Hr IHr]; intros d r' N; cbn; auto.
  - rewrite <- app_assoc. apply IHb. cbn. auto.
  - rewrite <- app_assoc. apply IHb. cbn. auto.
Qed.
Fixpoint depth_after (d : nat) (cs : list scall) : nat :=
  match cs with [] => d | SSnapshot :: r => depth_after (S d) r | SRollback :: r | SCommit :: r => depth_after (pred d) r | _ :: r => depth_after d r end.
Lemma no_clear_app a b : forall d, no_clear_inside d a -> no_clear_inside (depth_after d a) b -> no_clear_inside d (a ++ b).
Proof. induction a as [|c a IH]; intros d A B; auto. destruct c; cbn in *; auto. destruct A. auto. Qed.
Lemma no_clear_balanced cs b c : no_clear_inside 0 cs -> balanced b -> c = SRollback \/ c = SCommit -> no_clear_inside 0 (cs ++ SSnapshot :: b ++ [c]).
Proof.
  intros N B C. apply no_clear_app; auto. cbn. apply balanced_depth; auto. destruct C as [->| ->]; cbn; auto.
Qed.
Lemma no_clear_bal cs b : no_clear_inside 0 cs -> balanced b -> no_clear_inside 0 (cs ++ b).
Proof. intros N B. apply no_clear_app; auto. rewrite <- (app_nil_r b). apply balanced_depth; auto. cbn. auto. Qed.
Lemma F2_length {A B} (R : A -> B -> Prop) l l' : Forall2 R l l' -> length l = length l'.
Proof. induction 1; cbn; auto. Qed.
