(** Theorems about the map with undo log: C33. *)
From Coq Require Import List Arith Bool Lia.
From Verif Require Import AssocModel AssocProof SnapModel SnapSpec SnapProof.
Import ListNotations.

(** C33: every history of insertions, removals and nested snapshots behaves as with a stack of
    copies: no assertion fails, all results are the same, and so are the contents. *)
Theorem C33_refines : forall cs, no_clear_inside 0 cs -> exists x,
  srun (smap0, []) cs = Some (x, snd (rrun rstate0 cs)) /\
  forall k, sm_get k (fst x) = fst (fst (rrun rstate0 cs)) k.
Proof.
  intros cs N. destruct (run_ok cs _ _ inv0 N) as (x & R & I). exists x. split; auto. apply I.
Qed.
Print Assumptions C33_refines.
(** C33: rolling back restores the contents, whatever was done inside. *)
Theorem C33_rollback : forall cs b, no_clear_inside 0 cs -> balanced b -> exists x y o1 o2,
  srun (smap0, []) cs = Some (x, o1) /\ srun (smap0, []) (cs ++ SSnapshot :: b ++ [SRollback]) = Some (y, o2) /\
  (forall k, sm_get k (fst y) = sm_get k (fst x)) /\ length (snd y) = length (snd x).
Proof.
  intros cs b N B. destruct (run_ok cs _ _ inv0 N) as (x & R & I).
  destruct (run_ok (cs ++ SSnapshot :: b ++ [SRollback]) _ _ inv0) as (y & R2 & I2); [apply no_clear_balanced; auto|].
  exists x, y. do 2 eexists. split; [exact R|]. split; [exact R2|].
  rewrite rrun_app, rrun_cons in I2. destruct (fst (rrun rstate0 cs)) as [m ms]. cbn [rstep fst] in I2. rewrite rrun_app in I2.
  pose proof (balanced_stack b B m (m :: ms)) as S. destruct (fst (rrun (m, m :: ms) b)) as [m1 s1]. cbn [snd] in S. subst s1. rewrite rrun_cons in I2. cbn in I2.
  destruct I as (_ & _ & _ & D & F), I2 as (_ & _ & _ & D2 & F2). cbn [fst snd] in *. split; [intros k; unfold sm_get; rewrite D, D2; reflexivity|].
  apply F2_length in F, F2. congruence.
Qed.
Print Assumptions C33_rollback.
(** C33: committing keeps the contents: the same as without the snapshot. *)
Theorem C33_commit : forall cs b, no_clear_inside 0 cs -> balanced b -> exists x y o1 o2,
  srun (smap0, []) (cs ++ b) = Some (x, o1) /\ srun (smap0, []) (cs ++ SSnapshot :: b ++ [SCommit]) = Some (y, o2) /\
  (forall k, sm_get k (fst y) = sm_get k (fst x)) /\ length (snd y) = length (snd x).
Proof.
  intros cs b N B. destruct (run_ok (cs ++ b) _ _ inv0) as (x & R & I); [now apply no_clear_bal|].
  destruct (run_ok (cs ++ SSnapshot :: b ++ [SCommit]) _ _ inv0) as (y & R2 & I2); [apply no_clear_balanced; auto|].
  exists x, y. do 2 eexists. split; [exact R|]. split; [exact R2|].
  rewrite rrun_app in I. rewrite rrun_app, rrun_cons in I2. destruct (fst (rrun rstate0 cs)) as [m ms]. cbn [rstep fst] in I2. rewrite rrun_app in I2.
  pose proof (balanced_stack b B m (m :: ms)) as S. pose proof (balanced_stack b B m ms) as S'. pose proof (balanced_frame b B m ms (m :: ms)) as Q.
  destruct (fst (rrun (m, m :: ms) b)) as [m1 s1], (fst (rrun (m, ms) b)) as [m2 s2]. cbn [fst snd] in S, S', Q. subst. rewrite rrun_cons in I2. cbn in I2.
  destruct I as (_ & _ & _ & D & F), I2 as (_ & _ & _ & D2 & F2). cbn [fst snd] in *. split; [intros k; unfold sm_get; rewrite D, D2; reflexivity|].
  apply F2_length in F, F2. congruence.
Qed.
Print Assumptions C33_commit.
(** C33: outside of snapshots the log is empty, so nothing is kept for ever. *)
Theorem C33_no_leak : forall cs x o, no_clear_inside 0 cs -> srun (smap0, []) cs = Some (x, o) -> snd x = [] ->
  s_log (fst x) = [] /\ s_open (fst x) = 0.
Proof.
  intros cs x o N R E. destruct (run_ok cs _ _ inv0 N) as (x' & R' & A & B & _). rewrite R in R'. injection R' as <- _. rewrite E in A. auto.
Qed.
Print Assumptions C33_no_leak.
Example C33_nonvacuous :
  let b := [SInsert 1 11; SSnapshot; SRemove 2; SInsert 3 30; SCommit; SInsert 1 12; SSnapshot; SRemove 1; SRollback] in
  balanced b /\ no_clear_inside 0 [SInsert 9 9; SClear; SInsert 1 10; SSnapshot; SInsert 2 20] /\
  (exists x o, srun (smap0, []) ([SInsert 1 10; SInsert 2 20] ++ SSnapshot :: b ++ [SRollback]) = Some (x, o) /\ map (fun k => sm_get k (fst x)) [1; 2; 3] = [Some 10; Some 20; None]) /\
  (exists x o, srun (smap0, []) ([SInsert 1 10; SInsert 2 20] ++ SSnapshot :: b ++ [SCommit]) = Some (x, o) /\ map (fun k => sm_get k (fst x)) [1; 2; 3] = [Some 12; None; Some 30]).
Proof.
  cbn zeta. split.
  - constructor. apply (bal_commit [SRemove 2; SInsert 3 30] [SInsert 1 12; SSnapshot; SRemove 1; SRollback]); [repeat constructor|].
    constructor. apply (bal_rollback [SRemove 1] []); repeat constructor.
  - split; [cbn; auto|]. split; do 2 eexists; split; vm_compute; reflexivity.
Qed.
(** C33: after [clear] inside of a snapshot the snapshot cannot be closed: an assertion fails. *)
Theorem C33_clear_panics : exists cs, srun (smap0, []) cs = None.
Proof. exists [SSnapshot; SInsert 1 1; SClear; SRollback]. reflexivity. Qed.
Print Assumptions C33_clear_panics.
(** C33: nothing stops a client from closing snapshots in the wrong order.  Committing the outer
    one first makes closing the inner one fail. *)
Theorem C33_order_panics : exists s0 s1 s2 s3 outer inner,
  sm_snapshot s0 = (s1, outer) /\ sm_snapshot (fst (sm_insert 1 1 s1)) = (s2, inner) /\ sm_commit outer s2 = Some s3 /\ sm_commit inner s3 = None.
Proof. exists smap0. do 5 eexists. repeat split. Qed.
Print Assumptions C33_order_panics.
