(** Theorems about the statistics of queries (C179). *)
From Coq Require Import List Arith Bool NArith Lia Permutation.
From Verif Require Import StatModel StatSpec StatProof.
Import ListNotations.

(** C179: a report has one row for each key that was asked for, the slowest first. *)
Theorem C179_rows : forall top tr, falling (fun x => b_max (snd x)) (report (run top tr)) /\ NoDup (map fst (report (run top tr))) /\
  forall k, In k (map fst (report (run top tr))) <-> asked_for k tr.
Proof.
  intros top tr. destruct (holds top tr) as (_ & _ & N & K). unfold report. destruct (sorted_ok (fun x => b_max (snd x)) (s_buckets (run top tr))) as [F P].
  split; [exact F|]. split.
  - eapply Permutation_NoDup; [|exact N]. symmetry. apply Permutation_map. exact P.
  - intros k. rewrite <- begun_asked, <- K. split; intros H; (eapply Permutation_in; [|exact H]); [|symmetry]; apply Permutation_map; exact P.
Qed.
Print Assumptions C179_rows.
(** C179: the row of a key counts the queries that ended, what was missing, and the sums of how long the queries took in all and until their first snapshot. *)
Theorem C179_sums : forall top tr k b, In (k, b) (report (run top tr)) ->
  b_query b = length (ended k (rev tr)) /\ b_missing b = misses k (rev tr) /\
  b_total b = sum (map fst (ended k (rev tr))) /\ b_snap b = sum (map snd (ended k (rev tr))).
Proof.
  intros top tr k b H. destruct (holds top tr) as (_ & B & N & _). unfold report in H. apply (Permutation_in _ (proj2 (sorted_ok _ _))) in H.
  apply (bucket_in _ _ _ N) in H. rewrite B in H. destruct (begun k (rev tr)); [|discriminate]. injection H as <-. repeat split; reflexivity.
Qed.
Print Assumptions C179_sums.
(** C179, in part: once a query ended, the row has the shortest and the longest time.  (Missing: before that, see [C179_none_refuted].) *)
Theorem C179_bounds_partial : forall top tr k b, In (k, b) (report (run top tr)) -> ended k (rev tr) <> [] -> Forall (fun x => fst x <= top) (ended k (rev tr)) ->
  least (b_min b) (map fst (ended k (rev tr))) /\ greatest (b_max b) (map fst (ended k (rev tr))).
Proof.
  intros top tr k b H E T. destruct (holds top tr) as (_ & B & N & _). unfold report in H. apply (Permutation_in _ (proj2 (sorted_ok _ _))) in H.
  apply (bucket_in _ _ _ N) in H. rewrite B in H. destruct (begun k (rev tr)); [|discriminate]. injection H as <-. cbn [summary b_min b_max].
  assert (E' : map fst (ended k (rev tr)) <> []) by (destruct (ended k (rev tr)); [now destruct E|discriminate]). split; [|now apply max_greatest].
  apply min_least; [exact E'|]. apply Forall_forall. intros x I. apply in_map_iff in I as (y & <- & I). rewrite Forall_forall in T. auto.
Qed.
Print Assumptions C179_bounds_partial.
(** C179: the report on allocations has the tables by how many objects are alive, the most first, with the size of all of these. *)
Theorem C179_alloc : forall ts, falling (fun x => snd (fst x)) (alloc_report ts) /\
  Permutation (alloc_report ts) (map (fun t => (t, t_allocated t - t_dropped t, N.mul (N.of_nat (t_size t)) (N.of_nat (t_allocated t - t_dropped t)))) ts).
Proof. intros ts. exact (sorted_ok _ _). Qed.
Print Assumptions C179_alloc.
Local Open Scope N_scope.
(** C179, in part: a size below 768 terabytes is shown in the unit in which it is below 768, and not in a larger one than needed.  (Missing: larger sizes, see [C179_size_refuted].) *)
Theorem C179_size_partial : forall size, size < 768 * 1024 ^ 4 -> exists u, human_size size = Some u /\
  size < 768 * 1024 ^ N.of_nat u /\ (u = O \/ 768 * 1024 ^ N.of_nat (pred u) <= size).
Proof.
  intros size H. unfold human_size. cbn [unit_of].
  change (1024 * (1024 * (1024 * (1024 * 768)))) with 844424930131968. change (1024 * (1024 * (1024 * 768))) with 824633720832.
  change (1024 * (1024 * 768)) with 805306368. change (1024 * 768) with 786432.
  destruct (N.leb_spec 768 size); [|exists 0%nat; repeat split; [exact H0|now left]].
  destruct (N.leb_spec 786432 size); [|exists 1%nat; repeat split; [exact H1|right; exact H0]].
  destruct (N.leb_spec 805306368 size); [|exists 2%nat; repeat split; [exact H2|right; exact H1]].
  destruct (N.leb_spec 824633720832 size); [|exists 3%nat; repeat split; [exact H3|right; exact H2]].
  destruct (N.leb_spec 844424930131968 size); [|exists 4%nat; repeat split; [exact H4|right; exact H3]].
  exfalso. apply (N.lt_irrefl size). eapply N.lt_le_trans; [exact H|exact H4].
Qed.
Print Assumptions C179_size_partial.
(** C179: a size of 768 terabytes or more makes the report panic. *)
Theorem C179_size_panics : forall size, 768 * 1024 ^ 4 <= size -> human_size size = None.
Proof.
  intros size H. change (768 * 1024 ^ 4) with 844424930131968 in H. unfold human_size. cbn [unit_of].
  change (1024 * (1024 * (1024 * (1024 * 768)))) with 844424930131968. change (1024 * (1024 * (1024 * 768))) with 824633720832.
  change (1024 * (1024 * 768)) with 805306368. change (1024 * 768) with 786432.
  rewrite !(proj2 (N.leb_le _ _)) by lia. reflexivity.
Qed.
Print Assumptions C179_size_panics.
(** C179 fails: a size that is not shown. *)
Theorem C179_size_refuted : exists size, size < 2 ^ 64 /\ human_size size = None.
Proof. exists (2 ^ 50). split; reflexivity. Qed.
Print Assumptions C179_size_refuted.
Local Close Scope N_scope.

(** Three queries of two keys, of which one has not ended; the second of the first key has two snapshots, and the clock goes back in the first. *)
Definition some_events : list event :=
  [Begin 0 7 100; Miss 0; Begin 1 7 110; Snap 1 112; End 0 90; Snap 1 119; Begin 2 8 120; End 1 125; Begin 0 8 130; End 0 160].
Example C179_nonvacuous : report (run 1000 some_events) = [(8, mkBucket 1 0 30 0 30 30); (7, mkBucket 2 1 15 2 0 15)] /\ asked_for 8 some_events /\
  ended 7 (rev some_events) = [(15, 2); (0, 0)] /\ (2000 < 768 * 1024 ^ 4)%N /\ human_size 2000 = Some 1 /\
  map (fun x => t_name (fst (fst x))) (alloc_report [mkTable 1 100 5 4; mkTable 2 8 9 2]) = [2; 1].
Proof.
  split; [vm_compute; reflexivity|]. split; [exists 0, 130; cbn; tauto|]. split; [vm_compute; reflexivity|]. split; [reflexivity|]. split; vm_compute; reflexivity.
Qed.
(** C179 fails: while the first query of a key runs, its row says that the shortest took longer than any query can, and the longest nothing. *)
Theorem C179_none_refuted : forall top, exists tr k b, In (k, b) (report (run top tr)) /\ ended k (rev tr) = [] /\ b_min b = top /\ b_max b = 0.
Proof. intros top. exists [Begin 0 7 100], 7, (mkBucket 0 0 0 0 top 0). cbn. auto. Qed.
Print Assumptions C179_none_refuted.
