(** Theorems about the interner: C88 and C89. *)
From Coq Require Import List Arith Bool Lia.
From Verif Require Import InternModel InternSpec InternProof.
Import ListNotations.
Open Scope nat_scope.

(** ** C88 *)
Theorem C88_equal : forall sh es i j h g, let s := run sh init es in
  nth_error (s_hs s) i = Some h -> nth_error (s_hs s) j = Some g -> h_phase h = Live -> h_phase g = Live ->
  (same h g = true <-> content s h = content s g).
Proof. exact equal_iff. Qed.
Print Assumptions C88_equal.
(** While a thread drops the last handle on 7, another interns 7 again. *)
Definition busy : list event := [New 7; New 8; Drop 0; New 7; Drop 0; Drop 0; Clone 2; Drop 0].
Example C88_equal_nonvacuous : exists h g k, let s := run (fun c => c mod 2) init busy in
  nth_error (s_hs s) 2 = Some h /\ nth_error (s_hs s) 3 = Some g /\ nth_error (s_hs s) 1 = Some k /\ h_phase h = Live /\ h_phase g = Live /\ h_phase k = Live /\ same h g = true /\ same h k = false.
Proof. vm_compute. do 3 eexists. repeat split. Qed.

Theorem C88_alive : forall sh es i h, let s := run sh init es in
  nth_error (s_hs s) i = Some h -> present h -> 1 <= count s h.
Proof. exact alive. Qed.
Print Assumptions C88_alive.

Theorem C88_content : forall sh es es' i h, let s := run sh init es in let s' := run sh init (es ++ es') in
  nth_error (s_hs s) i = Some h -> exists h', nth_error (s_hs s') i = Some h' /\ same h' h = true /\ content s' h' = content s h.
Proof.
  intros sh es es' i h s s' H. unfold s'. rewrite run_app. destruct (keeps sh es' _ i h (inv_reach sh es) H) as (h' & H' & E & C). exists h'. split; [exact H'|]. split; [|exact C].
  unfold same. rewrite E. apply Nat.eqb_refl.
Qed.
Print Assumptions C88_content.
Example C88_content_nonvacuous : exists h, let s := run (fun c => c mod 2) init busy in nth_error (s_hs s) 3 = Some h /\ present h /\ content s h = 7 /\ count s h = 4.
Proof. vm_compute. eexists. repeat split. discriminate. Qed.

Theorem C88_freed : forall sh es es' a, let s := run sh init es in let s' := run sh init (es ++ es') in
  a < length (s_cells s) -> c_count (cell_of s a) = 0 ->
  c_count (cell_of s' a) = 0 /\ ~ In a (s_map s') /\ forall h, In h (s_hs s') -> present h -> h_arc h <> a.
Proof.
  intros sh es es' a s s' A Z. assert (Q : a < length (s_cells s') /\ c_count (cell_of s' a) = 0) by (unfold s'; rewrite run_app; apply freed; auto; apply inv_reach).
  destruct Q as (A' & Z'). split; [exact Z'|]. pose proof (inv_reach sh (es ++ es')) as V. fold s' in V. pose proof (i_count sh s' V a A') as K. rewrite Z' in K. split.
  - intros I. destruct (in_dec Nat.eq_dec a (s_map s')); [cbn in K; lia|contradiction].
  - intros h I P E. apply In_nth_error in I as (i & H). pose proof (refs_one a (s_hs s') i h H) as R. assert (holds a h = true) as HH by (apply holds_iff; auto). specialize (R HH). lia.
Qed.
Print Assumptions C88_freed.
Example C88_freed_nonvacuous : let s := run (fun c => c mod 2) init (New 7 :: drops 0) in let s' := run (fun c => c mod 2) init ((New 7 :: drops 0) ++ [New 7]) in
  0 < length (s_cells s) /\ c_count (cell_of s 0) = 0 /\ s_map s = [] /\ s_map s' = [1].
Proof. vm_compute. repeat split. apply le_n. Qed.

Theorem C88_no_panic : forall sh es, s_panic (run sh init es) = false.
Proof. exact no_panic. Qed.
Print Assumptions C88_no_panic.

Theorem C88_new : forall sh es c, let s := run sh init es in let s' := step sh s (New c) in
  s_lock s (sh c) = None -> exists h, s_hs s' = s_hs s ++ [h] /\ h_phase h = Live /\ content s' h = c.
Proof. exact new_handle. Qed.
Print Assumptions C88_new.

(** Whoever holds a shard lets it go by steps of its own. *)
Theorem C88_unblocked : forall sh es k i, let s := run sh init es in
  s_lock s k = Some i -> s_lock (run sh s [Drop i; Drop i; Drop i]) k = None.
Proof. exact unblocked. Qed.
Print Assumptions C88_unblocked.
Example C88_unblocked_nonvacuous : s_lock (run (fun c => c mod 2) init [New 7; Drop 0; Drop 0; New 9]) 1 = Some 0 /\ s_hs (run (fun c => c mod 2) init [New 7; Drop 0; Drop 0; New 9]) = [mkH 0 Locked].
Proof. vm_compute. split; reflexivity. Qed.

(** One cell per content; the statistics count them. *)
Theorem C88_alloc : forall sh es, let s := run sh init es in
  s_alloc s = length (s_map s) /\ NoDup (map (fun a => c_content (cell_of s a)) (s_map s)).
Proof. exact alloc. Qed.
Print Assumptions C88_alloc.
Example C88_alloc_nonvacuous : let s := run (fun c => c mod 2) init busy in s_alloc s = 2 /\ map (fun a => c_content (cell_of s a)) (s_map s) = [7; 8].
Proof. vm_compute. split; reflexivity. Qed.

(** ** C89 *)
(** Missing: histories in which two handles of one cell are dropped at once (see [C89_leak_refuted]). *)
Theorem C89_clean_partial : forall sh es, (forall n, solo (run sh init (firstn n es))) -> lean (run sh init es).
Proof. exact clean. Qed.
Print Assumptions C89_clean_partial.

Theorem C89_sequential_partial : forall sh xs, let s := run sh init (flat_map events_of xs) in
  lean s /\ (forall k, s_lock s k = None) /\ (forall h, In h (s_hs s) -> h_phase h = Live \/ h_phase h = Gone).
Proof. exact sequential. Qed.
Print Assumptions C89_sequential_partial.
Example C89_sequential_nonvacuous : let s := run (fun c => c mod 2) init (flat_map events_of [ANew 7; ANew 8; AClone 0; ADrop 0; ADrop 1; ANew 8; ADrop 2]) in
  s_map s = [2] /\ map h_phase (s_hs s) = [Gone; Gone; Gone; Live].
Proof. vm_compute. split; reflexivity. Qed.

(** Two threads drop the two handles on 7: both see the other's. *)
Theorem C89_leak_refuted : exists sh es, let s := run sh init es in
  s_hs s <> [] /\ (forall h, In h (s_hs s) -> h_phase h = Gone) /\ exists a, In a (s_map s) /\ c_count (cell_of s a) = 1.
Proof.
  exists (fun c => c mod 2), [New 7; Clone 0; Drop 0; Drop 1; Drop 0; Drop 1]. vm_compute. split; [discriminate|]. split.
  - intros h [<-|[<-|[]]]; reflexivity.
  - exists 0. auto.
Qed.
Print Assumptions C89_leak_refuted.

(** What was left is found again, and goes with the next last handle. *)
Theorem C89_recovers : forall sh es c, let s := run sh init es in let s' := run sh s (New c :: drops (length (s_hs s))) in
  s_lock s (sh c) = None -> (forall h, In h (s_hs s) -> present h -> content s h <> c) ->
  forall b, In b (s_map s') <-> In b (s_map s) /\ c_content (cell_of s b) <> c.
Proof. exact recovers. Qed.
Print Assumptions C89_recovers.
Example C89_recovers_nonvacuous : let s := run (fun c => c mod 2) init [New 7; Clone 0; New 9; Drop 0; Drop 1; Drop 0; Drop 1] in let s' := run (fun c => c mod 2) s (New 7 :: drops (length (s_hs s))) in
  s_lock s 1 = None /\ s_map s = [0; 1] /\ map h_phase (s_hs s) = [Gone; Gone; Live] /\ s_map s' = [1].
Proof. vm_compute. repeat split. Qed.
