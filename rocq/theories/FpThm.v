(** Theorems about fingerprints: C30, C52, C74. *)
From Coq Require Import List NArith Bool Lia.
From Verif Require Import DigModel FpModel FpSpec FpProof.
Import ListNotations.
Open Scope N_scope.

(** C30: the text form of every fingerprint is parsed back. *)
Theorem C30_round_trip : forall f, fp_ok f -> try_from_str (as_svg_id [] f) = Ok_ f.
Proof. exact svg_round. Qed.
Print Assumptions C30_round_trip.
(** C30: different fingerprints have different text forms, with any prefix. *)
Theorem C30_injective : forall p f g, fp_ok f -> fp_ok g -> as_svg_id p f = as_svg_id p g -> f = g.
Proof. exact svg_inj. Qed.
Print Assumptions C30_injective.
(** C30: what is parsed is a fingerprint. *)
Theorem C30_parse_range : forall s f, try_from_str s = Ok_ f -> fp_ok f.
Proof. exact parse_fp_ok. Qed.
Print Assumptions C30_parse_range.
(** C30: fingerprints are the 128-bit values. *)
Theorem C30_u128 : (forall f, fp_ok f -> from_u128 (to_u128 f) = f) /\
  (forall n, n < 2 ^ 128 -> fp_ok (from_u128 n) /\ to_u128 (from_u128 n) = n).
Proof. split; [exact u128_round|exact u128_back]. Qed.
Print Assumptions C30_u128.
Example C30_nonvacuous :
  let f := mkFp 18446744073709551615 65536 in let g := mkFp 18446744073709551615 0 in
  fp_ok f /\ fp_ok g /\ as_svg_id [103] f = [103; 47; 47; 47; 47; 47; 47; 47; 47; 47; 47; 56; 65; 65; 65; 66] /\
  as_svg_id [103] g = [103; 47; 47; 47; 47; 47; 47; 47; 47; 47; 47; 56] /\
  try_from_str (as_svg_id [] f) = Ok_ f /\ to_u128 f = 2 ^ 80 + 2 ^ 64 - 1 /\ from_u128 (2 ^ 80 + 2 ^ 64 - 1) = f.
Proof. repeat split; vm_compute; reflexivity. Qed.
(** C30: a string that is not the text form of a fingerprint ends the thread, though the
    function returns a result: a short one always, a long one with a bad character. *)
Theorem C30_short_panics : forall s, (length s < 11)%nat -> try_from_str s = Panic_.
Proof. intros s H. unfold try_from_str. apply PeanoNat.Nat.ltb_lt in H. now rewrite H. Qed.
Print Assumptions C30_short_panics.
Theorem C30_error_panics : exists s, length s = 11%nat /\ try_from_str s = Panic_.
Proof. exists (repeat 45 11). split; vm_compute; reflexivity. Qed.
Print Assumptions C30_error_panics.
(** C30: a fingerprint has one text form, but other strings are parsed to it as well. *)
Theorem C30_not_canonical : exists s f, try_from_str s = Ok_ f /\ as_svg_id [] f <> s.
Proof. exists (repeat 65 13), (mkFp 0 0). split; vm_compute; congruence. Qed.
Print Assumptions C30_not_canonical.

(** C52: up to 2^31 shards may be asked for.  The map has a power of two of them, at least as
    many as asked for up to 512, and is empty. *)
Theorem C52_new : forall (V : Type) n, n <= 2 ^ 31 -> exists m, fm_new V n = Some m /\
  power_of_two (N.of_nat (length (fm_shards m))) /\ N.min n 512 <= N.of_nat (length (fm_shards m)) <= 512 /\
  (forall f, fm_get f m = None).
Proof.
  intros V n H. destruct (fm_new_ok V n H) as (m & E & (k & K & M & L) & G & Q). exists m. split; [exact E|].
  rewrite L, Nnat.N2Nat.id in *. split; [exists k; reflexivity|]. split; [|exact G].
  assert (X : 2 ^ k <= 2 ^ 9) by (apply N.pow_le_mono_r; [discriminate|exact K]). change (2 ^ 9) with 512 in X. split; [|exact X].
  destruct (N.le_gt_cases n 512) as [Y|Y]; [specialize (Q Y); lia|].
  destruct (fm_new_ok V 512) as (m' & E' & _ & _ & Q'); [vm_compute; discriminate|].
  clear Q'. unfold fm_new in E. destruct (next_pow2_spec n H) as (j & N & J). rewrite N in E. injection E as <-.
  cbn in L. rewrite repeat_length in L. apply Nnat.N2Nat.inj in L. rewrite <- L. unfold max_shards. lia.
Qed.
Print Assumptions C52_new.
(** C52: after any insertions the access without bounds check is within bounds, for every key. *)
Theorem C52_in_bounds : forall (V : Type) n m ins f, n <= 2 ^ 31 -> fm_new V n = Some m ->
  let m' := fold_left (fun m x => fm_insert (fst x) (snd x) m) ins m in
  (fm_index m' f < length (fm_shards m'))%nat /\ fm_index m' f = fm_index m f.
Proof.
  intros V n m ins f H E. destruct (fm_new_ok V n H) as (m0 & E0 & W & _). rewrite E in E0. injection E0 as <-. clear E.
  assert (X : forall ins m, fm_wf m -> let m' := fold_left (fun (m : fmap V) x => fm_insert (fst x) (snd x) m) ins m in fm_wf m' /\ fm_mask m' = fm_mask m).
  { clear. induction ins as [|x ins IH]; intros m W; cbn; [auto|]. destruct (fm_insert_wf m (fst x) (snd x) W) as [A B].
    destruct (IH _ A) as [C D]. split; [exact C|]. now rewrite D. }
  destruct (X ins m W) as [A B]. split; [now apply fm_index_bound|]. unfold fm_index. now rewrite B.
Qed.
Print Assumptions C52_in_bounds.
(** C52: the shards together are one map. *)
Theorem C52_map : forall (V : Type) n m ins f v g, n <= 2 ^ 31 -> fm_new V n = Some m ->
  let m' := fold_left (fun m x => fm_insert (fst x) (snd x) m) ins m in
  fm_get f (fm_insert f v m') = Some v /\ (g <> f -> fm_get g (fm_insert f v m') = fm_get g m').
Proof.
  intros V n m ins f v g H E. destruct (fm_new_ok V n H) as (m0 & E0 & W & _). rewrite E in E0. injection E0 as <-. clear E.
  cbv zeta. set (m' := fold_left _ ins m). assert (W' : fm_wf m').
  { subst m'. revert m W. induction ins as [|x ins IH]; intros m W; cbn; auto. apply IH. now apply fm_insert_wf. }
  split; [|intros D]; rewrite fm_get_insert by exact W'.
  - now rewrite (proj2 (fp_eqb_spec f f) eq_refl).
  - destruct (fp_eqb f g) eqn:X; auto. apply fp_eqb_spec in X. congruence.
Qed.
Print Assumptions C52_map.
(** C52: the default number of shards is allowed for up to 2^30 threads. *)
Theorem C52_default : forall t, 1 <= t <= 2 ^ 30 -> exists n, default_shards t = Some n /\ power_of_two n /\ 1 <= n <= 512.
Proof.
  intros t H. destruct (default_ok t H) as (k & E & K). exists (2 ^ k). split; [exact E|]. split; [exists k; auto|].
  assert (2 ^ 0 <= 2 ^ k) by (apply N.pow_le_mono_r; [discriminate|lia]). assert (2 ^ k <= 2 ^ 9) by (apply N.pow_le_mono_r; [discriminate|exact K]).
  change (2 ^ 0) with 1 in *. change (2 ^ 9) with 512 in *. lia.
Qed.
Print Assumptions C52_default.
Example C52_nonvacuous :
  (exists m, fm_new nat 5 = Some m /\ length (fm_shards m) = 8%nat /\ fm_index m (mkFp 1000003 7) = 3%nat /\
    fm_get (mkFp 1000003 7) (fm_insert (mkFp 11 0) 1%nat (fm_insert (mkFp 1000003 7) 2%nat m)) = Some 2%nat) /\
  default_shards 6 = Some 16 /\ default_shards 1000 = Some 512.
Proof. split; [eexists; repeat split; vm_compute; reflexivity|split; vm_compute; reflexivity]. Qed.
(** C52: more than 2^31 shards are refused by a panic. *)
Theorem C52_limit_refuted : exists n, n < 2 ^ 32 /\ fm_new nat n = None.
Proof. exists (2 ^ 31 + 1). split; vm_compute; reflexivity. Qed.
Print Assumptions C52_limit_refuted.

(** C74: for calls one after the other a fingerprint that was returned stands for one item. *)
Theorem C74_sequential : forall (data : Type) (eqb : data -> data -> bool) (h : data -> fp) ds,
  (forall a b, eqb a b = true -> a = b) -> identifies (snd (brun data eqb h (mkB data [] []) (one_by_one ds))).
Proof. intros data eqb h ds H. now apply seq_identifies. Qed.
Print Assumptions C74_sequential.
(** C74: and every call returns the hash of its item, unless another item with the same
    hash was given before or after. *)
Theorem C74_answers : forall (data : Type) (eqb : data -> data -> bool) (h : data -> fp) ds,
  (forall a b, eqb a b = true <-> a = b) -> forall i d, In (i, d) ds ->
  let os := snd (brun data eqb h (mkB data [] []) (one_by_one ds)) in
  In (BRet data i d (h d)) os \/ (In (BConflict data i d) os /\ exists j d', In (j, d') ds /\ d' <> d /\ h d' = h d).
Proof.
  intros data eqb h ds H i d X. destruct (builder_total data eqb h (fun a => proj2 (H a a) eq_refl) ds [] ltac:(discriminate) i d X) as [A|[A (z & B & C & D)]]; [left; exact A|].
  right. split; [exact A|]. destruct D as [D|[j D]]; [discriminate|]. exists j, z. auto.
Qed.
Print Assumptions C74_answers.
Example C74_nonvacuous :
  let h := fun n => mkFp (n mod 3) 0 in
  snd (brun N N.eqb h (mkB N [] []) (one_by_one [(1%nat, 1); (2%nat, 2); (3%nat, 1); (4%nat, 4)])) =
  [BRet N 1 1 (mkFp 1 0); BRet N 2 2 (mkFp 2 0); BRet N 3 1 (mkFp 1 0); BConflict N 4 4].
Proof. reflexivity. Qed.
(** C74: two calls at the same time may both find nothing, and both are given the same
    fingerprint; the conflict is not seen. *)
Theorem C74_overlap_refuted : exists (h : N -> fp) es, ~ identifies (snd (brun N N.eqb h (mkB N [] []) es)).
Proof.
  exists (fun _ => mkFp 5 0), [BCall N 1 1; BCall N 2 2; BStep N 1; BStep N 2; BStep N 1; BStep N 2].
  intros H. assert (1 = 2) by (apply (H 1%nat 2%nat 1 2 (mkFp 5 0)); cbn; auto). discriminate.
Qed.
Print Assumptions C74_overlap_refuted.
