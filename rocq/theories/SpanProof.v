(** Proofs about the span interner. *)
From Coq Require Import List NArith Bool Lia.
From Verif Require Import DigModel DigProof SpanModel SpanSpec.
Import ListNotations.
Open Scope N_scope.

(** * Ids *)
Lemma land_low32 a b : b < 2 ^ 32 -> N.land (N.shiftl a 32) b = 0.
Proof.
  intros H. apply N.bits_inj. intros m. rewrite N.land_spec, N.bits_0.
  destruct (N.lt_ge_cases m 32) as [X|X]; [now rewrite N.shiftl_spec_low|].
  rewrite <- (N.mod_small b (2 ^ 32)) by exact H. rewrite N.mod_pow2_bits_high by exact X. apply andb_false_r.
Qed.
Lemma u64_sum i : id_ok i -> id_to_u64 i = i_life i * 2 ^ 32 + i_idx i.
Proof.
  intros [L H]. unfold id_to_u64. rewrite <- N.lxor_lor by (apply land_low32; exact H).
  rewrite <- N.add_nocarry_lxor by (apply land_low32; exact H). now rewrite N.shiftl_mul_pow2.
Qed.
Lemma u64_bound i : id_ok i -> id_to_u64 i <= max64.
Proof. intros H. rewrite u64_sum by exact H. destruct H. change (2 ^ 32) with 4294967296 in *. unfold max64. lia. Qed.
Lemma u64_round i : id_ok i -> id_from_u64 (id_to_u64 i) = i.
Proof.
  intros H. rewrite u64_sum by exact H. destruct H as [L H]. destruct i as [l x]. cbn [i_life i_idx] in *. unfold id_from_u64.
  change 4294967295 with (N.ones 32). rewrite N.land_ones, N.shiftr_div_pow2, N.add_comm, N.div_add, (N.div_small x) by (auto; discriminate).
  rewrite N.mod_add by discriminate. f_equal; [rewrite N.add_0_l; now apply N.mod_small|now apply N.mod_small].
Qed.
Lemma u64_back n : n <= max64 -> id_ok (id_from_u64 n) /\ id_to_u64 (id_from_u64 n) = n.
Proof.
  intros H. assert (O : id_ok (id_from_u64 n)).
  { split; cbn; [apply N.mod_lt; discriminate|]. change 4294967295 with (N.ones 32). rewrite N.land_ones. apply N.mod_lt. discriminate. }
  split; [exact O|]. rewrite u64_sum by exact O. cbn [id_from_u64 i_life i_idx]. change 4294967295 with (N.ones 32).
  rewrite N.land_ones, N.shiftr_div_pow2. change two32 with (2 ^ 32).
  rewrite (N.mod_small (n / 2 ^ 32)) by (apply N.div_lt_upper_bound; [discriminate|]; unfold max64 in H; change (2 ^ 32 * 2 ^ 32) with 18446744073709551616; lia).
  rewrite (N.mul_comm (n / 2 ^ 32)). symmetry. now apply N.div_mod.
Qed.
Lemma hex_round i : id_ok i -> from_hex (to_hex i) = Some i.
Proof.
  intros H. unfold from_hex, to_hex. rewrite parse_print by (try lia; now apply u64_bound). cbn. now rewrite u64_round.
Qed.
Lemma hex_back s i : from_hex s = Some i -> id_ok i.
Proof.
  unfold from_hex. destruct (parse_num 16 max64 s) as [n|] eqn:E; [|discriminate]. intros [= <-]. apply parse_bound in E. now apply u64_back.
Qed.
Lemma new_id_ok a b : id_ok (new_id a b).
Proof. split; apply N.mod_lt; discriminate. Qed.

(** * Histories *)
Lemma filter_all {A} (p : A -> bool) l : (forall x, In x l -> p x = true) -> filter p l = l.
Proof. induction l as [|x l IH]; intros H; cbn; auto. rewrite H by (left; auto). f_equal. apply IH. intros y Y. apply H. now right. Qed.
Lemma filter_shorter {A} (p : A -> bool) l : (length (filter p l) <= length l)%nat.
Proof. induction l as [|x l IH]; cbn; auto. destruct (p x); cbn; lia. Qed.
Lemma irun_app s a b : irun s (a ++ b) = irun (irun s a) b.
Proof. apply fold_left_app. Qed.
Lemma resets_app a b : resets (a ++ b) = resets a + resets b.
Proof. induction a as [|[|sp] a IH]; cbn [resets app]; auto. rewrite IH. lia. Qed.
Lemma resets_length a : resets a <= N.of_nat (length a).
Proof. induction a as [|[|sp] a IH]; cbn [resets length]; lia. Qed.
Lemma intern_life s sp : n_life (fst (intern s sp)) = n_life s.
Proof. unfold intern. now destruct (index_of _ _). Qed.
Lemma life_run cs : forall s, n_life (irun s cs) = n_life s + resets cs.
Proof.
  induction cs as [|[|sp] cs IH]; intros s; cbn [irun fold_left resets]; [lia| |]; change (fold_left istep cs ?x) with (irun x cs); rewrite IH; cbn [istep].
  - unfold reset. cbn [n_life]. lia.
  - rewrite intern_life. lia.
Qed.
Lemma life_bound cs : short cs -> n_life (irun interner0 cs) < 2 ^ 32.
Proof. intros H. rewrite life_run. pose proof (resets_length cs). unfold short in H. cbn [interner0 n_life]. lia. Qed.
Lemma index_of_nth x : forall l k, index_of x l = Some k -> nth_error l k = Some x.
Proof.
  induction l as [|y l IH]; intros k H; [discriminate|]. cbn in H. destruct ((fst y =? fst x) && (snd y =? snd x)) eqn:E.
  - injection H as <-. apply andb_true_iff in E as [A B]. apply N.eqb_eq in A, B. destruct x, y; cbn in *; congruence.
  - destruct (index_of x l) as [j|]; [|discriminate]. injection H as <-. now apply IH.
Qed.
Definition index (s : interner) (sp : span) : nat :=
  match index_of (n_life s, sp) (n_set s) with Some k => k | None => length (n_set s) end.
Lemma intern_spec s sp : snd (intern s sp) = new_id (n_life s) (N.of_nat (index s sp)) /\
  nth_error (n_set (fst (intern s sp))) (index s sp) = Some (n_life s, sp) /\ exists t, n_set (fst (intern s sp)) = n_set s ++ t.
Proof.
  unfold intern, index. destruct (index_of (n_life s, sp) (n_set s)) as [k|] eqn:E; cbn.
  - split; auto. split; [now apply index_of_nth|exists []; now rewrite app_nil_r].
  - split; auto. split; [rewrite nth_error_app2 by auto; now rewrite PeanoNat.Nat.sub_diag|eauto].
Qed.
Lemma index_length s sp : (index s sp <= length (n_set s))%nat.
Proof.
  unfold index. destruct (index_of _ _) as [k|] eqn:E; auto. apply index_of_nth in E.
  assert (nth_error (n_set s) k <> None) by congruence. apply nth_error_Some in H. lia.
Qed.
Lemma set_length cs : forall s, (length (n_set (irun s cs)) <= length (n_set s) + length cs)%nat.
Proof.
  induction cs as [|c cs IH]; intros s; cbn [irun fold_left length]; [lia|]. change (fold_left istep cs ?x) with (irun x cs).
  specialize (IH (istep s c)). enough (length (n_set (istep s c)) <= S (length (n_set s)))%nat by lia. clear IH. destruct c as [|sp]; cbn.
  - etransitivity; [apply filter_shorter|lia].
  - unfold intern. destruct (index_of _ _); cbn; [lia|]. rewrite app_length. cbn. lia.
Qed.
(** The id handed out. *)
Lemma id_of_spec a sp : short (a ++ [Intern sp]) ->
  id_of a sp = mkId (n_life (irun interner0 a)) (N.of_nat (index (irun interner0 a) sp)).
Proof.
  intros H. unfold id_of. rewrite (proj1 (intern_spec _ _)). unfold new_id. change two32 with (2 ^ 32).
  assert (A : short a) by (unfold short in *; rewrite app_length in H; cbn in H; lia).
  rewrite !N.mod_small; auto.
  - pose proof (index_length (irun interner0 a) sp). pose proof (set_length a interner0). cbn [interner0 n_set length] in *.
    unfold short in H. rewrite app_length in H. cbn [length] in H. lia.
  - now apply life_bound.
Qed.
Lemma short_prefix a sp b : short (a ++ Intern sp :: b) -> short (a ++ [Intern sp]).
Proof. unfold short. rewrite !app_length. cbn [length]. lia. Qed.
(** Expiry. *)
Lemma asked_expiry a sp b : short (a ++ Intern sp :: b) -> asked a sp b = UseAfterFree <-> 30 <= resets b.
Proof.
  intros H. unfold asked, lookup. rewrite id_of_spec by (eapply short_prefix; eauto). cbn [i_life].
  rewrite !life_run, resets_app. cbn [resets]. unfold threshold.
  destruct (N.leb_spec (n_life interner0 + resets a + 30) (n_life interner0 + (resets a + resets b))); split; intros X; auto; try lia; discriminate.
Qed.
(** Without drops the indices stay. *)
Lemma kept_step s c k x : nth_error (n_set s) k = Some x ->
  (c = Reset_ -> forall y, In y (n_set s) -> n_life s + 1 - fst y < 30) -> nth_error (n_set (istep s c)) k = Some x.
Proof.
  intros H R. destruct c as [|sp]; cbn [istep].
  - cbn. rewrite filter_all; [exact H|]. intros y Y. apply N.ltb_lt. now apply R.
  - destruct (intern_spec s sp) as (_ & _ & t & ->). rewrite nth_error_app1; auto. apply nth_error_Some. congruence.
Qed.
Lemma origin a : forall x, In x (n_set (irun interner0 a)) ->
  exists a1 a2, a = a1 ++ Intern (snd x) :: a2 /\ fst x = n_life (irun interner0 a1).
Proof.
  induction a as [|c a IH] using rev_ind; intros x X; [destruct X|]. rewrite irun_app in X. cbn [irun fold_left] in X.
  change (fold_left istep a interner0) with (irun interner0 a) in X. destruct c as [|sp]; cbn [istep] in X.
  - cbn in X. apply filter_In in X as [X _]. destruct (IH x X) as (a1 & a2 & E & F). exists a1, (a2 ++ [Reset_]). rewrite E, <- app_assoc. auto.
  - unfold intern in X. destruct (index_of _ _); cbn [fst n_set] in X.
    + destruct (IH x X) as (a1 & a2 & E & F). exists a1, (a2 ++ [Intern sp]). rewrite E, <- app_assoc. auto.
    + apply in_app_or in X as [X|[<-|[]]].
      * destruct (IH x X) as (a1 & a2 & E & F). exists a1, (a2 ++ [Intern sp]). rewrite E, <- app_assoc. auto.
      * exists a, []. auto.
Qed.
Lemma kept a sp : forall b, (forall b1 b2, b = b1 ++ Reset_ :: b2 -> forall y, In y (n_set (irun interner0 (a ++ Intern sp :: b1))) ->
    n_life (irun interner0 (a ++ Intern sp :: b1)) + 1 - fst y < 30) ->
  nth_error (n_set (irun interner0 (a ++ Intern sp :: b))) (index (irun interner0 a) sp) = Some (n_life (irun interner0 a), sp).
Proof.
  induction b as [|c b IH] using rev_ind; intros H.
  - rewrite irun_app. cbn [irun fold_left istep]. apply intern_spec.
  - change (a ++ Intern sp :: b ++ [c]) with (a ++ (Intern sp :: b) ++ [c]). rewrite app_assoc, irun_app. cbn [irun fold_left].
    apply kept_step.
    + apply IH. intros b1 b2 E. apply (H b1 (b2 ++ [c])). rewrite E, <- app_assoc. reflexivity.
    + intros ->. apply (H b []). reflexivity.
Qed.
Lemma asked_kept a sp b : short (a ++ Intern sp :: b) -> resets b < 30 ->
  nth_error (n_set (irun interner0 (a ++ Intern sp :: b))) (index (irun interner0 a) sp) = Some (n_life (irun interner0 a), sp) ->
  asked a sp b = Found (Some sp).
Proof.
  intros S R K. assert (E : asked a sp b <> UseAfterFree) by (rewrite asked_expiry by exact S; lia). revert E.
  unfold asked, lookup. rewrite id_of_spec by (eapply short_prefix; eauto). cbn [i_life i_idx]. destruct (_ <=? _); [congruence|]. intros _.
  rewrite Nnat.Nat2N.id, K. reflexivity.
Qed.
Lemma asked_latest a sp b : short (a ++ Intern sp :: b) -> resets b = 0 -> asked a sp b = Found (Some sp).
Proof.
  intros S R. apply asked_kept; [exact S|lia|]. apply kept. intros b1 b2 E. rewrite E, resets_app in R. cbn [resets] in R. lia.
Qed.
Lemma asked_none_expired a sp b : short (a ++ Intern sp :: b) -> none_expired (a ++ Intern sp :: b) -> asked a sp b = Found (Some sp).
Proof.
  intros S X. apply asked_kept; [exact S|now apply (X a sp b)|]. apply kept. intros b1 b2 E y Y.
  destruct (origin _ y Y) as (a1 & a2 & E1 & E2). rewrite E1, E2, !life_run, resets_app. cbn [resets].
  assert (Q : resets (a2 ++ Reset_ :: b2) < 30).
  { apply (X a1 (snd y)). rewrite E. change (Intern (snd y) :: a2 ++ Reset_ :: b2) with ((Intern (snd y) :: a2) ++ Reset_ :: b2).
    rewrite app_assoc, <- E1, <- app_assoc. reflexivity. }
  rewrite resets_app in Q. cbn [resets] in Q. lia.
Qed.
