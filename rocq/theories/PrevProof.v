(** Proofs about the registration of previews (C48, C81). *)
From Coq Require Import List Arith Bool Lia Permutation.
From Verif Require Import AssocModel AssocProof PrevModel PrevSpec.
Import ListNotations.

Lemma free_iff s p : free s p = true <-> slot s p = None.
Proof. unfold free. destruct (slot s p); split; congruence. Qed.
Lemma register_ok p t i s : free s p = true -> register p t i s = (true, set_watchers s (aset p (t, i) (watchers s))).
Proof. unfold free, slot, register. destruct (aget p (watchers s)); [discriminate|reflexivity]. Qed.
Lemma register_no p t i s : free s p = false -> register p t i s = (false, s).
Proof. unfold free, slot, register. destruct (aget p (watchers s)); [reflexivity|discriminate]. Qed.

(** * Starting *)
(** The state a start leaves, for its slot. *)
Definition started (a : args) (k : kind) (p : nat) (s : st) : st :=
  let prim := p =? primary in
  mkSt (aset p (a_task a, starts s) (watchers s)) (tabs s) (pending s ++ [(mkTab (a_task a) p prim (match k with Background => true | _ => false end) (starts s), false)]) (actorq s) (mainq s)
    (if prim then dedicates s else remove_first p (dedicates s) ++ [(p, starts s)])
    (if prim then (true, match k with Regular => false | _ => true end) else pinned s)
    (if prim then match a_entry a with Some (e, _) => Some e | None => main_entry s end else main_entry s) (dead s) (S (starts s)).
Lemma start_some a k s p : expected a k s = Some p -> start_preview a k s = (started a k p s, [Future (starts s) (p =? primary)]).
Proof.
  unfold expected, in_order, start_preview, asks_primary, has_entry. destruct a as [pa ta en np sh]. cbn [a_parse a_task a_entry a_not_primary a_static_host].
  destruct (negb _) eqn:IO; [discriminate|]. apply negb_false_iff in IO. rewrite !andb_true_iff in IO. destruct IO as [[[[A B] C] D] E]. rewrite A. apply negb_true_iff in E. rewrite E. apply negb_true_iff in C. rewrite C. cbn [negb].
  replace (match en with Some (_, abs) => negb abs | None => false end) with false by (destruct en as [[? b]|]; [now rewrite B|reflexivity]).
  apply negb_true_iff in D. rewrite D.
  assert (SL : free (count_start s) primary = free s primary) by reflexivity.
  assert (ASK : negb np && (match k with Regular => false | _ => true end || match en with Some _ => true | None => false end) = negb np && match k with Regular => match en with Some _ => true | None => false end | _ => true end) by (destruct k; reflexivity).
  rewrite ASK. clear ASK. set (ask := negb np && match k with Regular => match en with Some _ => true | None => false end | _ => true end) in *. clearbody ask. destruct (ask && free s primary) eqn:AF.
  - apply andb_prop in AF as [-> F]. rewrite <- SL in F. rewrite (register_ok _ _ _ _ F). cbv beta iota. cbn [negb]. rewrite andb_false_r. intros X. injection X as <-. unfold start. cbn [a_static_host]. destruct en as [[e b]|]; destruct k; reflexivity.
  - assert (R : (if ask then register primary ta (starts s) (count_start s) else (false, count_start s)) = (false, count_start s)). { destruct ask; [|reflexivity]. apply register_no. rewrite SL. exact AF. }
    rewrite R. cbv beta iota. destruct k; cbn [andb negb]; try discriminate.
    + destruct en as [[e b]|]; cbn [andb]; [|discriminate]. destruct (free s ta) eqn:F; [|discriminate]. intros X. injection X as <-.
      assert (F' : free (restart_dedicate ta (starts s) (count_start s)) ta = true) by exact F. rewrite (register_ok _ _ _ _ F'). unfold start, started. cbn [a_static_host a_task a_entry]. rewrite C. reflexivity.
    + destruct en as [[e b]|]; cbn [andb]; [|discriminate]. destruct (free s ta) eqn:F; [|discriminate]. intros X. injection X as <-.
      assert (F' : free (restart_dedicate ta (starts s) (count_start s)) ta = true) by exact F. rewrite (register_ok _ _ _ _ F'). unfold start, started. cbn [a_static_host a_task a_entry]. rewrite C. reflexivity.
Qed.
Lemma start_none a k s : expected a k s = None -> snd (start_preview a k s) = [Err] /\ (a_static_host a = false -> watchers (fst (start_preview a k s)) = watchers s).
Proof.
  unfold expected, in_order, start_preview, asks_primary, has_entry. destruct a as [pa ta en np sh]. cbn [a_parse a_task a_entry a_not_primary a_static_host].
  destruct pa; cbn [negb andb]; [|now split]. replace (match en with Some (_, abs) => abs | None => true end) with (negb match en with Some (_, abs) => negb abs | None => false end) by (destruct en as [[? []]|]; reflexivity).
  destruct (match en with Some (_, abs) => negb abs | None => false end); cbn [negb andb]; [now split|]. destruct (ta =? primary); cbn [negb andb]; [now split|].
  destruct (np && match k with Background => true | _ => false end); cbn [negb andb]; [now split|].
  assert (SL : free (count_start s) primary = free s primary) by reflexivity.
  assert (ASK : negb np && (match k with Regular => false | _ => true end || match en with Some _ => true | None => false end) = negb np && match k with Regular => match en with Some _ => true | None => false end | _ => true end) by (destruct k; reflexivity).
  rewrite ASK. clear ASK. set (ask := negb np && match k with Regular => match en with Some _ => true | None => false end | _ => true end) in *. clearbody ask.
  destruct (ask && free s primary) eqn:AF.
  - apply andb_prop in AF as [-> F]. rewrite <- SL in F. rewrite (register_ok _ _ _ _ F). cbv beta iota. cbn [negb]. rewrite andb_false_r. unfold start. cbn [a_static_host]. destruct sh; cbn [negb]; [|discriminate]. intros _. split; [reflexivity|discriminate].
  - assert (R : (if ask then register primary ta (starts s) (count_start s) else (false, count_start s)) = (false, count_start s)). { destruct ask; [|reflexivity]. apply register_no. rewrite SL. exact AF. }
    rewrite R. cbv beta iota. destruct k; cbn [andb negb]; try (now split).
    + destruct en as [[e b]|]; cbn [andb]; [|now split]. destruct (free s ta) eqn:F.
      * assert (F' : free (restart_dedicate ta (starts s) (count_start s)) ta = true) by exact F. rewrite (register_ok _ _ _ _ F'). unfold start. cbn [a_static_host a_task]. destruct sh; cbn [negb]; [|discriminate]. split; [reflexivity|discriminate].
      * assert (F' : free (restart_dedicate ta (starts s) (count_start s)) ta = false) by exact F. rewrite (register_no _ _ _ _ F'). now split.
    + destruct en as [[e b]|]; cbn [andb]; [|now split]. destruct (free s ta) eqn:F.
      * assert (F' : free (restart_dedicate ta (starts s) (count_start s)) ta = true) by exact F. rewrite (register_ok _ _ _ _ F'). unfold start. cbn [a_static_host a_task]. destruct sh; cbn [negb]; [|discriminate]. split; [reflexivity|discriminate].
      * assert (F' : free (restart_dedicate ta (starts s) (count_start s)) ta = false) by exact F. rewrite (register_no _ _ _ _ F'). now split.
Qed.
Lemma expected_free a k s p : expected a k s = Some p -> slot s p = None.
Proof.
  unfold expected. destruct (negb _); [discriminate|]. destruct (asks_primary a k && free s primary) eqn:E; [intros X; injection X as <-; apply andb_prop in E as [_ E]; now apply free_iff|].
  destruct k; try discriminate; destruct (has_entry a && free s (a_task a)) eqn:F; try discriminate; intros X; injection X as <-; apply andb_prop in F as [_ F]; now apply free_iff.
Qed.
Lemma expected_pid a k s p : expected a k s = Some p -> (p = primary \/ p = a_task a) /\ a_task a <> primary.
Proof.
  unfold expected, in_order. destruct (negb _) eqn:IO; [discriminate|]. apply negb_false_iff in IO. rewrite !andb_true_iff in IO. destruct IO as [[[_ C] _] _]. apply negb_true_iff, Nat.eqb_neq in C. intros X. split; [|tauto].
  destruct (asks_primary a k && free s primary); [injection X as <-; now left|]. destruct k; try discriminate; destruct (has_entry a && _); try discriminate; injection X as <-; now right.
Qed.
Theorem start_registers a k s : let '(s', o) := start_preview a k s in
  match expected a k s with
  | Some p => o = [Future (starts s) (p =? primary)] /\ slot s p = None /\ slot s' p = Some (a_task a, starts s) /\ forall q, q <> p -> slot s' q = slot s q
  | None => o = [Err] /\ (a_static_host a = false -> forall q, slot s' q = slot s q)
  end.
Proof.
  destruct (start_preview a k s) as [s' o] eqn:E. destruct (expected a k s) as [p|] eqn:X.
  - pose proof (start_some _ _ _ _ X) as S. rewrite E in S. injection S as -> ->. split; [reflexivity|]. split; [now apply expected_free in X|]. unfold slot, started. cbn [watchers]. split; [apply aget_aset_eq|]. intros q Q. now apply aget_aset_neq.
  - pose proof (start_none _ _ _ X) as [A B]. rewrite E in A, B. cbn in *. split; [exact A|]. intros SH q. unfold slot. now rewrite B.
Qed.
(** * Killing *)
Theorem kill_frees t x s : aget t (tabs s) = Some x -> t_background x = false ->
  let '(s', o) := kill t s in o = [Killed t] /\ slot s' (t_pid x) = None /\ (forall q, q <> t_pid x -> slot s' q = slot s q) /\ aget t (tabs s') = None.
Proof.
  intros T B. unfold kill. rewrite T, B. cbv zeta. split; [reflexivity|]. unfold slot, unregister, set_mainq, set_watchers, set_tabs. cbn [watchers tabs]. split; [apply aget_adel_eq|]. split; [|apply aget_adel_eq]. intros q Q. now apply aget_adel_neq.
Qed.
(** * One preview to a slot, always *)
Definition exclusive (s : st) : Prop := NoDup (akeys (watchers s)).
Lemma kill_exclusive t s : exclusive s -> exclusive (fst (kill t s)).
Proof. intros H. unfold kill. destruct (aget t (tabs s)); [|exact H]. destruct (t_background t0); [exact H|]. cbn. now apply nodup_adel. Qed.
Lemma kill_list_exclusive l : forall s, exclusive s -> exclusive (fst (kill_list l s)).
Proof. induction l as [|t l IH]; intros s H; [exact H|]. cbn [kill_list]. pose proof (kill_exclusive t s H) as K. destruct (kill t s) as [s1 o]. specialize (IH s1 K). destruct (kill_list l s1). exact IH. Qed.
Lemma start_watchers a k s : watchers (fst (start_preview a k s)) = watchers s \/ exists p i, watchers (fst (start_preview a k s)) = aset p (a_task a, i) (watchers s).
Proof.
  unfold start_preview, start. destruct (negb (a_parse a)); [now left|]. destruct (match a_entry a with Some (_, abs) => negb abs | None => false end); [now left|]. destruct (a_task a =? primary); [now left|].
  destruct (a_not_primary a && _); [now left|]. cbv zeta.
  assert (R : forall p t i s, (exists s', register p t i s = (false, s') /\ watchers s' = watchers s) \/ (exists s', register p t i s = (true, s') /\ watchers s' = aset p (t, i) (watchers s))).
  { intros p t i s0. unfold register. destruct (aget p (watchers s0)); [left|right]; eexists; split; reflexivity. }
  assert (NR : (exists s1, register (a_task a) (a_task a) (starts s) (restart_dedicate (a_task a) (starts s) (count_start s)) = (false, s1) /\ watchers s1 = watchers s) \/
               (exists s1, register (a_task a) (a_task a) (starts s) (restart_dedicate (a_task a) (starts s) (count_start s)) = (true, s1) /\ watchers s1 = aset (a_task a) (a_task a, starts s) (watchers s))) by exact (R (a_task a) (a_task a) (starts s) (restart_dedicate (a_task a) (starts s) (count_start s))).
  assert (D : forall bg, watchers (fst (match a_entry a with None => (count_start s, [Err]) | Some (e, _) => let '(ok, s0) := register (a_task a) (a_task a) (starts s) (restart_dedicate (a_task a) (starts s) (count_start s)) in
      if ok then (if a_static_host a then (s0, [Err]) else (set_pending s0 (pending s0 ++ [(mkTab (a_task a) (a_task a) false bg (starts s), false)]), [Future (starts s) false])) else (s0, [Err]) end)) = watchers s \/
      exists p i, watchers (fst (match a_entry a with None => (count_start s, [Err]) | Some (e, _) => let '(ok, s0) := register (a_task a) (a_task a) (starts s) (restart_dedicate (a_task a) (starts s) (count_start s)) in
      if ok then (if a_static_host a then (s0, [Err]) else (set_pending s0 (pending s0 ++ [(mkTab (a_task a) (a_task a) false bg (starts s), false)]), [Future (starts s) false])) else (s0, [Err]) end)) = aset p (a_task a, i) (watchers s)).
  { intros bg. destruct (a_entry a) as [[e b]|]; [|now left]. destruct NR as [(s1 & -> & W)|(s1 & -> & W)]; [now left|]. right. exists (a_task a), (starts s). destruct (a_static_host a); exact W. }
  destruct (negb (a_not_primary a) && _).
  - destruct (R primary (a_task a) (starts s) (count_start s)) as [(s1 & E & W)|(s1 & E & W)].
    + unfold register in *. destruct (aget primary (watchers (count_start s))); [|discriminate E]. cbn [negb]. rewrite andb_true_r. destruct (match k with Background => true | _ => false end); [now left|apply D].
    + rewrite E. cbv beta iota. cbn [negb]. rewrite andb_false_r. right. exists primary, (starts s). destruct (a_static_host a); destruct (a_entry a) as [[e b]|]; exact W.
  - cbv beta iota. cbn [negb]. rewrite andb_true_r. destruct (match k with Background => true | _ => false end); [now left|apply D].
Qed.
Lemma step_exclusive s e : exclusive s -> exclusive (fst (step s e)).
Proof.
  intros H. unfold exclusive in *. destruct e as [a k|i|i|i|l|t| | |]; cbn [step].
  - destruct (dead s); [exact H|]. destruct (start_watchers a k s) as [->|(p & i & ->)]; [exact H|now apply nodup_aset].
  - destruct (find (is_sid i) (pending s)) as [[t []]|]; exact H.
  - destruct (find (is_sid i) (pending s)) as [[t []]|]; exact H.
  - destruct (find (is_sid i) (pending s)) as [[t []]|]; exact H.
  - destruct (dead s); [exact H|]. unfold kill_preview. destruct (nth_error l 0); exact H.
  - exact H.
  - destruct (dead s); [exact H|]. constructor.
  - destruct (actorq s) as [|r q]; [exact H|]. destruct r; cbn [handle]; [exact H|now apply kill_exclusive|now apply kill_list_exclusive].
  - destruct (mainq s) as [|m q]; [exact H|]. destruct (dead s); [exact H|]. destruct m; cbn [serve]; try exact H. cbn [fst]. destruct (_ || _); exact H.
Qed.
Lemma run_fst s l : fst (run s l) = fold_left (fun s e => fst (step s e)) l s.
Proof. revert s. induction l as [|e l IH]; intros s; [reflexivity|]. cbn [run fold_left]. destruct (step s e) as [s1 o]. specialize (IH s1). destruct (run s1 l). exact IH. Qed.
Theorem run_exclusive l s : exclusive s -> exclusive (fst (run s l)).
Proof. rewrite run_fst. revert s. induction l as [|e l IH]; intros s H; [exact H|]. apply IH. now apply step_exclusive. Qed.
Lemma run_along (P : st -> event -> Prop) (I : st -> Prop) : (forall s e, I s -> P s e -> I (fst (step s e))) -> forall l s, I s -> all_along P s l -> I (fst (run s l)).
Proof. intros H l s. rewrite run_fst. revert s. induction l as [|e l IH]; intros s A B; [exact A|]. destruct B as [B C]. apply IH; [now apply H|exact C]. Qed.

(** * Owners of slots, in orderly histories *)
Record own (s : st) : Prop := {
  own_tasks : NoDup (map t_task (living s));
  own_pids : forall o, In o (living s) -> t_task o <> primary /\ t_pid o = (if t_primary o then primary else t_task o);
  own_slots : forall p t i, slot s p = Some (t, i) <-> exists o, In o (living s) /\ t_pid o = p /\ t_task o = t /\ t_sid o = i;
  own_keys : forall x, In x (tabs s) -> fst x = t_task (snd x);
  own_sids : NoDup (map (fun x => t_sid (fst x)) (pending s));
  own_new : forall x, In x (pending s) -> t_sid (fst x) < starts s }.
Lemma own_init : own init.
Proof. split; cbn; try constructor; try tauto; [discriminate|]. intros (o & [] & _). Qed.
(** Steps that only move previews along. *)
Lemma own_move s s' : own s -> watchers s' = watchers s -> Permutation (living s) (living s') -> (forall x, In x (tabs s') -> fst x = t_task (snd x)) ->
  NoDup (map (fun x => t_sid (fst x)) (pending s')) -> (forall x, In x (pending s') -> t_sid (fst x) < starts s') -> own s'.
Proof.
  intros O W P K N L. split; auto.
  - apply (Permutation_NoDup (Permutation_map t_task P)). apply O.
  - intros o I. apply O. apply (Permutation_in o (Permutation_sym P)). exact I.
  - intros p t i. unfold slot. rewrite W. change (aget p (watchers s)) with (slot s p). rewrite (own_slots s O). split; intros (o & I & R); exists o; (split; [|exact R]); [apply (Permutation_in o P)|apply (Permutation_in o (Permutation_sym P))]; exact I.
Qed.
Lemma NoDup_map_inj {A B} (f : A -> B) l x y : NoDup (map f l) -> In x l -> In y l -> f x = f y -> x = y.
Proof.
  induction l as [|z l IH]; [intros _ []|]. cbn. intros N [->|X] [->|Y] E; inversion N as [|? ? A1 B1]; subst; auto.
  - destruct A1. rewrite E. now apply in_map.
  - destruct A1. rewrite <- E. now apply in_map.
Qed.
Lemma filter_id {A} (p : A -> bool) l : (forall x, In x l -> p x = true) -> filter p l = l.
Proof. induction l as [|x l IH]; intros H; [reflexivity|]. cbn. rewrite (H x) by now left. f_equal. apply IH. intros y Y. apply H. now right. Qed.
Lemma find_perm i l x : NoDup (map (fun x => t_sid (fst x)) l) -> find (is_sid i) l = Some x -> Permutation l (x :: filter (fun x => negb (is_sid i x)) l).
Proof.
  induction l as [|y l IH]; [discriminate|]. intros N. cbn [find filter map] in *. inversion N as [|? ? A B]; subst. destruct (is_sid i y) eqn:E; cbn [negb].
  - intros X. injection X as ->. constructor. rewrite filter_id; [reflexivity|]. intros z Z. apply negb_true_iff. destruct (is_sid i z) eqn:F; [|reflexivity]. exfalso. apply A. unfold is_sid in *. apply Nat.eqb_eq in E, F. rewrite E, <- F. apply (in_map (fun x => t_sid (fst x))). exact Z.
  - intros F. rewrite (IH B F) at 1. apply perm_swap.
Qed.
Lemma nodup_filter_map {A B} (f : A -> B) p l : NoDup (map f l) -> NoDup (map f (filter p l)).
Proof.
  induction l as [|x l IH]; [auto|]. cbn. intros N. inversion N as [|? ? A1 B1]; subst. destruct (p x); [|auto]. cbn. constructor; [|auto]. intros I. apply A1. apply in_map_iff in I as (y & E & I). apply filter_In in I as [I _]. rewrite <- E. now apply in_map.
Qed.
Lemma announced_app a b : announced (a ++ b) = announced a ++ announced b.
Proof. unfold announced. apply flat_map_app. Qed.
Lemma in_adel {A} k (x : nat * A) m : In x (adel k m) <-> In x m /\ fst x <> k.
Proof. unfold adel. rewrite filter_In. rewrite negb_true_iff, Nat.eqb_neq. intuition congruence. Qed.
Lemma own_kill t s : own s -> own (fst (kill t s)).
Proof.
  intros O. unfold kill. destruct (aget t (tabs s)) as [x|] eqn:T; [|exact O]. destruct (t_background x); [exact O|]. cbn [fst].
  set (s' := set_mainq _ _). assert (IX : In (t, x) (tabs s)) by now apply aget_in. assert (TX : t = t_task x) by exact (own_keys s O _ IX).
  assert (LX : In x (living s)). { unfold living. apply in_or_app. right. apply in_or_app. right. apply in_map_iff. exists (t, x). now split. }
  assert (L : forall o, In o (living s') <-> In o (living s) /\ t_task o <> t).
  { intros o. unfold living, s', unregister, set_mainq, set_watchers, set_tabs. cbn [pending actorq tabs].
    assert (N : NoDup (map t_task (map fst (pending s) ++ announced (actorq s) ++ map snd (tabs s)))) by apply O.
    rewrite !in_app_iff. rewrite app_assoc, map_app in N.
    assert (D : forall o, In o (map fst (pending s) ++ announced (actorq s)) -> t_task o <> t).
    { intros o' I E. assert (I2 : In t (map t_task (map snd (tabs s)))) by (rewrite TX; apply in_map; apply in_map_iff; exists (t, x); now split).
      assert (I1 : In t (map t_task (map fst (pending s) ++ announced (actorq s)))) by (rewrite <- E; now apply in_map). clear -N I1 I2.
      induction (map t_task (map fst (pending s) ++ announced (actorq s))) as [|y l IH]; [destruct I1|]. cbn in N. inversion N as [|? ? A B]; subst. destruct I1 as [->|I1]; [apply A; apply in_or_app; now right|now apply IH]. }
    assert (D1 : In o (map fst (pending s)) -> t_task o <> t) by (intros I; apply D; apply in_or_app; now left). assert (D2 : In o (announced (actorq s)) -> t_task o <> t) by (intros I; apply D; apply in_or_app; now right).
    assert (D3 : In o (map snd (adel t (tabs s))) <-> In o (map snd (tabs s)) /\ t_task o <> t).
    { rewrite !in_map_iff. split.
      - intros (y & E & I). apply in_adel in I as [I F]. split; [exists y; now split|]. pose proof (own_keys s O y I) as K. subst o. congruence.
      - intros ((y & E & I) & F). exists y. split; [exact E|]. apply in_adel. split; [exact I|]. pose proof (own_keys s O y I) as K. subst o. congruence. }
    tauto. }
  split.
  - unfold living, s', unregister, set_mainq, set_watchers, set_tabs. cbn [pending actorq tabs]. assert (N : NoDup (map t_task (map fst (pending s) ++ announced (actorq s) ++ map snd (tabs s)))) by apply O.
    rewrite app_assoc, map_app in N |- *. unfold adel. clear -N. revert N. generalize (map t_task (map fst (pending s) ++ announced (actorq s))). intros l N. induction l as [|y l IH]; cbn in *.
    + rewrite map_map in N |- *. now apply nodup_filter_map.
    + inversion N as [|? ? A B]; subst. constructor; [|now apply IH]. intros I. apply A. apply in_app_iff in I as [I|I]; apply in_or_app; [now left|]. right. rewrite map_map in I |- *. apply in_map_iff in I as (z & E & I). apply filter_In in I as [I _]. rewrite <- E. apply (in_map (fun x => t_task (snd x))). exact I.
  - intros o I. apply L in I as [I _]. now apply O.
  - intros p u i. unfold slot, s', unregister, set_mainq, set_watchers, set_tabs. cbn [watchers]. rewrite aget_adel. destruct (p =? t_pid x) eqn:E.
    + apply Nat.eqb_eq in E. split; [discriminate|]. intros (o & I & A & B & C). apply L in I as [I F]. exfalso.
      assert (S1 : slot s p = Some (t_task o, t_sid o)) by (apply (own_slots s O); exists o; auto). assert (S2 : slot s p = Some (t_task x, t_sid x)) by (apply (own_slots s O); exists x; auto). rewrite S1 in S2. injection S2 as S2 _. congruence.
    + change (aget p (watchers s)) with (slot s p). rewrite (own_slots s O). apply Nat.eqb_neq in E. split; intros (o & I & A & B & C); exists o.
      * split; [|auto]. apply L. split; [exact I|]. intros F. apply E. rewrite <- A. f_equal. apply (NoDup_map_inj t_task (living s)); auto; [apply O|congruence].
      * apply L in I as [I _]. auto.
  - intros y I. apply in_adel in I as [I _]. now apply (own_keys s O).
  - apply O.
  - intros y I. now apply (own_new s O).
Qed.
Lemma own_kill_list l : forall s, own s -> own (fst (kill_list l s)).
Proof. induction l as [|t l IH]; intros s H; [exact H|]. cbn [kill_list]. pose proof (own_kill t s H) as K. destruct (kill t s) as [s1 o]. specialize (IH s1 K). destruct (kill_list l s1). exact IH. Qed.
Lemma own_start a k s p : own s -> expected a k s = Some p -> ~ In (a_task a) (map t_task (living s)) -> own (started a k p s).
Proof.
  intros O X F. pose proof (expected_free _ _ _ _ X) as FR. destruct (expected_pid _ _ _ _ X) as [PP TN]. set (n := mkTab (a_task a) p (p =? primary) (match k with Background => true | _ => false end) (starts s)).
  assert (P : Permutation (n :: living s) (living (started a k p s))). { unfold living, started. cbn [pending actorq tabs]. rewrite map_app. cbn [map fst]. fold n. rewrite <- app_assoc. cbn [app]. apply Permutation_middle. }
  assert (L : forall o, In o (living (started a k p s)) <-> n = o \/ In o (living s)). { intros o. split; intros I; [apply (Permutation_in o (Permutation_sym P)) in I; exact I|apply (Permutation_in o P); exact I]. }
  split.
  - apply (Permutation_NoDup (Permutation_map t_task P)). cbn [map]. constructor; [exact F|apply O].
  - intros o I. apply L in I as [<-|I]; [|now apply O]. unfold n. cbn [t_task t_pid t_primary]. split; [exact TN|]. destruct PP as [-> | ->]; [reflexivity|]. now rewrite (proj2 (Nat.eqb_neq _ _) TN).
  - intros q t i. unfold slot, started. cbn [watchers]. rewrite aget_aset. destruct (q =? p) eqn:E.
    + apply Nat.eqb_eq in E. subst q. split.
      * intros Y. injection Y as <- <-. exists n. split; [apply L; now left|auto].
      * intros (o & I & A & B & C). apply L in I as [<-|I]; [subst t i; reflexivity|]. exfalso. assert (S1 : slot s p = Some (t, i)) by (apply (own_slots s O); exists o; auto). congruence.
    + apply Nat.eqb_neq in E. change (aget q (watchers s)) with (slot s q). rewrite (own_slots s O). split; intros (o & I & A & B & C); exists o.
      * split; [apply L; now right|auto].
      * apply L in I as [<-|I]; [cbn in A; congruence|auto].
  - apply O.
  - unfold started. cbn [pending]. rewrite map_app. cbn [map fst t_sid]. apply (Permutation_NoDup (Permutation_cons_append _ _)). constructor; [|apply O]. intros I. apply in_map_iff in I as (y & E & I). apply (own_new s O) in I. lia.
  - unfold started. cbn [pending starts]. intros y I. apply in_app_iff in I as [I|[<-|[]]]; [apply (own_new s O) in I; lia|cbn; lia].
Qed.
Lemma start_none_same a k s : expected a k s = None -> a_static_host a = false -> let s' := fst (start_preview a k s) in watchers s' = watchers s /\ tabs s' = tabs s /\ pending s' = pending s /\ actorq s' = actorq s /\ mainq s' = mainq s /\ starts s <= starts s' /\ dead s' = dead s /\
  (dedicates s' = dedicates s \/ exists i, dedicates s' = remove_first (a_task a) (dedicates s) ++ [(a_task a, i)]).
Proof.
  intros X SH. pose proof (start_none a k s X) as [Er W]. specialize (W SH). cbv zeta. split; [exact W|]. clear X. revert Er. unfold start_preview, start. rewrite SH.
  destruct (negb (a_parse a)); [cbn; auto 10|]. destruct (match a_entry a with Some (_, abs) => negb abs | None => false end); [cbn; auto 10|]. destruct (a_task a =? primary); [cbn; auto 10|].
  destruct (a_not_primary a && _); [cbn; auto 10|]. cbv zeta.
  destruct (negb (a_not_primary a) && _); unfold register; [destruct (aget primary _)|]; cbn [negb]; rewrite ?andb_true_r, ?andb_false_r; try (cbn; discriminate).
  - destruct (match k with Background => true | _ => false end); [cbn; auto 10|]. destruct (a_entry a) as [[e b]|]; [|cbn; auto 10]. destruct (aget (a_task a) _); cbn; [|discriminate]. intros _. repeat split; auto. right. now eexists.
  - destruct (match k with Background => true | _ => false end); [cbn; auto 10|]. destruct (a_entry a) as [[e b]|]; [|cbn; auto 10]. destruct (aget (a_task a) _); cbn; [|discriminate]. intros _. repeat split; auto. right. now eexists.
Qed.
Lemma own_step s e : own s -> orderly s e -> own (fst (step s e)).
Proof.
  intros O G. destruct e as [a k|i|i|i|l|t| | |]; cbn [step]; try (now destruct G).
  - destruct (dead s); [exact O|]. destruct G as [SH F]. destruct (expected a k s) as [p|] eqn:X; [rewrite (start_some _ _ _ _ X); now apply own_start|].
    destruct (start_none_same a k s X SH) as (W & T & P & A & _ & ST & _). apply (own_move s); auto.
    + unfold living. rewrite P, A, T. reflexivity.
    + rewrite T. apply O.
    + rewrite P. apply O.
    + rewrite P. intros x I. apply (own_new s O) in I. lia.
  - destruct (find (is_sid i) (pending s)) as [[t []]|] eqn:F; try exact O. cbn [fst]. set (s' := set_mainq _ _). assert (MF : map fst (pending s') = map fst (pending s)). { cbn [s' set_mainq set_pending pending]. rewrite map_map. apply map_ext. intros x. destruct (is_sid i x); reflexivity. }
    apply (own_move s); auto; try apply O.
    + unfold living. rewrite MF. reflexivity.
    + rewrite <- (map_map fst t_sid), MF, map_map. apply O.
    + intros x I. apply (in_map fst) in I. rewrite MF in I. apply in_map_iff in I as (y & E & I). rewrite <- E. now apply (own_new s O).
  - destruct (find (is_sid i) (pending s)) as [[t []]|] eqn:F; try exact O. cbn [fst]. pose proof (find_perm i _ _ (own_sids s O) F) as P. apply (own_move s); auto; try apply O.
    + unfold living. cbn [set_actorq set_pending pending actorq tabs]. rewrite announced_app. cbn [announced flat_map app]. rewrite (Permutation_map fst P) at 1. cbn [map fst app]. rewrite <- !app_assoc. cbn [app].
      rewrite (app_assoc (map fst _) (announced (actorq s))), (app_assoc (map fst _) (announced (actorq s)) (t :: _)). apply Permutation_middle.
    + apply nodup_filter_map. apply O.
    + intros x I. cbn [set_actorq set_pending pending] in I. apply filter_In in I as [I _]. now apply (own_new s O).
  - destruct (dead s); [exact O|]. unfold kill_preview. destruct (nth_error l 0) as [t|]; [|exact O]. cbn [fst]. apply (own_move s); auto; try apply O. unfold living. cbn [set_actorq pending actorq tabs]. rewrite announced_app. destruct l; cbn; now rewrite app_nil_r.
  - apply (own_move s); auto; try apply O. unfold living. cbn [fst set_actorq pending actorq tabs]. rewrite announced_app. cbn. now rewrite app_nil_r.
  - destruct (actorq s) as [|r q] eqn:Q; [exact O|]. destruct r as [t|t|]; cbn [handle].
    + cbn [fst]. assert (L : Permutation (living s) (map fst (pending s) ++ announced q ++ t :: map snd (tabs s))). { unfold living. rewrite Q. cbn [announced flat_map app]. fold (announced q). apply Permutation_app_head. apply (Permutation_middle (announced q)). }
      assert (D : adel (t_task t) (tabs s) = tabs s). { unfold adel. apply filter_id. intros x I. apply negb_true_iff, Nat.eqb_neq. rewrite (own_keys s O x I). intros E.
        pose proof (own_tasks s O) as N. unfold living in N. rewrite Q in N. cbn [announced flat_map app] in N. fold (announced q) in N. rewrite map_app in N. cbn [map] in N. rewrite map_app in N.
        apply NoDup_remove_2 in N. apply N. rewrite E. apply in_or_app. right. apply in_or_app. right. apply in_map. now apply in_map. }
      apply (own_move s); auto; try apply O.
      * rewrite L. unfold living. cbn [set_tabs set_actorq pending actorq tabs]. unfold aset. rewrite D. cbn [map snd]. reflexivity.
      * cbn [set_tabs set_actorq tabs]. intros x [<-|I]; [reflexivity|]. rewrite D in I. now apply (own_keys s O).
    + apply own_kill. apply (own_move s); auto; try apply O. unfold living. rewrite Q. reflexivity.
    + apply own_kill_list. apply (own_move s); auto; try apply O. unfold living. rewrite Q. reflexivity.
  - destruct (mainq s) as [|m q]; [exact O|]. destruct (dead s); [exact O|]. destruct m; cbn [serve fst]; [apply (own_move s); auto; apply O|apply (own_move s); auto; apply O|]. destruct (_ || _); apply (own_move s); auto; apply O.
Qed.
Theorem run_own l : all_along orderly init l -> own (fst (run init l)).
Proof. apply (run_along orderly own own_step). apply own_init. Qed.
Theorem owners l : all_along orderly init l -> let s := fst (run init l) in NoDup (map t_pid (living s)) /\ forall p t i, slot s p = Some (t, i) <-> exists o, In o (living s) /\ t_pid o = p /\ t_task o = t /\ t_sid o = i.
Proof.
  intros G s. pose proof (run_own l G) as O. fold s in O. split; [|apply O].
  assert (H : forall x y, In x (living s) -> In y (living s) -> t_pid x = t_pid y -> t_task x = t_task y).
  { intros x y X Y E. assert (A : slot s (t_pid x) = Some (t_task x, t_sid x)) by (apply (own_slots s O); exists x; auto). assert (B : slot s (t_pid x) = Some (t_task y, t_sid y)) by (apply (own_slots s O); exists y; auto). congruence. }
  pose proof (own_tasks s O) as N. clear -H N. induction (living s) as [|x r IH]; [constructor|]. cbn in *. inversion N as [|? ? A B]; subst. constructor; [|apply IH; auto]. intros I. apply in_map_iff in I as (y & E & I). apply A. rewrite (H x y); auto. now apply in_map.
Qed.

(** * Killing everything *)
Lemma kill_by_command t s : actorq s = [] -> dead s = false -> fst (run s [EKill [t]; EActor]) = fst (kill t s).
Proof.
  intros Q D. destruct s as [w tb pe q mq de pi me dd n]. cbn in Q, D. subst q dd. cbn [run step dead kill_preview nth_error set_actorq actorq app handle watchers tabs pending mainq dedicates pinned main_entry starts].
  now destruct (kill t _).
Qed.
Lemma kill_same t s : let s' := fst (kill t s) in pending s' = pending s /\ actorq s' = actorq s /\ dead s' = dead s.
Proof. unfold kill. destruct (aget t (tabs s)); [|auto]. destruct (t_background t0); auto. Qed.
Lemma run_app s a b : fst (run s (a ++ b)) = fst (run (fst (run s a)) b).
Proof. rewrite !run_fst. apply fold_left_app. Qed.
Lemma kill_tabs t s : Forall (fun x => t_background (snd x) = false) (tabs s) -> tabs (fst (kill t s)) = adel t (tabs s).
Proof.
  intros B. unfold kill. destruct (aget t (tabs s)) as [x|] eqn:T.
  - apply aget_in in T. rewrite Forall_forall in B. rewrite (B _ T : t_background x = false). reflexivity.
  - unfold adel. cbn [fst]. rewrite filter_id; [reflexivity|]. intros y I. apply negb_true_iff, Nat.eqb_neq. intros E. apply aget_none in T. apply T. rewrite E. now apply in_map.
Qed.
Theorem drain l : all_along orderly init l -> let s := fst (run init l) in dead s = false -> pending s = [] -> actorq s = [] -> Forall (fun x => t_background (snd x) = false) (tabs s) ->
  forall p, slot (fst (run s (flat_map (fun x => [EKill [fst x]; EActor]) (tabs s)))) p = None.
Proof.
  intros G s D P Q B. pose proof (run_own l G) as O. fold s in O. clearbody s. clear l G.
  assert (H : forall ks s, own s -> dead s = false -> pending s = [] -> actorq s = [] -> Forall (fun x => t_background (snd x) = false) (tabs s) ->
    let s' := fst (run s (flat_map (fun t => [EKill [t]; EActor]) ks)) in own s' /\ pending s' = [] /\ actorq s' = [] /\ forall x, In x (tabs s') -> In x (tabs s) /\ ~ In (fst x) ks).
  { clear. induction ks as [|t ks IH]; intros s O D P Q B; [cbn; repeat split; auto; try apply O; tauto|]. cbv zeta. change (flat_map (fun t => [EKill [t]; EActor]) (t :: ks)) with ([EKill [t]; EActor] ++ flat_map (fun t => [EKill [t]; EActor]) ks). rewrite run_app, (kill_by_command t s Q D).
    destruct (kill_same t s) as (P' & Q' & D'). pose proof (kill_tabs t s B) as T.
    destruct (IH (fst (kill t s))) as (A1 & A2 & A3 & A4); try congruence; [now apply own_kill| |].
    - rewrite T. rewrite Forall_forall in *. intros x I. apply B. now apply in_adel in I.
    - split; [exact A1|]. split; [exact A2|]. split; [exact A3|]. intros x I. apply A4 in I as [I F]. rewrite T in I. apply in_adel in I as [I N]. split; [exact I|]. intros [E|E]; [congruence|now apply F]. }
  intros p. assert (E : flat_map (fun x : nat * tab => [EKill [fst x]; EActor]) (tabs s) = flat_map (fun t => [EKill [t]; EActor]) (akeys (tabs s))). { unfold akeys. clear. induction (tabs s) as [|x m IH]; [reflexivity|]. cbn [map flat_map]. now rewrite IH. }
  rewrite E. destruct (H (akeys (tabs s)) s O D P Q B) as (O' & P' & Q' & T). set (s' := fst (run s _)) in *.
  destruct (slot s' p) as [[t i]|] eqn:S; [|reflexivity]. apply (own_slots s' O') in S as (o & I & _). exfalso. unfold living in I. rewrite P', Q' in I. cbn in I. apply in_map_iff in I as (x & _ & I). apply T in I as [I N]. apply N. now apply in_map.
Qed.
(** * No panic, in calm histories *)
Record sound (s : st) : Prop := {
  so_own : own s;
  so_dead : dead s = false;
  so_ded : forall o, In o (living s) -> t_primary o = false -> In (t_task o) (map fst (dedicates s)) /\ ~ In (Settle (t_task o)) (mainq s);
  so_q : forall a p b, mainq s = a ++ Compile p :: b -> p = primary \/ (In p (map fst (dedicates s)) /\ ~ In (Settle p) a) }.
Lemma sound_init : sound init.
Proof. split; [apply own_init|reflexivity|intros o []|intros a p b E; now destruct a]. Qed.
Lemma in_remove_first p q l : p <> q -> In p (map fst l) -> In p (map fst (remove_first q l)).
Proof. intros N. induction l as [|x l IH]; [auto|]. cbn [map remove_first]. destruct (q =? fst x) eqn:E; [apply Nat.eqb_eq in E; intros [F|F]; [congruence|exact F]|]. cbn [map]. intros [F|F]; [now left|right; auto]. Qed.
Lemma in_restart p q i l : In p (map fst l) -> In p (map fst (remove_first q l ++ [(q, i)])).
Proof. intros I. rewrite map_app. apply in_or_app. destruct (Nat.eq_dec p q) as [->|N]; [right; now left|left]. now apply in_remove_first. Qed.
Lemma split_last {A} (q : list A) e a x b : q ++ [e] = a ++ x :: b -> (a = q /\ x = e /\ b = []) \/ exists b', b = b' ++ [e] /\ q = a ++ x :: b'.
Proof.
  destruct (exists_last (l := x :: b)) as (b0 & y & E); [discriminate|]. rewrite E, app_assoc. intros H. apply app_inj_tail in H as [H ->]. destruct b0 as [|z b0]; cbn in E; injection E as -> ->; [left; rewrite app_nil_r in H; auto|right]. exists b0. now split.
Qed.
(** Steps that keep the projects and the queue of the server. *)
Lemma sound_move s s' : sound s -> own s' -> (forall o, In o (living s') -> In o (living s)) -> dedicates s' = dedicates s -> mainq s' = mainq s -> dead s' = dead s -> sound s'.
Proof. intros S O L D Q E. split; [exact O|rewrite E; apply S|rewrite D, Q; intros o I; apply S; auto|rewrite D, Q; apply S]. Qed.
Lemma living_kill t s o : In o (living (fst (kill t s))) -> In o (living s).
Proof.
  unfold kill. destruct (aget t (tabs s)) as [x|]; [|auto]. destruct (t_background x); [auto|]. unfold living. cbn. rewrite !in_app_iff. intros [I|[I|I]]; auto. right. right. apply in_map_iff in I as (y & E & I). apply in_adel in I as [I _]. subst o. now apply in_map.
Qed.
Lemma sound_kill t s : sound s -> sound (fst (kill t s)).
Proof.
  intros S. pose proof (own_kill t s (so_own s S)) as O. pose proof (living_kill t s) as LK. revert O LK. unfold kill. destruct (aget t (tabs s)) as [x|] eqn:T; [|auto]. destruct (t_background x); [auto|]. cbn [fst]. set (s' := set_mainq _ _). intros O LK.
  assert (IX : In (t, x) (tabs s)) by now apply aget_in. assert (TX : t = t_task x) by exact (own_keys s (so_own s S) _ IX).
  assert (LX : In x (living s)). { unfold living. apply in_or_app. right. apply in_or_app. right. apply in_map_iff. exists (t, x). now split. }
  assert (LN : forall o, In o (living s') -> t_task o <> t).
  { intros o I E. assert (o = x) by (apply (NoDup_map_inj t_task (living s)); [apply S|auto|exact LX|congruence]). subst o.
    assert (X : slot s' (t_pid x) = Some (t_task x, t_sid x)) by (apply (own_slots s' O); exists x; auto). unfold slot, s' in X. cbn in X. now rewrite aget_adel_eq in X. }
  split; [exact O|apply S| |].
  - intros o I NP. destruct (so_ded s S o (LK o I) NP) as [A B]. split; [exact A|]. unfold s', set_mainq. cbn [mainq]. rewrite in_app_iff. intros [C|[C|[]]]; [now apply B|]. destruct (t_primary x) eqn:PX; [discriminate|]. injection C as C.
    destruct (own_pids s (so_own s S) x LX) as [_ P]. rewrite PX in P. apply (LN o I). congruence.
  - unfold s', set_mainq. cbn [mainq dedicates]. intros a p b E. apply split_last in E as [(_ & E & _)|(b' & _ & E)]; [destruct (t_primary x); discriminate|]. now apply (so_q s S a p b').
Qed.
Lemma sound_kill_list l : forall s, sound s -> sound (fst (kill_list l s)).
Proof. induction l as [|t l IH]; intros s H; [exact H|]. cbn [kill_list]. pose proof (sound_kill t s H) as K. destruct (kill t s) as [s1 o]. specialize (IH s1 K). destruct (kill_list l s1). exact IH. Qed.
Lemma sound_step s e : sound s -> calm s e -> sound (fst (step s e)).
Proof.
  intros S [G G2]. pose proof (own_step s e (so_own s S) G) as O. destruct e as [a k|i|i|i|l|t| | |]; cbn [step] in *; try (now destruct G).
  - rewrite (so_dead s S) in *. destruct G as [SH F]. destruct (expected a k s) as [p|] eqn:X.
    + rewrite (start_some _ _ _ _ X) in *. cbn [fst] in *. destruct (expected_pid _ _ _ _ X) as [PP TN].
      assert (DI : forall q, In q (map fst (dedicates s)) -> In q (map fst (dedicates (started a k p s)))). { intros q I. unfold started. cbn [dedicates]. destruct (p =? primary); [exact I|now apply in_restart]. }
      split; [exact O|apply S| |].
      * intros o I NP. change (mainq (started a k p s)) with (mainq s). assert (L : In o (living s) \/ o = mkTab (a_task a) p (p =? primary) (match k with Background => true | _ => false end) (starts s)).
        { unfold living, started in I. cbn [pending actorq tabs] in I. rewrite map_app in I. rewrite !in_app_iff in I. cbn [map In fst] in I. unfold living. rewrite !in_app_iff. intuition. }
        destruct L as [L| ->]; [destruct (so_ded s S o L NP); auto|]. cbn [t_task t_primary] in *. split; [|exact G2]. unfold started. cbn [dedicates]. rewrite NP. rewrite map_app. apply in_or_app. right. apply Nat.eqb_neq in NP. destruct PP as [PP | ->]; [congruence|now left].
      * intros b q c E. change (mainq (started a k p s)) with (mainq s) in E. destruct (so_q s S b q c E) as [H|[H1 H2]]; auto.
    + destruct (start_none_same a k s X SH) as (W & T & P & A & Q & ST & DD & DI'). set (s' := fst (start_preview a k s)) in *.
      assert (DI : forall q, In q (map fst (dedicates s)) -> In q (map fst (dedicates s'))). { intros q I. destruct DI' as [-> |(i & ->)]; [exact I|now apply in_restart]. }
      assert (L : living s' = living s) by (unfold living; now rewrite P, A, T). split; [exact O|rewrite DD; apply S| |].
      * rewrite L, Q. intros o I NP. destruct (so_ded s S o I NP). auto.
      * rewrite Q. intros b q c E. destruct (so_q s S b q c E) as [H|[H1 H2]]; auto.
  - destruct (find (is_sid i) (pending s)) as [[t []]|] eqn:F; try exact S. cbn [fst] in *. set (s' := set_mainq _ _) in *. assert (L : living s' = living s).
    { unfold living. f_equal. cbn [s' set_mainq set_pending pending]. rewrite map_map. apply map_ext. intros x. destruct (is_sid i x); reflexivity. }
    assert (LT : In t (living s)). { apply find_some in F as [F _]. unfold living. apply in_or_app. left. apply in_map_iff. exists (t, false). now split. }
    split; [exact O|apply S| |].
    + rewrite L. intros o I NP. destruct (so_ded s S o I NP) as [A B]. split; [exact A|]. cbn [s' set_mainq mainq]. rewrite in_app_iff. intros [C|[C|[]]]; [now apply B|discriminate].
    + cbn [s' set_mainq set_pending mainq dedicates]. intros a p b E. apply split_last in E as [(-> & E & _)|(b' & _ & E)]; [|now apply (so_q s S a p b')]. injection E as ->. destruct (own_pids s (so_own s S) t LT) as [_ P]. destruct (t_primary t) eqn:TP; [now left|]. right. rewrite P. now apply (so_ded s S).
  - destruct (find (is_sid i) (pending s)) as [[t []]|] eqn:F; try exact S. apply (sound_move s); auto. intros o I. pose proof (find_perm i _ _ (own_sids s (so_own s S)) F) as P.
    unfold living in *. cbn [fst set_actorq set_pending pending actorq tabs] in I. rewrite announced_app in I. rewrite !in_app_iff in *. cbn in I. destruct I as [I|[[I|[<-|[]]]|I]]; auto.
    + left. apply in_map_iff in I as (y & E & I). apply filter_In in I as [I _]. subst o. now apply in_map.
    + left. apply find_some in F as [F _]. apply in_map_iff. exists (t, true). now split.
  - rewrite (so_dead s S) in *. unfold kill_preview in *. destruct (nth_error l 0) as [t|]; [|exact S]. cbn [fst] in *. apply (sound_move s); auto. unfold living. cbn [set_actorq pending actorq tabs]. rewrite announced_app. destruct l; cbn; now rewrite app_nil_r.
  - apply (sound_move s); auto. unfold living. cbn [fst set_actorq pending actorq tabs]. rewrite announced_app. cbn. now rewrite app_nil_r.
  - destruct (actorq s) as [|r q] eqn:Q; [exact S|]. destruct r as [t|t|]; cbn [handle] in *.
    + apply (sound_move s); auto. intros o I. unfold living in *. cbn [fst set_tabs set_actorq pending actorq tabs] in I. rewrite Q. cbn [announced flat_map]. fold (announced q). rewrite !in_app_iff in *. cbn in I. destruct I as [I|[I|[<-|I]]]; auto.
      * right. left. left. now left.
      * right. right. apply in_map_iff in I as (y & E & I). apply in_adel in I as [I _]. subst o. now apply in_map.
    + apply sound_kill. apply (sound_move s); auto; [|unfold living; rewrite Q; auto]. apply (own_move s); try apply S; auto. unfold living. rewrite Q. reflexivity.
    + apply sound_kill_list. apply (sound_move s); auto; [|unfold living; rewrite Q; auto]. apply (own_move s); try apply S; auto. unfold living. rewrite Q. reflexivity.
  - destruct (mainq s) as [|m q] eqn:Q; [exact S|]. rewrite (so_dead s S) in *. cbn [fst] in *.
    assert (QT : forall a p b, q = a ++ Compile p :: b -> p = primary \/ (In p (map fst (dedicates s)) /\ ~ In (Settle p) (m :: a))). { intros a p b E. apply (so_q s S (m :: a) p b). rewrite Q, E. reflexivity. }
    assert (DT : forall o, In o (living s) -> t_primary o = false -> In (t_task o) (map fst (dedicates s)) /\ m <> Settle (t_task o) /\ ~ In (Settle (t_task o)) q). { intros o I NP. destruct (so_ded s S o I NP) as [A B]. rewrite Q in B. cbn in B. tauto. }
    destruct m as [|p0|p0]; cbn [serve] in *.
    + split; [exact O|apply S| |]; cbn [set_pin set_mainq dedicates mainq]; [intros o I NP; destruct (DT o I NP) as (A & _ & B); auto|]. intros a p b E. destruct (QT a p b E) as [H|[H1 H2]]; auto. right. split; [exact H1|]. intros H. apply H2. now right.
    + split; [exact O|apply S| |]; cbn [set_dedicates set_mainq dedicates mainq].
      * intros o I NP. destruct (DT o I NP) as (A & B & C). split; [|exact C]. apply in_remove_first; [congruence|exact A].
      * intros a p b E. destruct (QT a p b E) as [H|[H1 H2]]; auto. right. split; [apply in_remove_first; [|exact H1]; intros ->; apply H2; now left|]. intros H. apply H2. now right.
    + assert (OK : (p0 =? primary) || existsb (fun x => p0 =? fst x) (dedicates (set_mainq s q)) = true).
      { destruct (so_q s S [] p0 q Q) as [-> |[H _]]; [reflexivity|]. apply orb_true_iff. right. apply existsb_exists. apply in_map_iff in H as (y & E & H). exists y. split; [exact H|]. apply Nat.eqb_eq. now symmetry. }
      rewrite OK in *. split; [exact O|apply S| |]; cbn [set_mainq dedicates mainq]; [intros o I NP; destruct (DT o I NP) as (A & _ & B); auto|]. intros a p b E. destruct (QT a p b E) as [H|[H1 H2]]; auto. right. split; [exact H1|]. intros H. apply H2. now right.
Qed.
Theorem run_alive l : all_along calm init l -> dead (fst (run init l)) = false.
Proof. intros G. apply (run_along calm sound sound_step l init sound_init G). Qed.
