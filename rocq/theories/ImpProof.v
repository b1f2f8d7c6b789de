(** Proofs about imports (C190). *)
From Coq Require Import List Arith Bool Lia.
From Verif Require Import ImpModel ImpSpec.
Import ListNotations.

Lemma rev_repeat k : rev (repeat Up k) = repeat Up k.
Proof. induction k as [|k IH]; [reflexivity|]. cbn. rewrite IH. change (repeat Up k ++ repeat Up 1 = Up :: repeat Up k). rewrite <- repeat_app. replace (k + 1) with (S k) by lia. reflexivity. Qed.
Lemma walk_reach : forall p k ns, reach (repeat Up k ++ map Nm ns) p (rev (walk (rev (repeat Up k ++ map Nm ns)) p)) /\ normal (rev (walk (rev (repeat Up k ++ map Nm ns)) p)).
Proof.
  induction p as [|[n|] p IH]; intros k ns; cbn [walk].
  - rewrite rev_involutive. split; [constructor|now exists k, ns].
  - specialize (IH k (ns ++ [n])). rewrite map_app, app_assoc in IH. cbn [map] in IH.
    assert (E : rev ((repeat Up k ++ map Nm ns) ++ [Nm n]) = Nm n :: rev (repeat Up k ++ map Nm ns)) by (rewrite rev_app_distr; reflexivity). rewrite E in IH.
    destruct IH as (A & B). split; [|exact B]. constructor. exact A.
  - destruct ns as [|m ns'] using rev_ind; [|clear IHns'].
    + cbn [map]. rewrite app_nil_r, rev_repeat. destruct (IH (S k) []) as (A & B). cbn [map] in A, B. rewrite app_nil_r, rev_repeat in A, B.
      assert (E : match repeat Up k with Nm _ :: rev' => walk rev' p | _ => walk (Up :: repeat Up k) p end = walk (repeat Up (S k)) p) by (destruct k; reflexivity). rewrite E. split; [|exact B]. constructor. exact A.
    + rewrite map_app, app_assoc. cbn [map]. rewrite rev_app_distr. cbn [rev app]. destruct (IH k ns') as (A & B). split; [|exact B]. constructor. exact A.
Qed.
Lemma vpath_reach p : reach [] p (vpath p) /\ normal (vpath p).
Proof. exact (walk_reach p 0 []). Qed.
Lemma tail_inj (d d' : list comp) x y : d ++ [x] = d' ++ [y] -> d = d' /\ x = y.
Proof. apply app_inj_tail. Qed.
Lemma ups_name k d n : repeat Up k <> d ++ [Nm n].
Proof.
  intros E. assert (I : In (Nm n) (repeat Up k)) by (rewrite E; apply in_or_app; right; now left). apply repeat_spec in I. discriminate.
Qed.
Lemma reach_fun d p e : reach d p e -> forall e', reach d p e' -> e' = e.
Proof.
  induction 1 as [d|d n p e R IH|d n p e R IH|k p e R IH]; intros e' R'; inversion R'; subst.
  - reflexivity.
  - now apply IH.
  - match goal with H : _ ++ [_] = _ ++ [_] |- _ => apply tail_inj in H; destruct H as (-> & _) end. now apply IH.
  - exfalso. match goal with H : repeat Up _ = _ |- _ => now apply ups_name in H end.
  - exfalso. match goal with H : _ = repeat Up _ |- _ => symmetry in H; now apply ups_name in H end.
  - match goal with H : repeat Up _ = repeat Up _ |- _ => apply (f_equal (@length comp)) in H; rewrite !repeat_length in H; subst end. now apply IH.
Qed.
(** From a normal folder a path leads to the same place as the whole from the root. *)
Lemma walk_app a b r : walk r (a ++ b) = walk (walk r a) b.
Proof. revert r. induction a as [|[n|] a IH]; intros r; cbn; [reflexivity|apply IH|destruct r as [|[m|] r']; apply IH]. Qed.
Lemma walk_ups k : forall j, walk (repeat Up j) (repeat Up k) = repeat Up (k + j).
Proof. induction k as [|k IH]; intros j; [reflexivity|]. cbn [repeat walk]. transitivity (walk (repeat Up (S j)) (repeat Up k)); [now destruct j|]. rewrite IH. f_equal. lia. Qed.
Lemma walk_names ns : forall r, walk r (map Nm ns) = rev (map Nm ns) ++ r.
Proof. induction ns as [|n ns IH]; intros r; [reflexivity|]. cbn. rewrite IH, <- app_assoc. reflexivity. Qed.
Lemma walk_normal d : normal d -> walk [] d = rev d.
Proof.
  intros (k & ns & ->). rewrite walk_app, rev_app_distr, rev_repeat. replace (walk [] (repeat Up k)) with (repeat Up k); [apply walk_names|]. pose proof (walk_ups k 0) as H. cbn in H. rewrite H. f_equal. lia.
Qed.
Lemma normal_removelast d : normal d -> normal (removelast d).
Proof.
  intros (k & ns & ->). destruct ns as [|n ns] using rev_ind; [|clear IHns].
  - cbn. rewrite app_nil_r. destruct k as [|k]; [now exists 0, []|]. exists k, []. cbn [map]. rewrite app_nil_r. replace (S k) with (k + 1) by lia. rewrite repeat_app. apply removelast_last.
  - rewrite map_app, app_assoc. cbn [map]. rewrite removelast_last. now exists k, ns.
Qed.
Lemma join_reach v p : normal v -> reach (removelast v) p (join v p) /\ normal (join v p).
Proof.
  intros N. apply normal_removelast in N. unfold join, vpath. rewrite walk_app, (walk_normal _ N). destruct N as (k & ns & ->). apply walk_reach.
Qed.
(** Values. *)
Lemma select_none comps : select None comps = None.
Proof. induction comps; [reflexivity|]. cbn. exact IHcomps. Qed.
Lemma get_some n s v : get n s = Some v <-> exists a b, s = a ++ (n, v) :: b /\ forall x, In x a -> fst x <> n.
Proof.
  unfold get. induction s as [|[m w] s IH]; cbn [find].
  - split; [discriminate|intros (a & b & E & _); now destruct a].
  - cbn [fst]. destruct (m =? n) eqn:E.
    + apply Nat.eqb_eq in E. subst m. cbn [snd]. split; [intros F; injection F as ->; exists [], s; split; [reflexivity|intros x []]|]. intros ([|x a] & b & F & N); [injection F as <- _; reflexivity|]. injection F as <- _. exfalso. now apply (N (n, w) (or_introl eq_refl)).
    + apply Nat.eqb_neq in E. rewrite IH. split.
      * intros (a & b & -> & N). exists ((m, w) :: a), b. split; [reflexivity|]. intros x [<-|I]; [exact E|now apply N].
      * intros ([|x a] & b & F & N); [injection F as F1 F2; now contradiction E|]. injection F as <- ->. exists a, b. split; [reflexivity|]. intros x I. apply N. now right.
Qed.
Lemma select_leads : forall comps v s, (match select (Some v) comps with Some w => scope_of w | None => None end) = Some s <-> leads v comps s.
Proof.
  induction comps as [|c comps IH]; intros [sc] s.
  - cbn. split; [intros ->; constructor|intros L; now inversion L].
  - unfold select. cbn [fold_left scope_of]. destruct sc as [sc|].
    + destruct (get c sc) as [w|] eqn:G.
      * fold (select (Some w) comps). rewrite IH. pose proof (proj1 (get_some _ _ _) G) as (a & b & E & N). split; [intros L; now apply (L_in sc c w comps s a b)|].
        intros L. inversion L as [|s0 n v ns t a' b' E' N' L']; subst n ns t s0. assert (G' : get c sc = Some v) by (apply get_some; now exists a', b'). rewrite G in G'. now injection G' as ->.
      * fold (select None comps). rewrite select_none. split; [discriminate|]. intros L. inversion L as [|s0 n v ns t a' b' E' N' L']; subst n ns t s0. assert (G' : get c sc = Some v) by (apply get_some; now exists a', b'). congruence.
    + fold (select None comps). rewrite select_none. split; [discriminate|intros L; inversion L].
Qed.
Lemma same_spec : forall comps p, length p = length comps + 1 -> (same p comps = true <-> exists n, p = comps ++ [n]).
Proof.
  induction comps as [|c comps IH]; intros [|x p] L; cbn in L; try lia.
  - cbn. destruct p; [|cbn in L; lia]. split; [intros _; now exists x|reflexivity].
  - cbn [same]. rewrite andb_true_iff, Nat.eqb_eq, IH by lia. split; [intros (-> & n & ->); now exists n|]. intros (n & E). injection E as -> ->. split; [reflexivity|now exists n].
Qed.
Lemma seen_spec existing comps n : In n (seen existing comps) <-> In (comps ++ [n]) existing.
Proof.
  unfold seen. rewrite in_flat_map. split.
  - intros (p & I & H). destruct (length p =? length comps + 1) eqn:L; cbn [andb] in H; [|destruct H]. apply Nat.eqb_eq in L. pose proof (same_spec comps p L) as S. destruct (same p comps); [|destruct H]. destruct (proj1 S eq_refl) as (m & ->). rewrite last_last in H. destruct H as [<-|[]]. exact I.
  - intros I. exists (comps ++ [n]). split; [exact I|]. assert (L : length (comps ++ [n]) = length comps + 1) by (rewrite app_length; reflexivity). rewrite L, Nat.eqb_refl. cbn [andb]. rewrite (proj2 (same_spec comps _ L)) by (now exists n). rewrite last_last. now left.
Qed.
