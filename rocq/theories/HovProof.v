(** Proofs about hovering (C181). *)
From Coq Require Import List Arith Bool Lia.
From Verif Require Import SelModel SelSpec SelProof HovModel HovSpec.
Import ListNotations.

Section Hov.
Variable jump : nat -> option nat.
Lemma around_some l idx c n p : 0 < idx -> around jump l idx c n = Some p -> exists d, idx <= d < idx + l /\
  ((c + d < n /\ jump (c + d) = Some p) \/ (d <= c /\ jump (c - d) = Some p /\ (c + d < n -> jump (c + d) = None))) /\
  forall e, idx <= e < d -> (c + e < n -> jump (c + e) = None) /\ (e <= c -> jump (c - e) = None).
Proof.
  revert idx. induction l as [|l IH]; cbn [around]; intros idx I H; [discriminate|].
  destruct (Nat.ltb_spec (c + idx) n) as [L|L].
  - destruct (jump (c + idx)) as [q|] eqn:J; [injection H as ->; exists idx; split; [lia|]; split; [left; auto|]; intros; lia|].
    destruct (Nat.leb_spec idx c) as [K|K].
    + destruct (jump (c - idx)) as [q|] eqn:J'; [injection H as ->; exists idx; split; [lia|]; split; [right; auto|]; intros; lia|].
      destruct (IH (idx + 1)) as (d & B & F & N); [lia|exact H|]. exists d. split; [lia|]. split; [exact F|]. intros e E.
      destruct (Nat.eq_dec e idx) as [->|X]; [auto|apply N; lia].
    + destruct (IH (idx + 1)) as (d & B & F & N); [lia|exact H|]. exists d. split; [lia|]. split; [exact F|]. intros e E.
      destruct (Nat.eq_dec e idx) as [->|X]; [split; [auto|lia]|apply N; lia].
  - destruct (Nat.leb_spec idx c) as [K|K].
    + destruct (jump (c - idx)) as [q|] eqn:J'; [injection H as ->; exists idx; split; [lia|]; split; [right; split; [lia|]; split; [exact J'|lia]|]; intros; lia|].
      destruct (IH (idx + 1)) as (d & B & F & N); [lia|exact H|]. exists d. split; [lia|]. split; [exact F|]. intros e E.
      destruct (Nat.eq_dec e idx) as [->|X]; [split; [lia|auto]|apply N; lia].
    + destruct (IH (idx + 1)) as (d & B & F & N); [lia|exact H|]. exists d. split; [lia|]. split; [exact F|]. intros e E.
      destruct (Nat.eq_dec e idx) as [->|X]; [split; lia|apply N; lia].
Qed.
Lemma around_none l idx c n : around jump l idx c n = None -> forall e, idx <= e < idx + l -> (c + e < n -> jump (c + e) = None) /\ (e <= c -> jump (c - e) = None).
Proof.
  revert idx. induction l as [|l IH]; cbn [around]; intros idx H e E; [lia|].
  destruct (if c + idx <? n then jump (c + idx) else None) eqn:A; [discriminate|]. destruct (if idx <=? c then jump (c - idx) else None) eqn:B; [discriminate|].
  destruct (Nat.eq_dec e idx) as [->|X]; [|apply (IH _ H); lia]. split; intros L.
  - destruct (Nat.ltb_spec (c + idx) n); [exact A|lia].
  - destruct (Nat.leb_spec idx c); [exact B|lia].
Qed.
Lemma place_some c n p : place jump c n = Some p -> nearest jump c n p.
Proof.
  unfold place, nearest. destruct (jump c) as [q|] eqn:J.
  - intros H. injection H as ->. exists c, 0. unfold apart. split; [lia|]. split; [lia|]. split; [exact J|]. split; [lia|]. split; lia.
  - intros H. apply around_some in H as (d & B & F & N); [|lia].
    assert (Q : forall o' d', apart c o' d' -> d' < d -> (c < o' -> o' < n) -> jump o' = None).
    { intros o' d' A L I. destruct (Nat.eq_dec d' 0) as [->|Z]; [destruct A as [A|A]; replace o' with c by lia; exact J|].
      destruct (N d') as [N1 N2]; [lia|]. destruct A as [A|A]; [subst o'; apply N1, I; lia|replace o' with (c - d') by lia; apply N2; lia]. }
    destruct F as [[L P]|(L & P & M)].
    + exists (c + d), d. unfold apart. split; [lia|]. split; [lia|]. split; [exact P|]. split; [lia|]. split; [exact Q|lia].
    + exists (c - d), d. unfold apart. split; [lia|]. split; [lia|]. split; [exact P|]. split; [lia|]. split; [exact Q|]. intros _. exact M.
Qed.
Lemma place_none c n : place jump c n = None -> forall o d, apart c o d -> d < 100 -> (c < o -> o < n) -> jump o = None.
Proof.
  unfold place. destruct (jump c) as [q|] eqn:J; [discriminate|]. intros H o d A L I.
  destruct (Nat.eq_dec d 0) as [->|Z]; [destruct A as [A|A]; replace o with c by lia; exact J|].
  destruct (around_none _ _ _ _ H d) as [N1 N2]; [lia|]. destruct A as [A|A]; [subst o; apply N1, I; lia|replace o with (c - d) by lia; apply N2; lia].
Qed.
End Hov.
Lemma nearest_one jump c n p q : nearest jump c n p -> nearest jump c n q -> p = q.
Proof.
  intros (o & d & A & L & J & I & M & T) (o' & d' & A' & L' & J' & I' & M' & T').
  destruct (lt_eq_lt_dec d d') as [[X|X]|X].
  - rewrite (M' o d A X I) in J. discriminate.
  - subst d'. destruct (Nat.eq_dec o o') as [->|O]; [congruence|]. unfold apart in *. destruct (le_lt_dec c o) as [C|C].
    + assert (E : c + d = o) by lia. subst o. rewrite T' in J; [discriminate|lia|apply I; lia].
    + assert (E : c + d = o') by lia. subst o'. rewrite T in J'; [discriminate|lia|apply I'; lia].
  - rewrite (M o' d' A' X I') in J'. discriminate.
Qed.
