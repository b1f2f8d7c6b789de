(** Proofs about modes and what is completed in them (C189). *)
From Coq Require Import String Ascii List Arith Bool Lia.
From Verif Require Import ModeModel ModeSpec.
Import ListNotations.

Definition kind_eq (a b : kind) : {a = b} + {a <> b}.
Proof. decide equality. Defined.
Lemma own_mode k m : own k m <-> mode_of_kind k = Some m.
Proof.
  unfold own. split.
  - intros H. destruct (in_dec kind_eq k (kinds_of m)) as [_|N]; [|contradiction].
    destruct m; cbn [kinds_of] in H; repeat (destruct H as [<-|H]; [reflexivity|]); destruct H.
  - intros E. assert (D : if in_dec kind_eq k (kinds_of m) then True else False); [|destruct (in_dec kind_eq k (kinds_of m)); [assumption|destruct D]].
    destruct k; cbn in E; try discriminate; injection E as <-; vm_compute; exact I.
Qed.
Lemma no_mode k : (forall m, ~ own k m) <-> mode_of_kind k = None.
Proof.
  split; [|intros E m H; apply own_mode in H; congruence]. intros N. destruct (mode_of_kind k) as [m|] eqn:E; [|reflexivity]. exfalso. apply (N m). now apply own_mode.
Qed.
Lemma blank_trivia k : mode_of_kind k = None -> (is_trivia k = true <-> blank k).
Proof. unfold blank. intros E. split; [destruct k; try discriminate; cbn; auto|intros [<-|[<-|[]]]; reflexivity]. Qed.
Lemma settles_spec n m : settles n m <-> match mode_of_kind (n_kind n) with Some x => m = x | None => negb (is_trivia (n_kind n)) && n_hash n = true /\ m = Code end.
Proof.
  unfold settles. rewrite own_mode, no_mode. pose proof (blank_trivia (n_kind n)) as B. destruct (mode_of_kind (n_kind n)) as [x|].
  - split; [intros [E|(E & _)]; [now injection E|discriminate]|intros ->; now left].
  - specialize (B eq_refl). rewrite andb_true_iff, negb_true_iff. split.
    + intros [E|(_ & N & H & E)]; [discriminate|]. split; [|exact E]. split; [|exact H]. destruct (is_trivia (n_kind n)); [exfalso; apply N; now apply B|reflexivity].
    + intros ((T & H) & E). right. split; [reflexivity|]. split; [|auto]. intros X. apply B in X. congruence.
Qed.
Lemma interpret_settled : forall chain, settled chain (interpret_mode_at chain).
Proof.
  induction chain as [|n r IH]; [right; split; [intros x []|reflexivity]|]. cbn [interpret_mode_at]. pose proof (settles_spec n) as S. destruct (mode_of_kind (n_kind n)) as [x|].
  - left. exists [], n, r. split; [reflexivity|]. split; [now apply S|intros y []].
  - destruct (negb (is_trivia (n_kind n)) && n_hash n).
    + left. exists [], n, r. split; [reflexivity|]. split; [now apply S|intros y []].
    + assert (N : forall m, ~ settles n m) by (intros m H; apply S in H; destruct H; discriminate). destruct IH as [(p & y & q & -> & A & B)|(A & E)].
      * left. exists (n :: p), y, q. split; [reflexivity|]. split; [exact A|]. intros z [<-|I]; [exact N|now apply B].
      * right. split; [|exact E]. intros z [<-|I]; [exact N|now apply A].
Qed.
Lemma settles_fun n m m' : settles n m -> settles n m' -> m = m'.
Proof. rewrite !settles_spec. destruct (mode_of_kind (n_kind n)); [congruence|intros (_ & ->) (_ & ->); reflexivity]. Qed.
Lemma settled_fun chain m : settled chain m -> interpret_mode_at chain = m.
Proof.
  induction chain as [|n r IH]; intros S.
  - destruct S as [(p & x & q & E & _)|(_ & ->)]; [now destruct p|reflexivity].
  - cbn [interpret_mode_at]. pose proof (settles_spec n) as Q. assert (F : (settles n m) \/ ((forall m', ~ settles n m') /\ settled r m)).
    { destruct S as [([|y p] & x & q & E & A & B)|(A & ->)].
      - injection E as <- <-. now left.
      - injection E as <- ->. right. split; [now apply (B n); left|]. left. exists p, x, q. split; [reflexivity|]. split; [exact A|]. intros z I. apply B. now right.
      - right. split; [apply A; now left|]. right. split; [|reflexivity]. intros z I. apply A. now right. }
    destruct (mode_of_kind (n_kind n)) as [x|].
    + destruct F as [F|(F & _)]; [apply Q in F; now symmetry|]. exfalso. apply (F x). now apply Q.
    + destruct (negb (is_trivia (n_kind n)) && n_hash n).
      * destruct F as [F|(F & _)]; [apply Q in F; destruct F as (_ & ->); reflexivity|]. exfalso. apply (F Code). now apply Q.
      * destruct F as [F|(_ & F)]; [apply Q in F; destruct F; discriminate|now apply IH].
Qed.
(** Raw text. *)
Lemma run_longest f : forall l, longest f l (firstn (run f l) l) (skipn (run f l) l) /\ run f l <= length l.
Proof.
  unfold longest. induction l as [|c r ((A & B & C) & D)]; [cbn; repeat split; [intros c []|intros c b' E; discriminate|lia]|]. cbn [run]. destruct (f c) eqn:F; cbn [firstn skipn].
  - split; [|cbn; lia]. split; [cbn; now rewrite <- A|]. split; [intros x [<-|I]; auto|exact C].
  - split; [|cbn; lia]. split; [reflexivity|]. split; [intros x []|]. intros x b' E. now injection E as <- _.
Qed.
Lemma longest_run f l a b : longest f l a b -> length a = run f l /\ b = skipn (run f l) l.
Proof.
  intros (-> & A & B). induction a as [|c a IH]; cbn [app length run].
  - destruct b as [|c b']; [auto|]. cbn. now rewrite (B c b' eq_refl).
  - rewrite (A c (or_introl eq_refl)). destruct IH as (H & G); [intros x I; apply A; now right|]. cbn. split; [now rewrite H|exact G].
Qed.
Lemma raw_tag_spec st co o text a b : raw_tag st co o text = Some (a, b) <-> exists a' b', a = o + a' /\ b = o + b' /\ tagged st co text a' b'.
Proof.
  unfold raw_tag, tagged. destruct (run_longest (Nat.eqb 96) text) as (L & K). assert (Q : length (firstn (run (Nat.eqb 96) text) text) = run (Nat.eqb 96) text) by (rewrite firstn_length; lia).
  destruct (3 <=? run (Nat.eqb 96) text) eqn:T.
  - apply Nat.leb_le in T. split.
    + cbv zeta. intros E. assert (U : forall x y : nat, Some (x, y) = Some (a, b) -> a = x /\ b = y) by (intros x y X; now injection X). apply U in E. destruct E as (-> & ->). clear U. set (ticks := run (Nat.eqb 96) text) in *. exists ticks. destruct (skipn ticks text) as [|c r] eqn:R; [|destruct (st c) eqn:SC].
      * exists ticks. split; [reflexivity|]. split; [cbv beta iota zeta; lia|]. exists (firstn ticks text), []. split; [exact L|]. split; [lia|]. split; [lia|]. left. split; [reflexivity|]. intros c r E. discriminate.
      * exists (ticks + S (run co r)). split; [reflexivity|]. split; [cbv beta iota zeta; lia|]. exists (firstn ticks text), (c :: r). split; [exact L|]. split; [lia|]. split; [lia|]. right. destruct (run_longest co r) as (L' & K'). exists c, r, (firstn (run co r) r), (skipn (run co r) r). split; [reflexivity|]. split; [exact SC|]. split; [exact L'|]. rewrite firstn_length. lia.
      * exists ticks. split; [reflexivity|]. split; [cbv beta iota zeta; lia|]. exists (firstn ticks text), (c :: r). split; [exact L|]. split; [lia|]. split; [lia|]. left. split; [reflexivity|]. intros c' r' E. now injection E as <- _.
    + intros (a' & b' & -> & -> & ticks & rest & L' & K' & -> & H). apply longest_run in L'. destruct L' as (E & ->). rewrite E. f_equal. f_equal. destruct H as [(-> & H)|(c & r & t & u & R & SC & M & ->)].
      * destruct (skipn (run (Nat.eqb 96) text) text) as [|c r]; [lia|]. rewrite (H c r eq_refl). lia.
      * rewrite R, SC. apply longest_run in M. destruct M as (M & _). lia.
  - apply Nat.leb_gt in T. split; [discriminate|]. intros (a' & b' & -> & -> & ticks & rest & L' & K' & -> & H). apply longest_run in L'. lia.
Qed.
(** Snippets. *)
Lemma lines_spec names : forall ps i, let (l, j) := lines i ps in
  j = i + 2 * length ps /\ stops l = seq (S i) (2 * length ps)
  /\ plain names l = fold_right (fun p s => (line "/// - " ++ called names p ++ " (): " ++ s)%string) EmptyString ps.
Proof.
  induction ps as [|p r IH]; intros i; cbn [lines]; [cbn; auto|]. specialize (IH (i + 2)). destruct (lines (i + 2) r) as [l j]. destruct IH as (A & B & C).
  split; [cbn [length]; lia|]. split.
  - assert (E : stops ([Text (nl ++ "/// - ")%string] ++ shown p ++ [Text " ("; Stop (i + 1); Text "): "; Stop (i + 2)] ++ l) = (i + 1) :: (i + 2) :: stops l) by (destruct p as [| | |[|]]; reflexivity).
    rewrite E, B. replace (2 * length (p :: r)) with (S (S (2 * length r))) by (cbn [length]; lia). cbn [seq]. replace (S i) with (i + 1) by lia. replace (S (i + 1)) with (i + 2) by lia. reflexivity.
  - cbn [fold_right]. rewrite <- C. destruct p as [| | |[|]]; reflexivity.
Qed.
Lemma plain_app names a b : plain names (a ++ b) = (plain names a ++ plain names b)%string.
Proof.
  assert (S : forall x y z : string, ((x ++ y) ++ z)%string = (x ++ y ++ z)%string) by (induction x as [|c x IH]; intros y z; cbn; [reflexivity|now rewrite IH]).
  induction a as [|p r IH]; [reflexivity|]. cbn [app plain fold_right]. fold (plain names (r ++ b)). fold (plain names r). now rewrite IH, S.
Qed.
Lemma stops_app a b : stops (a ++ b) = stops a ++ stops b.
Proof. unfold stops. apply flat_map_app. Qed.
Lemma bad_sign c : bad c = true <-> sign c.
Proof.
  unfold bad, sign. split.
  - intros H. destruct (le_lt_dec 127 c) as [G|G].
    + exfalso. repeat (apply orb_true_iff in H; destruct H as [H|H]); try (apply andb_true_iff in H; destruct H as (_ & H); apply Nat.leb_le in H; lia); apply Nat.eqb_eq in H; lia.
    + do 127 (destruct c as [|c]; [try (cbv in H; discriminate H); cbv; tauto|]). lia.
  - intros [H|[->|[->|[->| ->]]]]; try reflexivity. cbv in H. repeat (destruct H as [<-|H]; [reflexivity|]). destruct H.
Qed.
