(** Theorems about hovering (C181). *)
From Coq Require Import List Arith Bool Lia.
From Verif Require Import SelModel SelSpec SelProof HovModel HovSpec HovProof.
Import ListNotations.

(** C181: the preview is of the nearest offset that is in it, less than 100 bytes away. *)
Theorem C181_nearest : forall jump c n p, place jump c n = Some p <-> nearest jump c n p.
Proof.
  intros jump c n p. split; [apply place_some|]. intros H. destruct (place jump c n) as [q|] eqn:E.
  - f_equal. apply place_some in E. exact (nearest_one _ _ _ _ _ E H).
  - exfalso. destruct H as (o & d & A & L & J & I & _). rewrite (place_none _ _ _ E o d A L I) in J. discriminate.
Qed.
Print Assumptions C181_nearest.
(** C181: the range is that of the leaf with the byte after the position; nothing is shown at the end of the document. *)
Theorem C181_range : forall jump root e x at_ cs a b, ends 0 root e -> hover jump root x at_ = Some (cs, (a, b)) ->
  x < e /\ a <= x < b /\ exists rs, tower 0 root a b rs.
Proof.
  intros jump root e x at_ cs a b He H. unfold hover in H. destruct (ranges_before 0 root (x + 1)) as [rs|] eqn:R; [|discriminate].
  apply SelProof.found in R as (u & v & T & B); [|lia]. destruct (tower_shape _ _ _ _ _ T) as (Hh & _). destruct rs as [|r rs]; [discriminate|]. cbn in Hh. injection Hh as ->.
  destruct (contents _) as [|c cs'] in H; [discriminate|]. injection H as <- <- <-. pose proof (tower_in _ _ _ _ _ T). apply ends_len in He. subst e.
  split; [lia|]. split; [lia|]. eexists. exact T.
Qed.
Print Assumptions C181_range.
(** C181: what is shown: the definition, else the star, else the links; the tooltip; the preview; the documentation; and the links in one line.  Nothing is shown exactly if there is none of them. *)
Theorem C181_contents : forall jump root x at_ l ls, ranges_before 0 root (x + 1) = Some (l :: ls) ->
  let f := at_ (x + 1) in exists def docs actions preview,
  ((exists r, f_definition f = Some r /\ r = (def, docs, actions)) \/
   (f_definition f = None /\ exists t, f_star f = Some t /\ def = [t] /\ docs = [] /\ actions = []) \/
   (f_definition f = None /\ f_star f = None /\ f_links f = Some (def, actions) /\ docs = []) \/
   (f_definition f = None /\ f_star f = None /\ f_links f = None /\ def = [] /\ docs = [] /\ actions = [])) /\
  (forall t, In t preview <-> exists p, nearest jump (x + 1) (len root) p /\ f_preview f p = Some t) /\ length preview <= 1 /\
  let all := map Text (def ++ (match f_tooltip f with Some t => [t] | None => [] end) ++ preview ++ docs) ++ (if actions then [] else [Links actions]) in
  hover jump root x at_ = match all with [] => None | _ => Some (all, l) end.
Proof.
  intros jump root x at_ l ls R f. unfold hover. rewrite R. fold f.
  set (pv := match place jump (x + 1) (len root) with Some p => match f_preview f p with Some t => [t] | None => [] end | None => [] end).
  assert (P : forall t, In t pv <-> exists p, nearest jump (x + 1) (len root) p /\ f_preview f p = Some t).
  { intros t. unfold pv. destruct (place jump (x + 1) (len root)) as [p|] eqn:E.
    - apply C181_nearest in E. split.
      + destruct (f_preview f p) as [u|] eqn:V; [|intros []]. intros [<-|[]]. exists p. auto.
      + intros (q & N & V). rewrite (nearest_one _ _ _ _ _ E N), V. now left.
    - split; [intros []|]. intros (q & N & _). apply C181_nearest in N. congruence. }
  assert (PL : length pv <= 1). { unfold pv. destruct (place _ _ _) as [p|]; [destruct (f_preview f p)|]; cbn; lia. }
  assert (W : forall d c a, contents (mkParts d (match f_tooltip f with Some t => [t] | None => [] end) pv c a) =
    map Text (d ++ (match f_tooltip f with Some t => [t] | None => [] end) ++ pv ++ c) ++ (if a then [] else [Links a])).
  { intros d c a. unfold contents. cbn [w_def w_value w_preview w_docs w_actions]. rewrite !map_app, <- !app_assoc. destruct a; reflexivity. }
  assert (F : forall cs : list content, match cs with [] => None | (_ :: _) as cs => Some (cs, l) end = match cs with [] => None | _ :: _ => Some (cs, l) end) by (intros [|? ?]; reflexivity).
  unfold work. fold pv. destruct (f_definition f) as [[[d c] a]|] eqn:D.
  - exists d, c, a, pv. split; [left; eexists; split; reflexivity|]. split; [exact P|]. split; [exact PL|]. rewrite W. cbn zeta. destruct (_ ++ _); reflexivity.
  - destruct (f_star f) as [t|] eqn:S.
    + exists [t], [], [], pv. split; [right; left; split; [reflexivity|]; exists t; auto|]. split; [exact P|]. split; [exact PL|]. rewrite W. cbn zeta. destruct (_ ++ _); reflexivity.
    + destruct (f_links f) as [[d a]|] eqn:L.
      * exists d, [], a, pv. split; [right; right; left; auto|]. split; [exact P|]. split; [exact PL|]. rewrite W. cbn zeta. destruct (_ ++ _); reflexivity.
      * exists [], [], [], pv. split; [right; right; right; auto 8|]. split; [exact P|]. split; [exact PL|]. rewrite W. cbn zeta. destruct (_ ++ _); reflexivity.
Qed.
Print Assumptions C181_contents.

(** A document of ten bytes in two leaves; the preview has offsets 1 and 9. *)
Definition some_jump (o : nat) : option nat := if (o =? 1) || (o =? 9) then Some (50 + o) else None.
Definition some_found : found := mkFound None (Some 30) (Some ([31], [32])) (Some 33) (fun p => Some (100 + p)).
Example C181_nonvacuous : hover some_jump (Inner [Leaf 3; Leaf 7]) 4 (fun _ => some_found) = Some ([Text 30; Text 33; Text 159], (3, 10)) /\
  ranges_before 0 (Inner [Leaf 3; Leaf 7]) 5 = Some [(3, 10); (0, 10)] /\ nearest some_jump 5 10 59 /\ ends 0 (Inner [Leaf 3; Leaf 7]) 10.
Proof. split; [reflexivity|]. split; [reflexivity|]. split; [apply place_some; reflexivity|]. exact (len_ends (Inner [Leaf 3; Leaf 7]) 0). Qed.
