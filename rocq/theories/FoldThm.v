(** Theorems about folding ranges (C45). *)
From Coq Require Import List Arith Bool Lia.
From Verif Require Import FoldModel FoldSpec FoldProof.
Import ListNotations.

(** C45: the request does not panic; every range lies in the document and, for clients that only fold
    lines, starts before the line where it ends. *)
Theorem C45_valid : forall b last lc hs, fst lc <= last -> Forall (within last) hs -> exists rs, request b lc hs = Some rs /\
  Forall (fun r => f_el r <= last /\ if b then f_sl r < f_el r /\ f_sc r = None /\ f_ec r = None else f_sl r <= f_el r) rs.
Proof. exact request_ok. Qed.
Print Assumptions C45_valid.
(** C45: folding by lines keeps some of the candidates, in order, each with its start moved down by at
    most one line and its end moved up by at most one. *)
Theorem C45_kept : forall l, Forall (fun r => f_sl r <= f_el r) l -> exists rs, line_only l = Some rs /\ subseq rs (map strip l).
Proof. exact line_only_ok. Qed.
Print Assumptions C45_kept.
(** C45: a candidate of at least four lines is kept, or another range with the same lines is. *)
Theorem C45_complete : forall l rs c, line_only l = Some rs -> In c l -> f_sl c + 2 < f_el c -> (exists r, In r rs /\ from r (strip c)) \/ In (lines c) (map lines rs).
Proof. exact line_only_complete. Qed.
Print Assumptions C45_complete.
(** C45: where no two candidates start on the same line and none ends where one starts, exactly those
    of more than one line are kept, unchanged. *)
Theorem C45_exact : forall l, Forall (fun r => f_sl r <= f_el r) l -> NoDup (map f_sl l) -> (forall c d, In c l -> In d l -> f_sl c < f_el c -> f_el c <> f_sl d) ->
  line_only l = Some (filter (fun r => f_sl r <? f_el r) (map strip l)).
Proof. exact line_only_exact. Qed.
Print Assumptions C45_exact.
(** C45, in part: ranges differ (even in their first lines) if the document has no headings and no two
    of its hierarchies start on the same line. *)
Theorem C45_distinct_partial : forall lc hs rs, nested_all 0 hs -> NoDup (map first_line (flat_map every hs)) -> request true lc hs = Some rs -> NoDup (map lines rs).
Proof. exact request_distinct. Qed.
Print Assumptions C45_distinct_partial.
(** Three blocks that start on line 0, the inner two of which end on line 3. *)
Definition three : list hier := [Hier KOther 0 0 1 5 1 [Hier KOther 1 0 2 3 2 [Hier KOther 2 0 3 3 1 []]]].
(** C45 fails: the same range twice. *)
Theorem C45_twice_refuted : exists last hs rs, Forall (within last) hs /\ nested_all 0 hs /\ request true (last, 0) hs = Some rs /\ ~ NoDup (map lines rs).
Proof.
  exists 5, three. eexists. split; [repeat constructor; cbn; lia|]. split; [cbn; repeat split; try lia; discriminate|]. split; [vm_compute; reflexivity|]. cbn. intros N. inversion N as [|? ? X _]. apply X. now left.
Qed.
Print Assumptions C45_twice_refuted.
(** A heading at the end of a block in the last place of a document folds beyond the block. *)
Theorem C45_crossing : exists hs rs a b, Forall (within 5) hs /\ request true (5, 0) hs = Some rs /\ In a rs /\ In b rs /\ f_sl a < f_sl b < f_el a /\ f_el a < f_el b.
Proof.
  exists [Hier KOther 0 0 1 3 1 [Hier KHeading 1 1 2 1 3 []]]. eexists. exists (mkFr 0 None 3 None false 0), (mkFr 1 None 5 None false 1).
  split; [repeat constructor; cbn; lia|]. split; [vm_compute; reflexivity|]. cbn. repeat split; auto; lia.
Qed.
Print Assumptions C45_crossing.
(** The last heading below a heading that is followed by another one ("= A", "== B", text, "= C")
    cannot be folded, although it has text. *)
Theorem C45_sub_heading : exists hs rs, request true (4, 0) hs = Some rs /\ In (Hier KHeading 2 1 3 1 4 []) (flat_map every hs) /\ Forall (fun h => first_line h <> 2) (flat_map every hs) /\ ~ In 2 (map f_name rs).
Proof.
  exists [Hier KHeading 1 0 2 0 3 [Hier KHeading 2 1 3 1 4 []]; Hier KHeading 3 3 2 3 3 []]. eexists. split; [vm_compute; reflexivity|]. split; [now left|]. split; [repeat constructor; discriminate|]. cbn. lia.
Qed.
Print Assumptions C45_sub_heading.
(** Two headings with a block of five lines below the second, which has a list and a comment. *)
Definition fdoc : list hier := [Hier KHeading 1 0 2 0 3 [Hier KOther 2 1 0 3 1 []]; Hier KHeading 3 5 2 5 3 [Hier KOther 4 6 0 10 1 [Hier KOther 5 7 0 8 3 []; Hier KComment 6 9 0 10 0 []]]].
Example C45_nonvacuous : Forall (within 12) fdoc /\ option_map (map lines) (request true (12, 0) fdoc) = Some [(1, 3); (0, 4); (7, 8); (9, 10); (6, 10); (5, 12)] /\
  let g := [Hier KOther 4 6 0 10 1 [Hier KOther 5 7 0 8 3 []; Hier KComment 6 9 0 10 0 []]] in nested_all 0 g /\ NoDup (map first_line (flat_map every g)) /\ option_map (map lines) (request true (12, 0) g) = Some [(7, 8); (9, 10); (6, 10)].
Proof.
  split; [repeat constructor; cbn; lia|]. split; [reflexivity|]. cbv zeta. split; [cbn; repeat split; try lia; discriminate|]. split; [cbn; repeat constructor; cbn; lia|reflexivity].
Qed.
