(** Theorems about the ranges to select (C177). *)
From Coq Require Import List Arith Bool Lia.
From Verif Require Import SelModel SelSpec SelProof.
Import ListNotations.

(** C177: the answer has for each position, in order, the ranges of the leaf with the byte after the position, and of all the nodes it is in; it is the only such answer. *)
Theorem C177_answer : forall root ps ls, selection_ranges root ps = Some ls <->
  Forall2 (fun p l => exists x a b, p = Some x /\ tower 0 root a b l /\ a <= x < b) ps ls.
Proof. exact each. Qed.
Print Assumptions C177_answer.
(** C177: the first range of a position has the byte after it, each range is contained in the next, and the last is the whole document. *)
Theorem C177_nested : forall root e x l, ends 0 root e -> selection_ranges root [Some x] = Some [l] ->
  exists a b r, hd_error l = Some (a, b) /\ a <= x < b /\ l = r ++ [(0, e)] /\ nested l.
Proof.
  intros root e x l He H. apply each in H. inversion H as [|? ? ? ? (y & a & b & E & T & B) _]; subst. injection E as <-.
  destruct (tower_shape _ _ _ _ _ T) as (Hh & (r & Hr) & Hn). apply ends_len in He. subst e. exists a, b, r. repeat split; [exact Hh|apply B|apply B|exact Hr|exact Hn].
Qed.
Print Assumptions C177_nested.
(** C177, in part: there is an answer exactly if each position is one of the document and not its end.  (Missing: the end, see [C177_end_refuted].) *)
Theorem C177_answers_partial : forall root e ps, ends 0 root e ->
  (selection_ranges root ps <> None <-> Forall (fun p => exists x, p = Some x /\ x < e) ps).
Proof.
  intros root e ps He. apply ends_len in He. cbn in He. subst e. split.
  - intros H. apply Forall_forall. intros p I. destruct p as [x|].
    + exists x. split; [reflexivity|]. destruct (le_lt_dec (len root) x) as [L|L]; [|exact L]. exfalso. apply H, none. exists (Some x). split; [exact I|].
      intros y E. injection E as <-. exact L.
    + exfalso. apply H, none. exists None. split; [exact I|discriminate].
  - intros F H. apply none in H as (p & I & L). rewrite Forall_forall in F. destruct (F p I) as (x & -> & B). specialize (L x eq_refl). lia.
Qed.
Print Assumptions C177_answers_partial.

(** A heading in a document, followed by some text: = a b. *)
Definition some_root : node := Inner [Inner [Leaf 1; Leaf 1; Inner [Leaf 1; Leaf 1; Leaf 1]]; Leaf 1; Leaf 4].
Example C177_nonvacuous : selection_ranges some_root [Some 2; Some 7] = Some [[(2, 3); (2, 5); (0, 5); (0, 10)]; [(6, 10); (0, 10)]] /\ ends 0 some_root 10.
Proof. split; [reflexivity|]. exact (len_ends some_root 0). Qed.
(** C177 fails: at the end of the document there are no ranges, though there are nodes that end there; then the other positions of the request get none either. *)
Theorem C177_end_refuted : exists root e x, ends 0 root e /\ x < e /\ selection_ranges root [Some x] <> None /\
  selection_ranges root [Some e] = None /\ selection_ranges root [Some x; Some e] = None.
Proof. exists some_root, 10, 7. split; [exact (len_ends some_root 0)|]. split; [lia|]. split; [discriminate|]. split; reflexivity. Qed.
Print Assumptions C177_end_refuted.
