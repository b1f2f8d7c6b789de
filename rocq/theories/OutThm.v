(** Theorems about the outline (C41). *)
From Coq Require Import List Arith NArith Bool Lia Sorted Permutation.
From Verif Require Import DigModel SpanModel SpanSpec SpanProof OutModel OutSpec OutProof.
Import ListNotations.
Open Scope nat_scope.

(** C41: the outline lists every bookmarked heading once, in document order. *)
Theorem C41_all : forall hs, map fst (listed (get_outline hs)) = filter h_bm hs.
Proof. exact outline_all. Qed.
Print Assumptions C41_all.
(** C41: levels rise from the ancestors to the heading. *)
Theorem C41_levels : forall hs h a, In (h, a) (listed (get_outline hs)) -> StronglySorted (fun x y => h_level y < h_level x) (h :: a).
Proof. exact outline_rises. Qed.
Print Assumptions C41_levels.
(** C41: where a heading [h] goes.  Of the bookmarked heading [p] before it and the ancestors of
    [p], those are its ancestors which are of lower level than [h] and than every heading [sk] in
    between that is not bookmarked. *)
Theorem C41_place : forall a p sk h b, h_bm p = true -> h_bm h = true -> Forall (fun s => h_bm s = false) sk ->
  let l := listed (get_outline (a ++ p :: sk ++ h :: b)) in let k := length (filter h_bm a) in
  exists ap d ah, nth_error l k = Some (p, ap) /\ nth_error l (S k) = Some (h, ah) /\ p :: ap = d ++ ah /\
    Forall (fun x => h_level x < h_level h /\ Forall (fun s => h_level x < h_level s) sk) ah /\
    Forall (fun x => ~ (h_level x < h_level h /\ Forall (fun s => h_level x < h_level s) sk)) d.
Proof. exact outline_parent. Qed.
Print Assumptions C41_place.
(** C41: the first heading is at the top. *)
Theorem C41_first : forall hs h, nth_error (filter h_bm hs) 0 = Some h -> nth_error (listed (get_outline hs)) 0 = Some (h, []).
Proof.
  intros hs h H. rewrite <- outline_all in H. destruct (get_outline hs) as [|[h' cs] ts]; [discriminate|]. cbn in H. injection H as <-. reflexivity.
Qed.
Print Assumptions C41_first.
(** C41: the client gets that tree, with titles and positions, and the id of every item leads to
    the source of its heading. *)
Theorem C41_items : forall s s' hs is, outline s hs = (s', is) ->
  map (fun '(d, t, _, p) => (d, t, p)) (flat_map (shown 0) is) = map (fun x => (length (snd x), h_title (fst x), h_pos (fst x))) (listed (get_outline hs)) /\
  ((n_life s < 2 ^ 32)%N -> (N.of_nat (length (n_set s) + length hs) < 2 ^ 32)%N ->
   map (fun '(_, _, str, _) => span_by_str s' str) (flat_map (shown 0) is) = map (fun h => Some (Found (Some (source h)))) (filter h_bm hs)).
Proof. exact items_right. Qed.
Print Assumptions C41_items.
(** C41: rendering begins a new lifetime of the span ids and interns each source once per heading, so
    that C31 tells how long the ids last. *)
Theorem C41_history : forall s hs, exists l, Permutation l (map source (filter h_bm hs)) /\ fst (render_outline s hs) = irun s (Reset_ :: map Intern l).
Proof. exact outline_interns. Qed.
Print Assumptions C41_history.
Definition hd_ l b t := mkHead l b t (10 * t) (if t =? 3 then None else Some (N.of_nat t + 100)%N) (N.of_nat t + 200)%N.
(** Levels 1, 2, (2 not bookmarked), 3, 2, 1: the fourth becomes a sibling of the second. *)
Example C41_nonvacuous : let hs := [hd_ 1 true 0; hd_ 2 true 1; hd_ 2 false 2; hd_ 3 true 3; hd_ 2 true 4; hd_ 1 true 5] in
  map (fun x => (h_title (fst x), map h_title (snd x))) (listed (get_outline hs)) = [(0, []); (1, [0]); (3, [0]); (4, [0]); (5, [])] /\
  let '(s, is) := render_outline interner0 hs in
  map (fun '(d, t, str, p) => (d, t, span_by_str s str, p)) (flat_map (shown 0) is) =
    [(0, 0, Some (Found (Some 100%N)), 0); (1, 1, Some (Found (Some 101%N)), 10); (1, 3, Some (Found (Some 203%N)), 30); (1, 4, Some (Found (Some 104%N)), 40); (0, 5, Some (Found (Some 105%N)), 50)].
Proof. vm_compute. split; reflexivity. Qed.
