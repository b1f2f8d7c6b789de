(** Theorems about the span interner of the preview: C31, C32. *)
From Coq Require Import List NArith Bool Lia.
From Verif Require Import DigModel SpanModel SpanSpec SpanProof.
Import ListNotations.
Open Scope N_scope.

(** C32: the text form of every id is parsed back; ids with the same text form are equal. *)
Theorem C32_round_trip : forall i, id_ok i -> from_hex (to_hex i) = Some i.
Proof. exact hex_round. Qed.
Print Assumptions C32_round_trip.
Theorem C32_injective : forall i j, id_ok i -> id_ok j -> to_hex i = to_hex j -> i = j.
Proof. intros i j A B E. apply hex_round in A. apply hex_round in B. congruence. Qed.
Print Assumptions C32_injective.
(** C32: all 64-bit numbers are ids and back. *)
Theorem C32_u64 : (forall i, id_ok i -> id_from_u64 (id_to_u64 i) = i) /\
  (forall n, n < 2 ^ 64 -> id_ok (id_from_u64 n) /\ id_to_u64 (id_from_u64 n) = n).
Proof. split; [exact u64_round|]. intros n H. apply u64_back. unfold max64. change (2 ^ 64) with 18446744073709551616 in H. lia. Qed.
Print Assumptions C32_u64.
(** C32: every id the interner hands out is such an id. *)
Theorem C32_handed_out : forall a sp, id_ok (id_of a sp).
Proof. intros a sp. unfold id_of. rewrite (proj1 (intern_spec _ _)). apply new_id_ok. Qed.
Print Assumptions C32_handed_out.
Example C32_nonvacuous : id_ok (mkId 2 31) /\ to_hex (mkId 2 31) = [50; 48; 48; 48; 48; 48; 48; 49; 102] /\
  from_hex [50; 48; 48; 48; 48; 48; 48; 49; 102] = Some (mkId 2 31) /\ id_from_u64 8589934623 = mkId 2 31.
Proof. repeat split; vm_compute; reflexivity. Qed.
(** C32: a string of the page that is not a hexadecimal number of at most 64 bits ends the task. *)
Theorem C32_other_strings_panic : exists s t, from_hex s = None /\ t <> [] /\ Forall (fun c => cdigit 16 c <> None) t /\ from_hex t = None.
Proof.
  exists [103], (repeat 102 17). split; [reflexivity|]. split; [discriminate|]. split; [|vm_compute; reflexivity].
  apply Forall_forall. intros c C. apply repeat_spec in C as ->. vm_compute. discriminate.
Qed.
Print Assumptions C32_other_strings_panic.

(** C31: an id is reported as expired exactly when 30 or more renders have happened since. *)
Theorem C31_expiry : forall a sp b, short (a ++ Intern sp :: b) -> asked a sp b = UseAfterFree <-> 30 <= resets b.
Proof. exact asked_expiry. Qed.
Print Assumptions C31_expiry.
(** C31: an id is resolved to its span until the next render, in every history. *)
Theorem C31_latest : forall a sp b, short (a ++ Intern sp :: b) -> resets b = 0 -> asked a sp b = Found (Some sp).
Proof. exact asked_latest. Qed.
Print Assumptions C31_latest.
(** C31: and for as long as no id at all has expired.  What is missing: histories in which older
    ids have expired. *)
Theorem C31_resolves_partial : forall a sp b, short (a ++ Intern sp :: b) -> none_expired (a ++ Intern sp :: b) ->
  asked a sp b = Found (Some sp).
Proof. exact asked_none_expired. Qed.
Print Assumptions C31_resolves_partial.
Example C31_nonvacuous :
  let a := [Reset_; Intern 7; Intern 8; Reset_; Intern 7] in let b := [Intern 8; Reset_; Intern 7; Intern 9] in
  short (a ++ Intern 9 :: b) /\ none_expired (a ++ Intern 9 :: b) /\ asked a 9 b = Found (Some 9) /\ resets b = 1 /\
  asked a 9 [] = Found (Some 9) /\ asked a 9 (repeat Reset_ 30) = UseAfterFree /\ asked a 9 (repeat Reset_ 29) <> UseAfterFree.
Proof.
  cbn zeta. split; [vm_compute; reflexivity|]. split.
  - intros a sp b E. apply (f_equal resets) in E. rewrite !resets_app in E. cbn [resets app] in E. lia.
  - repeat split; vm_compute; congruence.
Qed.
(** One render of a document with the given headings, as OutlineRenderActor does it. *)
Definition render (spans : list span) : list icall := Reset_ :: map Intern spans.
(** C31: once ids expire the indices of the others move.  A document with the headings 1 and 2
    is rendered 31 times; then heading 3 is written before them.  The id of heading 1 of the
    render before is now resolved to heading 3. *)
Theorem C31_other_span_refuted : exists a b sp sp', sp' <> sp /\ resets b < 30 /\ asked a sp b = Found (Some sp').
Proof.
  exists (flat_map (fun _ => render [1; 2]) (seq 0 30) ++ [Reset_]), ([Intern 2] ++ render [3; 1; 2]), 1, 3.
  repeat split; vm_compute; congruence.
Qed.
Print Assumptions C31_other_span_refuted.
(** C31: if instead heading 2 is removed, its id is resolved to nothing, not reported as expired. *)
Theorem C31_lost_refuted : exists a b sp, resets b < 30 /\ asked a sp b = Found None.
Proof.
  exists (flat_map (fun _ => render [1; 2]) (seq 0 30) ++ [Reset_; Intern 1]), (render [1]), 2.
  repeat split; vm_compute; congruence.
Qed.
Print Assumptions C31_lost_refuted.
