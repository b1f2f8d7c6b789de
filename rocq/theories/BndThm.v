(** The bounds and the sources of types. *)
From Coq Require Import List Arith Bool Lia.
From Verif Require Import BndModel BndSpec BndProof.
Import ListNotations.

(** The bounds are collected in order: upper ones before lower ones, these with the other polarity. *)
Theorem C184_exact : forall e t p l, (exists n, bounds e n t p = Some l) <-> trace e t p l.
Proof.
  intros e t p l. split.
  - intros (n & H). eapply bounds_trace. exact H.
  - intros H. destruct (proj1 (trace_bounds e) _ _ _ H) as (n & N). exists n. now apply N.
Qed.
Print Assumptions C184_exact.

(** What is collected is what is among the bounds, with its polarity. *)
Theorem C184_members : forall e n t p l, bounds e n t p = Some l -> forall u q, In (u, q) l <-> sees e t p u q.
Proof. intros e n t p l H. apply (proj1 (trace_sees e)). now apply bounds_trace in H. Qed.
Print Assumptions C184_members.

(** The other polarity swaps all polarities and nothing else. *)
Theorem C184_dual : forall e n t p l, bounds e n t p = Some l -> exists m, bounds e m t (negb p) = Some (map (fun x => (fst x, negb (snd x))) l).
Proof. intros e n t p l H. apply C184_exact. apply (proj1 (flip_trace e)). now apply bounds_trace in H. Qed.
Print Assumptions C184_dual.

(** The search ends if bounds have no cycles. *)
Theorem C184_ends_partial : forall e t p, acyclic e -> exists n l, bounds e n t p = Some l.
Proof. intros e t p A. destruct (acyclic_trace e t p A) as (l & L). apply C184_exact in L. destruct L as (n & N). now exists n, l. Qed.
Print Assumptions C184_ends_partial.

(** It does not end if a variable is in a union that is a bound of it. *)
Theorem C184_cycle_refuted : exists e t, forall n p, bounds e n t p = None.
Proof.
  exists (fun v => if v =? 0 then Some ([Union [Var 0; Leaf IsStr 0]], []) else None), (Var 0). unfold bounds. cbn [walk].
  induction n as [|n IH]; intros p; [reflexivity|]. cbn [check_var_rec]. cbn [Nat.eqb tys walk]. rewrite IH. reflexivity.
Qed.
Print Assumptions C184_cycle_refuted.

(** A type is content, a string or a type if one of its bounds is. *)
Theorem C184_questions : forall e n t b,
  (is_content e n t = Some b -> (b = true <-> some_bound e t [IsContent; BuiltinContent]))
  /\ (is_str e n t = Some b -> (b = true <-> some_bound e t [IsStr]))
  /\ (is_type e n t = Some b -> (b = true <-> some_bound e t [IsType; TypeType])).
Proof.
  intros e n t b. split; [|split].
  - apply asks_spec; [intros []; cbn; intuition congruence|cbn; intuition congruence].
  - apply asks_spec; [intros []; cbn; intuition congruence|cbn; intuition congruence].
  - apply asks_spec; [intros []; cbn; intuition congruence|cbn; intuition congruence].
Qed.
Print Assumptions C184_questions.

(** The sources of a type are those in it, and the order is that of its parts, upper bounds first. *)
Theorem C184_sources : (forall t s, In s (sources t) <-> source_of t s)
  /\ (forall ts, sources (Union ts) = flat_map sources ts) /\ (forall us ls, sources (Let us ls) = flat_map sources us ++ flat_map sources ls).
Proof. split; [exact sources_spec|]. split; [exact sources_union|exact sources_let]. Qed.
Print Assumptions C184_sources.

Example C184_nonvacuous :
  let e := fun v => if v =? 1 then Some ([Leaf IsStr 7], [Let [Var 2] [Src IsType 8]]) else if v =? 2 then Some ([], [Leaf BuiltinContent 9]) else None in
  acyclic e /\ bounds e 2 (Union [Var 1; With (Var 1)]) true = Some [(Leaf IsStr 7, true); (Leaf BuiltinContent 9, true); (Src IsType 8, true); (With (Var 1), true)]
  /\ is_content e 2 (Var 1) = Some true /\ is_str e 2 (Var 2) = Some false /\ sources (Let [Select true (Src IsType 8)] [Param (Var 1); Select false (Var 2)]) = [SSrc 8; SVar 1].
Proof.
  cbv zeta. repeat match goal with |- _ /\ _ => split end; try reflexivity.
  exists (fun v => if v =? 1 then 1 else 0). intros v us ls t w E I D. destruct (v =? 1) eqn:V.
  - injection E as <- <-. destruct I as [<-|[<-|[]]]; [inversion D|]. inversion D as [| |? ? ? ? I' D'|? ? ? ? I' D']; subst; destruct I' as [<-|[]]; inversion D'; subst. cbn. lia.
  - destruct (v =? 2) eqn:V2; [|discriminate]. injection E as <- <-. destruct I as [<-|[]]. inversion D.
Qed.
