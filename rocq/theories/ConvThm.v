(** Theorems about the conversion of diagnostics. *)
From Coq Require Import String.
From Coq Require Import List Arith NArith Bool Lia.
From Verif Require Import LocModel ConvModel ConvSpec ConvProof.
Import ListNotations.
Local Open Scope nat_scope.

(** * C158: what is shown of a diagnostic *)

(** A diagnostic is shown exactly as described: in the file of its first span, with
    its severity, message, hints, range and trace. *)
Theorem C158_shown : forall w d u x, convert_diagnostic w d = Some (u, x) <-> shows w d u x.
Proof. exact convert_ok. Qed.
Print Assumptions C158_shown.
(** It is lost only if the file of its place has no address or cannot be read. *)
Theorem C158_lost : forall w d, convert_diagnostic w d = None <-> forall i s, located w d i s -> uri w i = None \/ readable w i = false.
Proof.
  intros w d. unfold convert_diagnostic. destruct (refine_ok d) as (R1 & R2 & R3 & R4 & R5). assert (L : forall i s, located w d i s <-> diagnostic_span_id w (refine d) = (i, s)) by (intros i s; rewrite located_ok; unfold diagnostic_span_id; rewrite R2, R4; tauto).
  destruct (diagnostic_span_id w (refine d)) as [i s] eqn:E. split.
  - intros H i' s' Hl. apply L in Hl. injection Hl as <- <-. destruct (uri w i); [|auto]. destruct (readable w i); [discriminate|auto].
  - intros H. destruct (H i s) as [->|Hr]; [apply L; auto|auto|rewrite Hr; destruct (uri w i); auto].
Qed.
Print Assumptions C158_lost.
(** It always has one place. *)
Theorem C158_place : forall w d, exists i s, located w d i s /\ forall i' s', located w d i' s' -> i' = i /\ s' = s.
Proof.
  intros w d. destruct (diagnostic_span_id w d) as [i s] eqn:E. exists i, s. split; [apply located_ok; auto|]. intros i' s' H. apply located_ok in H. rewrite E in H. injection H as <- <-. auto.
Qed.
Print Assumptions C158_place.
(** The message shown starts with that of the compiler, and every hint of the
    compiler is in it, unless it is about a file out of the root. *)
Theorem C158_message : forall w d u x, convert_diagnostic w d = Some (u, x) ->
  (exists rest, s_msg x = d_msg d ++ rest) /\
  (~ outside d -> forall h, In h (d_hints d) -> within (10%N :: lit "Hint: " ++ h) (s_msg x)).
Proof.
  intros w d u x H. apply convert_ok in H. destruct H as (i & s & hs & _ & _ & _ & Hh & _ & Hm & _). rewrite Hm. split; [eauto|]. intros Ho h Hi.
  assert (Hs : In h hs) by (destruct Hh as [(X & _)|[(_ & _ & ->)|(_ & _ & ->)]]; [contradiction|apply in_or_app; auto|auto]).
  apply in_split in Hs. destruct Hs as (a & b & ->). exists (d_msg d ++ concat (map (fun h => 10%N :: lit "Hint: " ++ h) a)), (concat (map (fun h => 10%N :: lit "Hint: " ++ h) b)).
  rewrite map_app, concat_app. cbn [map concat]. rewrite <- !app_assoc. auto.
Qed.
Print Assumptions C158_message.
(** A diagnostic in a file that cannot be shown is lost, even if its trace leads to
    the main file. *)
Theorem C158_trace_refuted : exists w d, uri w (main w) <> None /\ readable w (main w) = true /\ In (main w) (flat_map (fun t => match fst (fst t) with Some i => [i] | None => [] end) (d_trace d)) /\
  d_sev d = Error /\ convert_diagnostics w [d] = [].
Proof.
  exists {| main := 0; is_package := fun i => Nat.eqb i 1; uri := fun i => if Nat.eqb i 0 then Some 0 else None; readable := fun _ => true; find_span := fun _ s => Some (snd s, S (snd s)); lines := fun _ r => ((0, fst r), (0, snd r)); depended := []; lint := fun _ => [] |},
    {| d_sev := Error; d_span := (Some 1, 5); d_msg := lit "assertion failed"; d_trace := [((Some 0, 2), lit "error occurred in this call")]; d_hints := [] |}.
  split; [discriminate|]. split; [reflexivity|]. split; [left; reflexivity|]. split; reflexivity.
Qed.
Print Assumptions C158_trace_refuted.
Definition C158_world : world :=
  {| main := 0; is_package := fun i => Nat.eqb i 1; uri := fun i => if Nat.eqb i 3 then None else Some (10 + i); readable := fun i => negb (Nat.eqb i 4);
     find_span := fun i s => if Nat.eqb (snd s) 9 then None else Some (snd s, S (snd s)); lines := fun i r => ((i, fst r), (i, snd r)); depended := [0; 1; 2];
     lint := fun i => [{| d_sev := Warning; d_span := (Some i, 1); d_msg := lit "lint"; d_trace := []; d_hints := [] |}] |}.
Definition C158_diag : diagnostic :=
  {| d_sev := Error; d_span := (None, 0); d_msg := lit "unknown variable: style"; d_trace := [((Some 2, 7), lit "call"); ((Some 3, 7), lit "gone"); ((Some 0, 4), lit "import")]; d_hints := [lit "h"] |}.
Example C158_nonvacuous :
  convert_diagnostic C158_world C158_diag =
    Some (12, {| s_range := ((2, 7), (2, 8)); s_sev := Error; s_msg := lit "unknown variable: style" ++ 10%N :: lit "Hint: h" ++ 10%N :: lit "Hint: " ++ deprecation_hint;
                 s_related := Some [(12, ((2, 7), (2, 8)), lit "call"); (10, ((0, 4), (0, 5)), lit "import")] |}).
Proof. reflexivity. Qed.

(** * C159: the diagnostics of each file *)

(** Each file gets the diagnostics shown in it, each once, in their order, and
    nothing else. *)
Theorem C159_files : forall w ds u l, at_file u (convert_diagnostics w ds) l <-> picks (fun d x => shows w d u x) ds l.
Proof.
  intros w ds u l. unfold convert_diagnostics, convert_all. destruct (handle_fold w ds [] keys_nil) as (K & F). rewrite at_file_ok, expected_ok by auto. rewrite F. cbn. tauto.
Qed.
Print Assumptions C159_files.
(** A check adds the lints of the files of the document before, but none of packages. *)
Theorem C159_check : forall w ds u l, at_file u (check_request w ds) l <-> picks (fun d x => shows w d u x) (lints w ++ ds) l.
Proof.
  intros w ds u l. unfold check_request, convert_all. rewrite check_fold, <- fold_left_app. destruct (handle_fold w (lints w ++ ds) [] keys_nil) as (K & F). rewrite at_file_ok, expected_ok by auto. rewrite F. cbn. tauto.
Qed.
Print Assumptions C159_check.
(** No file is twice in the map, and none without diagnostics. *)
Theorem C159_keys : forall w ds, NoDup (map fst (check_request w ds)) /\ forall u l, In (u, l) (check_request w ds) -> l <> [].
Proof.
  intros w ds. unfold check_request, convert_all. rewrite check_fold, <- fold_left_app. destruct (handle_fold w (lints w ++ ds) [] keys_nil) as (K & _). exact K.
Qed.
Print Assumptions C159_keys.
(** The diagnostics of files do not affect those of others. *)
Theorem C159_apart : forall w ds ds' u l, (forall x d, In d ds' -> ~ shows w d u x) ->
  (at_file u (convert_diagnostics w (ds ++ ds')) l <-> at_file u (convert_diagnostics w ds) l).
Proof.
  intros w ds ds' u l H. rewrite !C159_files, !expected_ok. unfold expected. rewrite flat_map_app.
  assert (Z : flat_map (fun d => match convert_diagnostic w d with Some (v, x) => if Nat.eqb v u then [x] else [] | None => [] end) ds' = []).
  { induction ds' as [|d ds' IH]; cbn; [auto|]. rewrite IH by (intros x y Hy; apply H; right; auto). destruct (convert_diagnostic w d) as [[v x]|] eqn:E; [|auto]. destruct (Nat.eqb_spec v u) as [->|]; [|auto]. apply convert_ok in E. exfalso. apply (H x d); [left; auto|auto]. }
  rewrite Z, app_nil_r. tauto.
Qed.
Print Assumptions C159_apart.
Example C159_nonvacuous :
  map (fun e => (fst e, length (snd e))) (check_request C158_world [C158_diag; {| d_sev := Error; d_span := (Some 4, 0); d_msg := []; d_trace := []; d_hints := [] |}; C158_diag]) = [(10, 1); (12, 3)].
Proof. reflexivity. Qed.
