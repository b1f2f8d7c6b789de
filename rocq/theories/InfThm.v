(** Theorems about completion by types (C193). *)
From Coq Require Import String.
From Coq Require Import List Arith Bool Lia.
From Verif Require Import InfModel InfSpec InfProof.
Import ListNotations.
Open Scope string_scope.

(** C193: exactly the items are offered that the type gives; that types are completed only once loses none. *)
Theorem C193_types : forall in_string mark t i, In i (type_completion in_string mark t) <-> gives in_string mark t i.
Proof.
  intros in_string mark t i. unfold type_completion. destruct (go_step in_string mark (size t) t {| seen := []; fields := []; out := [] |} (le_n _)) as [A B C D E F]. cbn [out seen fields] in *. split.
  - intros I. destruct (B i I) as [[]|H]. exact H.
  - intros G. apply C; [|exact G]. split; cbn [seen fields]; [intros u []|intros _ _ n []].
Qed.
Print Assumptions C193_types.
(** C193: more steps offer nothing else. *)
Theorem C193_steps : forall in_string mark t fuel i, size t <= fuel ->
  (In i (out (go fuel in_string mark t {| seen := []; fields := []; out := [] |})) <-> In i (type_completion in_string mark t)).
Proof.
  intros in_string mark t fuel i L. rewrite C193_types. destruct (go_step in_string mark fuel t {| seen := []; fields := []; out := [] |} L) as [A B C D E F]. cbn [out seen fields] in *. split.
  - intros I. destruct (B i I) as [[]|H]. exact H.
  - intros G. apply C; [|exact G]. split; cbn [seen fields]; [intros u []|intros _ _ n []].
Qed.
Print Assumptions C193_steps.
(** C193: a named parameter is offered once, whichever types have one of its name. *)
Theorem C193_fields : forall in_string mark t, NoDup (flat_map (fun i => match i with IField k => [k] | _ => [] end) (type_completion in_string mark t)).
Proof. intros in_string mark t. unfold type_completion. apply go_once. split; [constructor|intros n []]. Qed.
Print Assumptions C193_fields.
(** C193: a type that has been completed is not completed again. *)
Theorem C193_again : forall in_string mark t s fuel, 1 <= fuel -> In t (seen s) -> go fuel in_string mark t s = s.
Proof. intros in_string mark t s [|k] L I; [lia|]. cbn [go]. destruct (in_dec ty_eq t (seen s)); [reflexivity|contradiction]. Qed.
Print Assumptions C193_again.
(** C193: in the text of a string only paths, fonts, features and strings are offered. *)
Theorem C193_strings : forall mark t i, In i (type_completion true mark t) -> i = IFonts \/ i = IFeatures \/ (exists n, i = IPath n) \/ exists n, i = IValue (VStr n).
Proof.
  intros mark t i I. apply C193_types in I. induction I; try discriminate; auto.
  - right. right. left. now exists n.
  - right. right. right. now exists n.
Qed.
Print Assumptions C193_strings.
(** C193 fails: in the text of a string neither languages nor regions are offered, although they are strings and are offered as such elsewhere. *)
Theorem C193_langs_refuted : exists t, In ILangs (type_completion false false t) /\ In IRegions (type_completion false false t) /\ type_completion true false t = [].
Proof. exists (TUnion [TBuiltin BLang; TBuiltin BRegion]). split; [cbn; auto|]. split; [cbn; auto|reflexivity]. Qed.
Print Assumptions C193_langs_refuted.

(** A parameter that is met twice, a length within a stroke and a type that is met before. *)
Example C193_nonvacuous :
  type_completion false false (TUnion [TParam 3 true true (TBuiltin BLength); TLet [TBuiltin BMargin] [TValue VAuto; TParam 3 false true (TNo 1)]])
  = [ISnip "pt" "${1}pt"; ISnip "mm" "${1}mm"; ISnip "cm" "${1}cm"; ISnip "in" "${1}in"; ISnip "em" "${1}em"; ISnip "auto" "auto"; IField 3; ISnip "()" "(${})"]
  /\ type_completion true false (TUnion [TValue (VStr 4); TValue (VOther 5); TBuiltin BFont]) = [IValue (VStr 4); IFonts]
  /\ gives false false (TLet [TBuiltin BMargin] []) (ISnip "auto" "auto").
Proof. split; [reflexivity|]. split; [reflexivity|]. eapply G_upper; [now left|]. constructor; [reflexivity|]. cbn. tauto. Qed.
