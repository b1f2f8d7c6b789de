(** What is expected of the span interner (C31, C32). *)
From Coq Require Import List NArith Bool.
From Verif Require Import DigModel SpanModel.
Import ListNotations.
Open Scope N_scope.

Definition id_ok (i : iid) : Prop := i_life i < 2 ^ 32 /\ i_idx i < 2 ^ 32.
(** The number of renders in a history. *)
Fixpoint resets (cs : list icall) : N :=
  match cs with [] => 0 | Reset_ :: r => 1 + resets r | Intern _ :: r => resets r end.
(** The id that is handed out for [sp] after the calls [a]. *)
Definition id_of (a : list icall) (sp : span) : iid := snd (intern (irun interner0 a) sp).
(** What the id handed out after [a] is resolved to after the further calls [b]. *)
Definition asked (a : list icall) (sp : span) (b : list icall) : query :=
  lookup (irun interner0 (a ++ Intern sp :: b)) (id_of a sp).
(** Histories for which 32-bit numbers suffice. *)
Definition short (cs : list icall) : Prop := N.of_nat (length cs) + 1 < 2 ^ 32.
(** No id handed out in the history has expired at its end. *)
Definition none_expired (cs : list icall) : Prop := forall a sp b, cs = a ++ Intern sp :: b -> resets b < 30.
