(** What is expected of atomic writes (C28). *)
From Coq Require Import List Arith NArith Bool.
From Verif Require Import AssocModel AtomModel.
Import ListNotations.

Definition start (d : list (nat * afile)) : ast := mkA d [].
Definition data_at (p : nat) (s : ast) : option (list nat) := option_map f_data (aget p (a_dir s)).
(** The contents after the completed writes: the last one to the name, or what was there. *)
Fixpoint last_put (p : nat) (c : option (list nat)) (os : list aout) : option (list nat) :=
  match os with
  | [] => c
  | ODone _ dest data :: r => last_put p (if dest =? p then Some data else c) r
  | _ :: r => last_put p c r
  end.
Definition dests (es : list aevent) : list nat := flat_map (fun e => match e with ABegin _ d _ => [d] | _ => [] end) es.
Definition temps (es : list aevent) : list nat := flat_map (fun e => match e with ACreate _ t => [t] | _ => [] end) es.
(** The random names of temporary files are not names that are written to. *)
Definition temps_apart (es : list aevent) : Prop := forall t, In t (temps es) -> ~ In t (dests es).
Definition no_power_loss (es : list aevent) : Prop := forall k, ~ In (APower k) es.
Definition no_kill (es : list aevent) : Prop := forall i, ~ In (AKill i) es.
