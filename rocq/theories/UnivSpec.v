(** What C49 says. *)
From Coq Require Import List Arith Bool.
From Verif Require Import UnivModel.
Import ListNotations.

(** What a compilation can see of a universe. *)
Definition view (v : verse) : entry * nat * nat * nat * nat := (v_entry v, v_inputs v, v_fonts v, v_registry v, v_vfs v).
(** Resolvers that report a revision report another one when they differ. *)
Definition honest (rev : nat -> option nat) : Prop := forall a b r, rev a = Some r -> rev b = Some r -> a = b.
(** Operations through [increment_revision] with its public methods. *)
Definition regular (o : op) : Prop := match o with Session _ | Evict => True | _ => False end.
Definition regular_event (e : event) : Prop := match e with Op o => regular o | Snap => True end.
