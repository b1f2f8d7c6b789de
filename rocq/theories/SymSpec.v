(** What is expected of the symbols of a workspace (C172). *)
From Coq Require Import List Arith Bool.
From Verif Require Import LexModel LexSpec SymModel.
Import ListNotations.

(** Whether a name is asked for. *)
Definition asked (q : pattern) (name : nat) : Prop := match q with None => True | Some c => c name = true end.
(** [at_depth d i h]: [i] is [d] levels below the top of [h]. *)
Inductive at_depth : nat -> info -> hier -> Prop :=
| At_top i cs : at_depth 0 i (Hier i cs)
| At_below d i j cs h : In h cs -> at_depth d i h -> at_depth (S d) i (Hier j cs).
(** An item of a file, with its depth. *)
Definition item_of (f : file) (d : nat) (i : info) : Prop :=
  exists root hs h, f_source f = Some root /\ get_lexical_hierarchy Symbol root = Some hs /\ In h hs /\ at_depth d i h.
(** The symbol the client sees for an item. *)
Definition seen (f : file) (i : info) (s : symbol) : Prop :=
  s_name s = i_name i /\ s_kind s = i_kind i /\ s_range s = i_range i /\ f_uri f = Some (s_uri s).
(** Files with a source have an address. *)
Definition addressed (f : file) : Prop := f_source f <> None -> f_uri f <> None.
