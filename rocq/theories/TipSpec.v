(** What is expected of tooltips (C180). *)
From Coq Require Import List Arith Bool.
From Verif Require Import TipModel.
Import ListNotations.

(** [runs vs rs]: the values one after the other are those of [rs], each as often as it says, and neighbours differ. *)
Inductive runs : list val -> list (val * nat) -> Prop :=
| R_nil : runs [] []
| R_cons v n vs rs : 0 < n -> (forall m r, rs <> (v, m) :: r) -> runs vs rs -> runs (repeat v n ++ vs) ((v, n) :: rs).
(** The piece of a run: the number of times if it is more than one. *)
Definition shown_as (r : val * nat) (p : piece) : Prop := p_val p = fst r /\ (snd r = 1 /\ p_times p = None \/ 1 < snd r /\ p_times p = Some (snd r)).
(** All values are the same function or type. *)
Definition one_function (is_func : val -> bool) (vs : list val) : Prop := exists f n, is_func f = true /\ 0 < n /\ vs = repeat f n.
(** The strings of a cast, in order. *)
Inductive strings : cast -> list (nat * nat) -> Prop :=
| S_str s d : strings (CStr s d) [(s, d)]
| S_other : strings COther []
| S_union os ls : Forall2 strings os ls -> strings (CUnion os) (concat ls).
