(** What is expected of fingerprints (C30, C52, C74). *)
From Coq Require Import List NArith Bool.
From Verif Require Import DigModel FpModel.
Import ListNotations.
Open Scope N_scope.

(** Both halves are 64-bit numbers. *)
Definition fp_ok (f : fp) : Prop := lo f < 2 ^ 64 /\ hi f < 2 ^ 64.
(** Calls one after the other. *)
Definition one_by_one {data} (ds : list (nat * data)) : list (bevent data) :=
  flat_map (fun x => [BCall data (fst x) (snd x); BStep data (fst x); BStep data (fst x)]) ds.
(** A fingerprint that was returned stands for one item. *)
Definition identifies {data} (os : list (bout data)) : Prop :=
  forall i j d e f, In (BRet data i d f) os -> In (BRet data j e f) os -> d = e.
Definition power_of_two (n : N) : Prop := exists k, n = 2 ^ k.
