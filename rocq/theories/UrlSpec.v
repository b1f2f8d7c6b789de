(** Which paths keep their addresses. *)
From Coq Require Import String List Arith.
From Verif Require Import UrlModel.
Import ListNotations.

(** A name in a path. *)
Definition plain (n : bytes) : Prop := n <> [] /\ ~ In 47 n /\ n <> [46] /\ n <> [46; 46] /\ Forall (fun c => c < 256) n.
(** Names that an address of a document without a file can have: no percent signs, question marks, hashes, tabs and ends of lines, and nothing at the
    end that is trimmed. *)
Definition sendable (l : list bytes) : Prop :=
  Forall (fun n => Forall (fun c => ~ In c [37; 63; 35; 9; 10; 13]) n) l /\ forall n, In n l -> 32 < last n 33.
(** The text of a path. *)
Definition text (l : list bytes) : bytes := flat_map (fun n => 47 :: n) l.
