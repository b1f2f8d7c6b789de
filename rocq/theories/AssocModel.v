(** Finite maps with number keys, standing for the hash maps and persistent
    trees of the Rust code. *)
From Coq Require Import List Arith Bool.
Import ListNotations.

(** [HashMap::get] and the like; e.g. crates/tinymist-vfs/src/lib.rs:598,660. *)
Fixpoint aget {A} (k : nat) (m : list (nat * A)) : option A :=
  match m with
  | [] => None
  | (k', v) :: r => if k =? k' then Some v else aget k r
  end.
(** [remove]; e.g. crates/tinymist-vfs/src/lib.rs:306. *)
Definition adel {A} (k : nat) (m : list (nat * A)) : list (nat * A) :=
  filter (fun x => negb (k =? fst x)) m.
(** [insert]; e.g. crates/tinymist-vfs/src/lib.rs:603. *)
Definition aset {A} (k : nat) (v : A) (m : list (nat * A)) : list (nat * A) :=
  (k, v) :: adel k m.
(** Keys, e.g. crates/tinymist-vfs/src/overlay.rs:43-45. *)
Definition akeys {A} (m : list (nat * A)) : list nat := map fst m.
(** Update of a field indexed by a number (heap cells, instances); e.g. the
    [Arc] cells of crates/tinymist-vfs/src/lib.rs:580-587. *)
Definition upd {A} (f : nat -> A) (k : nat) (v : A) : nat -> A :=
  fun x => if x =? k then v else f x.
