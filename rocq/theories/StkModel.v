(** Model of the scopes of typlite: crates/typlite/src/scopes.rs ("sc.rs"). *)
From Coq Require Import List Arith Bool.
Import ListNotations.

(** [Scope], sc.rs:8-10: a map of names to values, both numbers; a name is there once. *)
Definition scope := list (nat * nat).
(** [Scope::get], sc.rs:32-34. *)
Fixpoint lookup (n : nat) (s : scope) : option nat := match s with [] => None | (m, v) :: r => if m =? n then Some v else lookup n r end.
(** [Scope::define], sc.rs:27-29; also a write through [Scope::get_mut], sc.rs:37-39, of a name that is there. *)
Fixpoint put (n v : nat) (s : scope) : scope := match s with [] => [(n, v)] | (m, w) :: r => if m =? n then (m, v) :: r else (m, w) :: put n v r end.
(** [Scopes], sc.rs:44-49: the active scope and those below, the latest last. *)
Record scopes := { top : scope; below : list scope }.
(** sc.rs:53-58 [new]. *)
Definition new : scopes := {| top := []; below := [] |}.
(** sc.rs:61-63 [enter]. *)
Definition enter (s : scopes) : scopes := {| top := []; below := below s ++ [top s] |}.
(** sc.rs:68-70 [exit]; [None] is the panic. *)
Definition exit (s : scopes) : option scopes := match rev (below s) with [] => None | t :: r => Some {| top := t; below := rev r |} end.
(** [find_map] over the scopes from the top, sc.rs:74-76. *)
Fixpoint find (n : nat) (l : list scope) : option nat := match l with [] => None | s :: r => match lookup n s with Some v => Some v | None => find n r end end.
(** sc.rs:73-78 [get], and 81-86 [get_in_math], which is the same; [None] is the error. *)
Definition get (n : nat) (s : scopes) : option nat := find n (top s :: rev (below s)).
(** A write to the first scope with the name, from the top, sc.rs:90-92. *)
Fixpoint write (n v : nat) (l : list scope) : option (list scope) :=
  match l with
  | [] => None
  | s :: r => match lookup n s with Some _ => Some (put n v s :: r) | None => match write n v r with Some r' => Some (s :: r') | None => None end end
  end.
(** sc.rs:89-94 [get_mut] and a write to what it gives; [None] is the error. *)
Definition set (n v : nat) (s : scopes) : option scopes :=
  match write n v (top s :: rev (below s)) with Some (t :: r) => Some {| top := t; below := rev r |} | _ => None end.
(** sc.rs:97-99 [define]. *)
Definition define (n v : nat) (s : scopes) : scopes := {| top := put n v (top s); below := below s |}.
(** What is done with scopes, sc.rs:61-99. *)
Inductive op := Enter | Exit | Define (n v : nat) | Set_ (n v : nat).
(** Steps one after the other (sc.rs:61-99); a write to a name that is not there changes nothing, and [None] is a panic. *)
Fixpoint run (l : list op) (s : scopes) : option scopes :=
  match l with
  | [] => Some s
  | Enter :: r => run r (enter s)
  | Exit :: r => match exit s with Some s' => run r s' | None => None end
  | Define n v :: r => run r (define n v s)
  | Set_ n v :: r => run r (match set n v s with Some s' => s' | None => s end)
  end.
