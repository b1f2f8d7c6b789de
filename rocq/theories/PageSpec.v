(** What is expected of page ranges, resource paths and output patterns (C29, C72, C73). *)
From Coq Require Import List NArith Bool.
From Verif Require Import DigModel PageModel.
Import ListNotations.
Open Scope N_scope.

(** A page number that can be written. *)
Definition page (n : N) : Prop := 1 <= n <= max64.
Definition end_ok (x : option N) : Prop := match x with Some n => page n | None => True end.
(** A range with at least one end, in order. *)
Definition proper (p : pages) : Prop :=
  end_ok (fst p) /\ end_ok (snd p) /\ p <> (None, None) /\
  match p with (Some a, Some b) => a <= b | _ => True end.
Definition blank (s : list chr) : Prop := Forall (fun c => is_white c = true) s.
(** The page is in the range. *)
Definition in_range (p : pages) (k : N) : Prop :=
  match fst p with Some a => a <= k | None => True end /\ match snd p with Some b => k <= b | None => True end.
(** The pages wanted by the transforms: all of them, or those in some range. *)
Definition wanted (ts : list transform) (k : N) : Prop :=
  forall rs, In (TPages rs) ts -> exists p, In p rs /\ in_range p k.

(** A pattern whose dollar signs all start a variable. *)
Inductive piece := Lit (c : chr) | PRoot | PDir | PName.
Definition piece_ok (p : piece) : Prop := match p with Lit c => c <> 36 | _ => True end.
Definition write_piece (p : piece) : list chr :=
  match p with Lit c => [c] | PRoot => w_root | PDir => w_dir | PName => w_name end.
Definition write_pieces (ps : list piece) : list chr := flat_map write_piece ps.
Definition fill (root dir name : list chr) (ps : list piece) : list chr :=
  flat_map (fun p => match p with Lit c => [c] | PRoot => root | PDir => dir | PName => name end) ps.
Definition plain (s : list chr) : Prop := ~ In 36 s.
