(** Model of tooltips of expressions and named parameters: crates/tinymist-analysis/src/upstream/tooltip.rs. *)
From Coq Require Import List Arith Bool.
Import ListNotations.

(** A value, by a number: equal numbers for values that are equal at tooltip.rs:82 and 93 (not-a-number, which differs from itself, is left out). *)
Definition val := nat.
(** A piece of the text (tooltip.rs:104): a value, and how often it is if that is written (tooltip.rs:86,117). *)
Record piece := mkPiece { p_val : val; p_times : option nat }.
(** [Tooltip], tooltip.rs:37-43, by what it has: the documentation of a value (tooltip.rs:59-61), a length in several units (tooltip.rs:63-67), or values, and whether there is an ellipsis (tooltip.rs:121-127). *)
Inductive tip := Docs (v : val) | Len (v : val) | Values (ps : list piece) (more : bool).
(** The state of the loop: tooltip.rs:75-78, with the pieces from the last to the first. *)
Record loop := mkLoop { l_last : option (val * nat); l_pieces : list piece; l_func : option val; l_unique : bool }.

Section Tip.
(** Whether a value is a function or a type (tooltip.rs:90), whether it has documentation (tooltip.rs:59), and whether it is a length without a part in em (tooltip.rs:63, 167). *)
Variables (is_func has_docs is_len : val -> bool).

(** tooltip.rs:86 and 117: the number of times is written to the last piece; [None] is the panic of [unwrap]. *)
Definition times (n : nat) (ps : list piece) : option (list piece) :=
  match ps with [] => None | p :: r => Some (mkPiece (p_val p) (Some n) :: r) end.
(** tooltip.rs:90-105: a value that differs from the last one. *)
Definition differs (v : val) (s : loop) (ps : list piece) : loop :=
  if is_func v
  then match l_func s with
       | Some f => mkLoop (Some (v, 1)) (mkPiece v None :: ps) (l_func s) (if l_unique s then f =? v else l_unique s)
       | None => mkLoop (Some (v, 1)) (mkPiece v None :: ps) (Some v) (l_unique s)
       end
  else mkLoop (Some (v, 1)) (mkPiece v None :: ps) (l_func s) false.
(** tooltip.rs:80-106: one value. *)
Definition value (s : loop) (v : val) : option loop :=
  match l_last s with
  | Some (prev, n) =>
      if prev =? v then Some (mkLoop (Some (prev, n + 1)) (l_pieces s) (l_func s) (l_unique s))
      else if 1 <? n then match times n (l_pieces s) with None => None | Some ps => Some (differs v s ps) end
      else Some (differs v s (l_pieces s))
  | None => Some (differs v s (l_pieces s))
  end.
(** tooltip.rs:80: the values in order. *)
Fixpoint values (s : loop) (vs : list val) : option loop :=
  match vs with [] => Some s | v :: r => match value s v with None => None | Some s' => values s' r end end.
(** tooltip.rs:75-127: from all the values; the outer [None] is a panic, the inner one no tooltip.  [Sink::MAX_VALUES] of typst is 10. *)
Definition pieces_tip (vs : list val) : option (option tip) :=
  match values (mkLoop None [] None true) (firstn 9 vs) with
  | None => None
  | Some s =>
      if (match l_func s with Some _ => true | None => false end) && l_unique s then Some None
      else
        let ps := match l_last s with
          | Some (_, n) => if 1 <? n then times n (l_pieces s) else Some (l_pieces s)
          | None => Some (l_pieces s)
          end in
        match ps with
        | None => None
        | Some ps =>
            let more := match skipn 9 vs with [] => false | _ => true end in
            Some (match rev ps, more with [], false => None | ps', _ => Some (Values ps' more) end)
        end
  end.
(** A node from the leaf upwards (tooltip.rs:47-55): whether it is an expression, whether this may follow a hash or is an identifier in math, whether it is a literal, and the values of [analyze_expr] there (tooltip.rs:57). *)
Record above := mkAbove { a_expr : bool; a_shown : bool; a_literal : bool; a_values : list val }.
(** tooltip.rs:46-128 [expr_tooltip], from the leaf and its parents. *)
Fixpoint expr_tooltip (ns : list above) : option (option tip) :=
  match ns with
  | [] => Some None
  | n :: r =>
      if negb (a_expr n) then expr_tooltip r
      else if negb (a_shown n) then Some None
      else
        let rest := if a_literal n then Some None else pieces_tip (a_values n) in
        match a_values n with
        | [v] => if has_docs v then Some (Some (Docs v)) else if is_len v then Some (Some (Len v)) else rest
        | _ => rest
        end
  end.
End Tip.

(** [CastInfo] (typst) as tooltip.rs:226-232 sees it: a string with its documentation, alternatives, or anything else. *)
Inductive cast := CStr (s docs : nat) | CUnion (options : list cast) | COther.
(** tooltip.rs:225-233 [find_string_doc]. *)
Fixpoint find_string_doc (i : cast) (s : nat) : option nat :=
  match i with
  | CStr s' d => if s' =? s then Some d else None
  | CUnion os => (fix go os := match os with [] => None | o :: r => match find_string_doc o s with Some d => Some d | None => go r end end) os
  | COther => None
  end.
