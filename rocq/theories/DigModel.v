(** Numbers as text: the parts of the standard library that the codecs of
    crates/tinymist-task/src/primitives.rs and crates/typst-preview/src/debug_loc.rs
    rely on.  A string is a list of scalar values. *)
From Coq Require Import List NArith Bool.
Import ListNotations.
Open Scope N_scope.

(** A character of a [str]; crates/tinymist-task/src/primitives.rs:188. *)
Definition chr := N.
(** The digits of a number, most significant first ([to_string] at
    crates/tinymist-task/src/primitives.rs:220, [{:x}] at
    crates/typst-preview/src/debug_loc.rs:37). *)
Fixpoint digits (b : N) (fuel : nat) (n : N) (acc : list N) : list N :=
  match fuel with
  | O => acc
  | S f => let acc := (n mod b) :: acc in if n / b =? 0 then acc else digits b f (n / b) acc
  end.
(** The lower case digit, see [digits]; crates/typst-preview/src/debug_loc.rs:37. *)
Definition dchar (d : N) : chr := if d <? 10 then 48 + d else 87 + d.
(** See [digits]; crates/tinymist-task/src/primitives.rs:220. *)
Definition print_num (b n : N) : list chr := map dchar (digits b (S (N.size_nat n)) n []).
(** [char::to_digit], used by [from_str_radix] (crates/typst-preview/src/debug_loc.rs:41)
    and [NonZeroUsize::from_str] (crates/tinymist-task/src/primitives.rs:255). *)
Definition cdigit (b : N) (c : chr) : option N :=
  let d := if (48 <=? c) && (c <=? 57) then Some (c - 48)
           else if (97 <=? c) && (c <=? 122) then Some (c - 87)
           else if (65 <=? c) && (c <=? 90) then Some (c - 55) else None in
  match d with Some d => if d <? b then Some d else None | None => None end.
(** The loop of [from_str_radix]; see [cdigit]. crates/typst-preview/src/debug_loc.rs:41. *)
Fixpoint parse_digits (b max a : N) (cs : list chr) : option N :=
  match cs with
  | [] => Some a
  | c :: r => match cdigit b c with
              | Some d => let a := a * b + d in if a <=? max then parse_digits b max a r else None
              | None => None
              end
  end.
(** [from_str_radix] of unsigned numbers up to [max]: a leading plus is allowed;
    crates/typst-preview/src/debug_loc.rs:41. *)
Definition parse_num (b max : N) (cs : list chr) : option N :=
  match cs with
  | [] => None
  | c :: r => if c =? 43 then match r with [] => None | _ => parse_digits b max 0 r end else parse_digits b max 0 cs
  end.
(** [usize::MAX] and [u64::MAX]; crates/tinymist-task/src/primitives.rs:255. *)
Definition max64 : N := 18446744073709551615.
