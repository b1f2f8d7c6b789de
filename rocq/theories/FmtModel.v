(** Model of the edits of the formatter: crates/tinymist/src/task/format.rs. *)
From Coq Require Import List NArith Arith Bool.
From Verif Require Import TextModel.
Import ListNotations.

(** The UTF-8 bytes of a character (Rust core), for [str::bytes] at format.rs:65,77. *)
Definition enc (c : char) : list N :=
  (if c <? 128 then [c]
   else if c <? 2048 then [192 + c / 64; 128 + c mod 64]
   else if c <? 65536 then [224 + c / 4096; 128 + c / 64 mod 64; 128 + c mod 64]
   else [240 + c / 262144; 128 + c / 4096 mod 64; 128 + c / 64 mod 64; 128 + c mod 64])%N.
(** [str::bytes]; format.rs:65,77. *)
Definition bytes (t : text) : list N := flat_map enc t.
(** The number of equal bytes at the start: [zip], [take_while], [count]; format.rs:65-67,77-79. *)
Fixpoint common (a b : list N) : nat :=
  match a, b with x :: a, y :: b => if (x =? y)%N then S (common a b) else 0 | _, _ => 0 end.
(** [str::is_char_boundary]; format.rs:73,81. *)
Definition boundary (t : text) (i : nat) : bool := match split_byte i t with Some _ => true | None => false end.
(** format.rs:73-75. *)
Fixpoint back (old new : text) (p : nat) : nat :=
  if boundary old p && boundary new p then p else match p with 0 => 0 | S q => back old new q end.
(** format.rs:81-83; [None] is the overflow of the subtraction (in a build without overflow
    checks the loop does not end).  [fuel] bounds the steps; the loop is left before. *)
Fixpoint forward (fuel : nat) (old new : text) (s : nat) : option nat :=
  match fuel with
  | 0 => None
  | S fuel =>
      if (len8 old <? s) || (len8 new <? s) then None
      else if boundary old (len8 old - s) && boundary new (len8 new - s) then Some s
      else forward fuel old new (S s)
  end.
(** format.rs:61-94 [calc_diff]; [None] is a panic. *)
Definition calc_diff (old new : text) (e : encoding) : option (list change) :=
  let p := common (bytes old) (bytes new) in
  if (p =? len8 old) && (p =? len8 new) then Some []
  else
    let p := back old new p in
    match split_byte p old, split_byte p new with
    | Some (_, so), Some (_, sn) =>
        match forward (len8 old + 2) old new (common (rev (bytes so)) (rev (bytes sn))) with
        | None => None
        | Some s =>
            match get_range new p (len8 new - s), to_lsp_range p (len8 old - s) old e with
            | Some w, Some r => Some [mkChange (Some r) w]
            | _, _ => None
            end
        end
    | _, _ => None
    end.
(** format.rs:41-56 [run]; [formatted] is the result of the formatter (external), if it is
    enabled and succeeds. *)
Definition run_format (old : text) (formatted : option text) (e : encoding) : option (option (list change)) :=
  match formatted with None => Some None | Some new => option_map Some (calc_diff old new e) end.
