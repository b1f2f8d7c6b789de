(** Printing and parsing of unsigned integers on byte lists, shared by the
    models of message framing, page ranges and identifiers. *)
From Coq Require Import List NArith Arith Bool String Ascii.
Import ListNotations.

(** A byte of a Rust [str]/[[u8]], e.g. crates/sync-lsp/src/msg.rs:233. *)
Notation byte := N (only parsing).
(** A byte string, e.g. crates/sync-lsp/src/msg.rs:233. *)
Notation bytes := (list N).

(** Bytes of an ASCII literal: e.g. crates/sync-lsp/src/msg.rs:228,244. *)
Fixpoint lit (s : string) : bytes :=
  match s with
  | EmptyString => []
  | String a r => N_of_ascii a :: lit r
  end.

(** Rust's [Display] for unsigned integers (decimal, no leading zeros):
    used at crates/sync-lsp/src/msg.rs:244. *)
Fixpoint show_dec_fuel (fuel : nat) (n : N) : bytes :=
  match fuel with
  | 0 => [(48 + n)%N]
  | S f => if (n <? 10)%N then [(48 + n)%N]
           else show_dec_fuel f (n / 10) ++ [(48 + n mod 10)%N]
  end.
(** Decimal [Display], used at crates/sync-lsp/src/msg.rs:244. *)
Definition show_dec (n : N) : bytes := show_dec_fuel (N.size_nat n) n.

(** Decimal digits, for the parse at crates/sync-lsp/src/msg.rs:229. *)
Definition is_digit (b : byte) : bool := ((48 <=? b) && (b <=? 57))%N.

(** Digits folded from the left: for the parse at crates/sync-lsp/src/msg.rs:229. *)
Fixpoint parse_digits (acc : N) (l : bytes) : option N :=
  match l with
  | [] => Some acc
  | b :: r => if is_digit b then parse_digits (acc * 10 + (b - 48))%N r else None
  end.

(** Rust core [<unsigned>::from_str]: optional [+], at least one digit, error on
    overflow ([limit] is 2^bits): used at crates/sync-lsp/src/msg.rs:229. *)
Definition parse_unsigned (limit : N) (l : bytes) : option N :=
  let ds := match l with
            | 43%N :: r => r
            | _ => l
            end in
  match ds with
  | [] => None
  | _ => match parse_digits 0 ds with
         | Some n => if (n <? limit)%N then Some n else None
         | None => None
         end
  end.

(** Range of [usize], crates/sync-lsp/src/msg.rs:229. *)
Definition U64 : N := 18446744073709551616%N.
(** Range of [u32], as in crates/tinymist-analysis/src/location.rs:46. *)
Definition U32 : N := 4294967296%N.
