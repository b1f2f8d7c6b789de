(** Vocabulary for frames with arbitrary headers. *)
From Coq Require Import String List NArith Bool.
From Verif Require Import NumModel MsgModel.
Import ListNotations.
Open Scope list_scope.

(** The UTF-8 encoding of a Unicode scalar value and of a string of them, from
    the definition in RFC 3629. *)
Definition scalar (c : N) : Prop := (c < 55296 \/ 57344 <= c < 1114112)%N.
Definition encode (c : N) : bytes :=
  (if c <? 128 then [c]
   else if c <? 2048 then [192 + c / 64; 128 + c mod 64]
   else if c <? 65536 then [224 + c / 4096; 128 + c / 64 mod 64; 128 + c mod 64]
   else [240 + c / 262144; 128 + c / 4096 mod 64; 128 + c / 64 mod 64; 128 + c mod 64])%N.

(** No occurrence of ": ". *)
Definition sep_free (n : bytes) : Prop := forall a b, n <> a ++ [58; 32]%N ++ b.

(** A header (name, value) that fits on one line. *)
Definition wf_header (h : bytes * bytes) : Prop :=
  sep_free (fst h) /\ ~ In 10%N (fst h) /\ ~ In 10%N (snd h) /\
  (exists t, Forall scalar t /\ fst h = List.concat (map encode t)) /\
  (exists t, Forall scalar t /\ snd h = List.concat (map encode t)).

Definition header_line (h : bytes * bytes) : bytes := fst h ++ [58; 32]%N ++ snd h ++ [13; 10]%N.
Definition header_lines (hs : list (bytes * bytes)) : bytes := List.concat (map header_line hs).

(** The header names that count as Content-Length: equal up to ASCII case. *)
Definition same_letter (a b : byte) : Prop :=
  a = b \/ (65 <= a <= 90 /\ b = a + 32)%N \/ (65 <= b <= 90 /\ a = b + 32)%N.
Definition names_length (n : bytes) : Prop := Forall2 same_letter n (lit "Content-Length").

(** Message bodies Rust strings can hold: the encoding of some text, with a
    length that fits in 64 bits. *)
Definition wf_body (b : bytes) : Prop :=
  (exists t, Forall scalar t /\ b = List.concat (map encode t)) /\
  (N.of_nat (List.length b) < 18446744073709551616)%N.
