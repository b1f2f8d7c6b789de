(** What completions of fonts, packages, tags, labels and values are (C187). *)
From Coq Require Import String Ascii List Arith Bool.
From Verif Require Import ValModel.
Import ListNotations.

(** The characters of a string. *)
Definition codes (s : string) : list nat := List.map nat_of_ascii (list_ascii_of_string s).
(** A text has another in it. *)
Definition has (p l : list nat) : Prop := exists a b, l = a ++ p ++ b.
(** The number of bytes of a text. *)
Definition size (width : nat -> nat) (l : list nat) : nat := fold_right (fun c n => width c + n) 0 l.
(** [recent width n l s]: the longest end of a text of at most so many bytes. *)
Definition recent (width : nat -> nat) (n : nat) (l s : list nat) : Prop :=
  (exists a, l = a ++ s) /\ size width s <= n /\ forall a t, l = a ++ t -> size width t <= n -> length t <= length s.
(** A package of another name, and the order of packages: by namespace and name, and the newest first. *)
Definition other (a b : spec) : Prop := p_ns a < p_ns b \/ (p_ns a = p_ns b /\ p_name a < p_name b).
Definition ahead (a b : spec) : Prop := other a b \/ (p_ns a = p_ns b /\ p_name a = p_name b /\ p_version b < p_version a).
(** [first l x]: nothing before x in the list is of the same package. *)
Definition first (l : list (spec * nat)) (x : spec * nat) : Prop := exists p q, l = p ++ x :: q /\ forall y, In y p -> fst y <> fst x.
(** [labelled before after l a]: what is put in for a label: after an at sign the name, otherwise with the signs that are not there yet. *)
Definition labelled (before after l a : list nat) : Prop :=
  ((exists b, before = b ++ codes "@") /\ a = l)
  \/ ((forall b, before <> b ++ codes "@")
      /\ exists b c, (before = b ++ codes "<" \/ (before = b /\ forall x, before <> x ++ codes "<"))
                  /\ (after = codes ">" ++ c \/ (after = c /\ forall x, after <> codes ">" ++ x))
                  /\ before ++ a ++ after = b ++ codes "<" ++ l ++ codes ">" ++ c).
(** The characters of labels, of those of English. *)
Definition label_char (c : nat) : Prop := 48 <= c <= 57 \/ 65 <= c <= 90 \/ 97 <= c <= 122 \/ c = 45 \/ c = 46 \/ c = 58 \/ c = 95.
