(** Model of families of fonts by their names: crates/tinymist-world/src/font/info.rs. *)
From Coq Require Import String Ascii List Arith Bool.
Import ListNotations.
Local Open Scope nat_scope.
Local Open Scope list_scope.

(** A name (font/info.rs:3), by the codes of its characters; lengths are in characters, not in bytes, which is the same for the places at which it is cut, as everything cut off is ASCII (font/info.rs:67). *)
Definition name := list nat.
(** The codes of a literal (font/info.rs:5-18, 74-83). *)
Definition lit (s : string) : name := map nat_of_ascii (list_ascii_of_string s).
(** [SEPARATORS], font/info.rs:5. *)
Definition separators : name := lit " -_".
(** [MODIFIERS], font/info.rs:8-10. *)
Definition modifiers : list name := map lit ["extra"; "ext"; "ex"; "x"; "semi"; "sem"; "sm"; "demi"; "dem"; "ultra"]%string.
(** [SUFFIXES], font/info.rs:14-19. *)
Definition suffixes : list name := map lit
  ["normal"; "italic"; "oblique"; "slanted";
   "thin"; "th"; "hairline"; "light"; "lt"; "regular"; "medium"; "med";
   "md"; "bold"; "bd"; "demi"; "extb"; "black"; "blk"; "bk"; "heavy";
   "narrow"; "condensed"; "cond"; "cn"; "cd"; "compressed"; "expanded"; "exp"]%string.
(** [extra], font/info.rs:21-25. *)
Definition book : list name := [lit "book"].
(** [starts_with] and [strip_prefix] of the standard library, for font/info.rs:22. *)
Fixpoint strip_prefix (p t : name) : option name :=
  match p, t with
  | [], _ => Some t
  | x :: p', y :: t' => if x =? y then strip_prefix p' t' else None
  | _ :: _, [] => None
  end.
(** [strip_suffix] of the standard library, for font/info.rs:42,52,59,60. *)
Definition strip_suffix (s t : name) : option name :=
  match strip_prefix (rev s) (rev t) with Some r => Some (rev r) | None => None end.
(** [find_map(|s| t.strip_suffix(s))], font/info.rs:42 and 59. *)
Fixpoint strip_first (ss : list name) (t : name) : option name :=
  match ss with [] => None | s :: r => match strip_suffix s t with Some t' => Some t' | None => strip_first r t end end.
(** [strip_suffix(SEPARATORS)], font/info.rs:52 and 60. *)
Definition strip_sep (t : name) : option name := strip_first (map (fun c => [c]) separators) t.
Section Fam.
(** Which characters beyond ASCII are white, for [trim], font/info.rs:28. *)
Variable wide : nat -> bool.
(** [char::is_whitespace] of the standard library, for [trim], font/info.rs:28. *)
Definition white (c : nat) : bool := ((9 <=? c) && (c <=? 13)) || (c =? 32) || ((128 <=? c) && wide c).
(** [trim_start_matches], font/info.rs:28. *)
Fixpoint trim_start (f : nat -> bool) (t : name) : name :=
  match t with [] => [] | c :: r => if f c then trim_start f r else t end.
(** [trim], font/info.rs:28. *)
Definition trim (t : name) : name := rev (trim_start white (rev (trim_start white t))).
(** [to_ascii_lowercase], font/info.rs:31. *)
Definition lower (t : name) : name := map (fun c => if (65 <=? c) && (c <=? 90) then c + 32 else c) t.
(** The inner loop, font/info.rs:40-45: the rest, and whether it is shorter; the number bounds the rounds, each of which cuts off a character. *)
Fixpoint shorten (fuel : nat) (ss : list name) (t : name) (shortened : bool) : name * bool :=
  match fuel with
  | O => (t, shortened)
  | S n => match strip_first ss t with Some s => shorten n ss s true | None => (t, shortened) end
  end.
(** font/info.rs:51-63: the separator, and a modifier after another; what is left as [trimmed]. *)
Definition cut (trimmed t : name) : name :=
  let '(trimmed, t) := match strip_sep t with Some s => (s, s) | None => (trimmed, t) end in
  match strip_first modifiers t with
  | Some t' => match strip_sep t' with Some stripped => stripped | None => trimmed end
  | None => trimmed
  end.
(** The outer loop, font/info.rs:32-64: the length in the end, where [len] is [None] at first for the greatest length; the number bounds the rounds as in [shorten]. *)
Fixpoint rounds (fuel : nat) (ss : list name) (trimmed : name) (len : option nat) : option nat :=
  match fuel with
  | O => len
  | S n =>
      if match len with None => true | Some l => length trimmed <? l end
      then
        let len := Some (length trimmed) in
        let '(t, shortened) := shorten (length trimmed) ss trimmed false in
        if negb shortened then len else rounds n ss (cut trimmed t) len
      else len
  end.
(** [trim_end_matches("10")], font/info.rs:70. *)
Fixpoint trim_ten (fuel : nat) (t : name) : name :=
  match fuel with
  | O => t
  | S n => match strip_suffix (lit "10") t with Some t' => trim_ten n t' | None => t end
  end.
(** Equality of names, for font/info.rs:74-82. *)
Definition same (a b : name) : bool := if list_eq_dec Nat.eq_dec a b then true else false.
(** font/info.rs:74-83: bad names. *)
Definition fix_name (f : name) : name :=
  if same f (lit "Noto Sans Symbols2") then lit "Noto Sans Symbols 2"
  else if same f (lit "NewComputerModern") then lit "New Computer Modern"
  else if same f (lit "NewComputerModernMono") then lit "New Computer Modern Mono"
  else if same f (lit "NewComputerModernSans") then lit "New Computer Modern Sans"
  else if same f (lit "NewComputerModernMath") then lit "New Computer Modern Math"
  else if same f (lit "NewCMUncial") || same f (lit "NewComputerModernUncial") then lit "New Computer Modern Uncial"
  else f.
(** font/info.rs:22. *)
Definition is_newcm (f : name) : bool :=
  match strip_prefix (lit "NewCM") f with Some _ => true | None => match strip_prefix (lit "NewComputerModern") f with Some _ => true | None => false end end.
(** font/info.rs:3-84 [typst_typographic_family]; [None] would be the slice out of bounds of font/info.rs:67. *)
Definition family (f : name) : option name :=
  let newcm := is_newcm f in
  let ss := if newcm then suffixes ++ book else suffixes in
  let f := trim_start (fun c => c =? 46) (trim f) in
  match rounds (S (S (length f))) ss (lower f) None with
  | None => None
  | Some len =>
      if length f <? len then None
      else let f := firstn len f in Some (fix_name (if newcm then trim_ten (length f) f else f))
  end.
End Fam.
