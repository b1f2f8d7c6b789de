(** Code actions, crates/tinymist-query/src/analysis/code_action.rs, and the
    key Enter, crates/tinymist-query/src/on_enter.rs.

    A text is a list of characters, an offset the number of characters before
    it.  The conversion of ranges to those of the protocol is modelled in
    [TextModel]. *)
From Coq Require Import List Arith Bool.
Import ListNotations.

(** An edit: a range of the text and what replaces it.  As made at
    crates/tinymist-query/src/analysis/code_action.rs:90-101,202-229. *)
Record edit := { e_from : nat; e_to : nat; e_new : list nat }.

(** The characters of crates/tinymist-query/src/analysis/code_action.rs:95,99,131,144,247-251
    and crates/tinymist-query/src/on_enter.rs:101,140,168-170. *)
Definition c_dollar := 36.
(** crates/tinymist-query/src/analysis/code_action.rs:131,144 *)
Definition c_eq := 61.
(** crates/tinymist-query/src/analysis/code_action.rs:249 *)
Definition c_space := 32.
(** crates/tinymist-query/src/analysis/code_action.rs:251 *)
Definition c_lf := 10.
(** crates/tinymist-query/src/analysis/code_action.rs:95 *)
Definition c_hash := 35.
(** crates/tinymist-query/src/analysis/code_action.rs:95 *)
Definition c_open := 91.
(** crates/tinymist-query/src/analysis/code_action.rs:99 *)
Definition c_close := 93.

(** The kinds of nodes that matter, crates/tinymist-query/src/analysis/code_action.rs:62-70,121,164
    and crates/tinymist-query/src/on_enter.rs:54-76,107-112. *)
Inductive kind :=
| KHeading | KEquation | KMarker | KDollar | KMath | KSpace | KLinebreak | KParbreak
| KLineComment | KBlockComment | KListItem | KEnumItem | KOther.

(** A child of a node: its kind and its text.  As used at
    crates/tinymist-query/src/analysis/code_action.rs:119-122,162-166. *)
Definition child := (kind * list nat)%type.

(** The text of the children.  As used at
    crates/tinymist-query/src/analysis/code_action.rs:122,159. *)
Definition text_of (cs : list child) : list nat := flat_map snd cs.

(** [is_ascii_punctuation], crates/tinymist-query/src/analysis/code_action.rs:195-197. *)
Definition ascii_punct (c : nat) : bool :=
  ((33 <=? c) && (c <=? 47)) || ((58 <=? c) && (c <=? 64)) || ((91 <=? c) && (c <=? 96)) || ((123 <=? c) && (c <=? 126)).

(** The edits of [wrap_actions] for a range that is not empty, where the start
    is in markup or math, crates/tinymist-query/src/analysis/code_action.rs:80-112. *)
Definition wrap_edits (mode_ok : bool) (a b : nat) : option (list edit) :=
  if a =? b then None
  else if mode_ok then
    Some [{| e_from := a; e_to := a; e_new := [c_hash; c_open] |};
          {| e_from := b; e_to := b; e_new := [c_close] |}]
  else None.

(** The first child with a property, with its offset.  As used at
    crates/tinymist-query/src/analysis/code_action.rs:119-122. *)
Fixpoint find_child (f : kind -> bool) (o : nat) (cs : list child) : option (nat * list nat) :=
  match cs with
  | [] => None
  | (k, t) :: cs' => if f k then Some (o, t) else find_child f (o + length t) cs'
  end.

(** A heading marker.  As used at crates/tinymist-query/src/analysis/code_action.rs:121. *)
Definition is_marker (k : kind) : bool := match k with KMarker => true | _ => false end.

(** The actions of a heading at offset [o]: the edit that decreases its
    depth, if there is one, and the one that increases it,
    crates/tinymist-query/src/analysis/code_action.rs:114-151.  The depth of a
    heading is the length of its marker, in Typst. *)
Definition heading_edits (o : nat) (cs : list child) : option (option edit * edit) :=
  match find_child is_marker o cs with
  | None => None
  | Some (m, t) =>
      let depth := length t in
      let e n := {| e_from := m; e_to := m + length t; e_new := repeat c_eq n |} in
      Some (if 1 <? depth then Some (e (depth - 1)) else None, e (depth + 1))
  end.

(** Whether an equation is displayed as a block: there is white space after
    the first and before the last child.  This is [Equation::block] of Typst,
    used at crates/tinymist-query/src/analysis/code_action.rs:156. *)
Definition is_space (c : option child) : bool := match c with Some (KSpace, _) => true | _ => false end.
(** crates/tinymist-query/src/analysis/code_action.rs:156 *)
Definition block (cs : list child) : bool := is_space (nth_error cs 1) && is_space (nth_error (rev cs) 1).

(** A dollar sign, crates/tinymist-query/src/analysis/code_action.rs:164. *)
Definition is_dollar (c : child) : bool := match fst c with KDollar => true | _ => false end.

(** The body of an equation.  As used at
    crates/tinymist-query/src/analysis/code_action.rs:155,158. *)
Definition is_math (k : kind) : bool := match k with KMath => true | _ => false end.

(** The mark after the equation that is moved into it: ASCII punctuation not
    followed by more of it, or other punctuation ([upunct]),
    crates/tinymist-query/src/analysis/code_action.rs:182-197. *)
Definition mark_after (upunct : nat -> bool) (post : list nat) : option nat :=
  match post with
  | [] => None
  | c :: rest =>
      let next := match rest with d :: _ => ascii_punct d | [] => false end in
      if (ascii_punct c && negb next) || (negb (ascii_punct c) && upunct c) then Some c else None
  end.

(** The edits of one conversion, crates/tinymist-query/src/analysis/code_action.rs:211-243:
    [f0] is the end of the first dollar sign, [b0 .. b1] the body, [l0] the
    start of the last dollar sign, [n1] the end of the equation. *)
Definition rewrite_edits (f0 b0 b1 l0 n1 : nat) (mark : option nat) (new : list nat) : list edit :=
  let punc := match new with [] => None | _ => mark end in
  [{| e_from := f0; e_to := b0; e_new := new |};
   {| e_from := b1; e_to := l0; e_new := match punc with Some c => c :: new | None => new end |}]
  ++ match punc with Some _ => [{| e_from := n1; e_to := n1 + 1; e_new := [] |}] | None => [] end.

(** The conversions of an equation at offset [o]: the one between block and
    inline, and the one to several lines,
    crates/tinymist-query/src/analysis/code_action.rs:153-259.  [post] is the
    text after the equation. *)
Definition equation_edits (upunct : nat -> bool) (o : nat) (cs : list child) (post : list nat) : option (list edit * list edit) :=
  match find_child is_math o cs, cs with
  | Some (b0, body), first :: rest =>
      match rev rest with
      | last :: _ =>
          if is_dollar first && is_dollar last then
            let n1 := o + length (text_of cs) in
            let l0 := n1 - length (snd last) in
            if o =? l0 then None
            else
              let r := rewrite_edits (o + length (snd first)) b0 (b0 + length body) l0 n1 (mark_after upunct post) in
              Some (r (if block cs then [] else [c_space]), r [c_lf])
          else None
      | [] => None
      end
  | _, _ => None
  end.

(** The deepest heading and the deepest equation around the cursor: the list
    is the kinds of the leaf and its ancestors; their places in it.
    crates/tinymist-query/src/analysis/code_action.rs:56-76. *)
Fixpoint resolve (i : nat) (h e : bool) (anc : list kind) : list nat :=
  match anc with
  | [] => []
  | k :: anc' =>
      match k with
      | KHeading => if h then resolve (S i) h e anc' else i :: resolve (S i) true e anc'
      | KEquation => if e then resolve (S i) h e anc' else i :: resolve (S i) h true anc'
      | _ => resolve (S i) h e anc'
      end
  end.

(** What is after the last line feed, crates/tinymist-query/src/on_enter.rs:101-102. *)
Fixpoint last_line (t : list nat) (cur : list nat) : list nat :=
  match t with
  | [] => cur
  | c :: t' => if c =? c_lf then last_line t' [] else last_line t' (cur ++ [c])
  end.

(** [indent_of], crates/tinymist-query/src/on_enter.rs:99-104; [before] is the
    text before the offset. *)
Definition indent_of (before : list nat) : list nat := repeat c_space (length (last_line before [])).

(** The characters [/], [!] and the placeholder [$0] of
    crates/tinymist-query/src/on_enter.rs:125-126,140. *)
Definition c_slash := 47.
(** crates/tinymist-query/src/on_enter.rs:126 *)
Definition c_bang := 33.

(** What a comment starts with, crates/tinymist-query/src/on_enter.rs:123-128. *)
Fixpoint comment_prefix (t : list nat) : list nat :=
  match t with
  | [] => []
  | c :: t' => if c =? c_slash then c :: comment_prefix t' else if c =? c_bang then [c] else []
  end.

(** The nodes between comments of a group, crates/tinymist-query/src/on_enter.rs:107-112. *)
Definition skipper (k : kind) : bool := match k with KSpace | KLinebreak | KLineComment => true | _ => false end.

(** The elements before the first that fails, [take_while]; used at
    crates/tinymist-query/src/on_enter.rs:115,119. *)
Fixpoint take_while {A} (f : A -> bool) (l : list A) : list A :=
  match l with [] => [] | x :: l' => if f x then x :: take_while f l' else [] end.

(** A line comment, crates/tinymist-query/src/on_enter.rs:120. *)
Definition is_comment (k : kind) : bool := match k with KLineComment => true | _ => false end.

(** The number of comments in the group of the comment that is child [i],
    crates/tinymist-query/src/on_enter.rs:113-121. *)
Definition group_count (ks : list kind) (i : nat) : nat :=
  let first_index := length (take_while skipper (rev (firstn i ks))) in
  length (filter is_comment (take_while skipper (skipn (i - first_index) ks))).

(** What Enter inserts in a comment; the place of the cursor in it is the end
    ([$0]).  crates/tinymist-query/src/on_enter.rs:106-144. *)
Definition enter_comment (before text : list nat) (ks : list kind) (i : nat) : option (list nat) :=
  let p := comment_prefix text in
  if (group_count ks i <=? 1) && (if list_eq_dec Nat.eq_dec p [c_slash; c_slash] then true else false) then None
  else Some (c_lf :: indent_of before ++ p ++ [c_space]).

(** The text without the dollar signs around it,
    crates/tinymist-query/src/on_enter.rs:158. *)
Fixpoint strip_left (t : list nat) : list nat :=
  match t with c :: t' => if c =? c_dollar then strip_left t' else t | [] => [] end.
(** crates/tinymist-query/src/on_enter.rs:158 *)
Definition strip (t : list nat) : list nat := rev (strip_left (rev (strip_left t))).

(** What Enter inserts in an equation: the text before and after the cursor.
    [blank] is white space.  crates/tinymist-query/src/on_enter.rs:146-175. *)
Definition enter_math (blank : nat -> bool) (before text : list nat) (inside : bool) : option (list nat * list nat) :=
  if inside && forallb blank (strip text) then
    let indent := indent_of before in
    Some (c_lf :: indent ++ [c_space; c_space],
          if existsb (Nat.eqb c_lf) (strip text) then [] else c_lf :: indent)
  else None.

(** What Enter is about, given the leaf at the cursor and its ancestors: each
    with its kind, the kind of the sibling before it, and whether there is a
    line break between its start and the cursor.
    crates/tinymist-query/src/on_enter.rs:54-76. *)
Inductive case := CComment (i : nat) | CEquation (i : nat) | CItem (i : nat).

(** crates/tinymist-query/src/on_enter.rs:54-76 *)
Fixpoint find_case (i : nat) (anc : list (kind * option kind * bool)) : option case :=
  match anc with
  | [] => None
  | (k, prev, lf) :: anc' =>
      match k with
      | KLineComment => Some (CComment i)
      | KEquation => Some (CEquation i)
      | KListItem | KEnumItem => Some (CItem i)
      | KSpace | KParbreak =>
          match prev with
          | Some KListItem | Some KEnumItem => if lf then find_case (S i) anc' else Some (CItem i)
          | _ => find_case (S i) anc'
          end
      | _ => find_case (S i) anc'
      end
  end.
