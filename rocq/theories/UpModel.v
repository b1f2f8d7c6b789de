(** Model of the plain documentation, the links in it, and the summaries of fonts: crates/tinymist-analysis/src/upstream/mod.rs ("mod.rs" below). *)
From Coq Require Import String Ascii List Arith NArith Bool.
Import ListNotations.

(** A text (&str, mod.rs:24), by the codes of its characters. *)
Definition text := list nat.
(** String literals of mod.rs:26,62-65,157-171. *)
Definition lit (s : string) : text := List.map nat_of_ascii (list_ascii_of_string s).
(** Equality of texts, for mod.rs:158-170. *)
Fixpoint text_eqb (a b : text) : bool := match a, b with [], [] => true | x :: a, y :: b => (x =? y) && text_eqb a b | _, _ => false end.
(** [strip_prefix]; also [starts_with], mod.rs:127. *)
Fixpoint strip_prefix (p l : text) : option text :=
  match p, l with [], _ => Some l | x :: p, y :: l => if x =? y then strip_prefix p l else None | _, _ => None end.
(** [str::replace], mod.rs:26; the first argument is at least the length of the text. *)
Fixpoint replace (fuel : nat) (pat rep l : text) : text :=
  match fuel, l with
  | S n, c :: r => match strip_prefix pat l with Some l' => rep ++ replace n pat rep l' | None => c :: replace n pat rep r end
  | _, _ => []
  end.
(** [Scanner::eat_until], mod.rs:33,52,69: what is before the character, and the rest from it on. *)
Fixpoint until (c : nat) (l : text) : text * text :=
  match l with [] => ([], []) | x :: r => if x =? c then ([], l) else let '(a, b) := until c r in (x :: a, b) end.
(** mod.rs:34-38: raw text in braces or brackets. *)
Definition strip (raw : text) : text :=
  let inside := firstn (length raw - 2) (tl raw) in
  if ((hd 0 raw =? 123) && (last raw 0 =? 125)) || ((hd 0 raw =? 91) && (last raw 0 =? 93)) then inside else raw.

(** mod.rs:150-154 [split_link]. *)
Fixpoint drop_slashes (l : text) : text := match l with x :: r => if x =? 47 then drop_slashes r else l | [] => [] end.
(** mod.rs:150-154 [split_link]: the head and the tail. *)
Definition split_link (link : text) : text * text := let '(first, rest) := until 47 link in (first, drop_slashes rest).
(** mod.rs:157-171 [resolve_known]. *)
Definition known_links : list (string * string) :=
  [("$tutorial", "tutorial"); ("$reference", "reference"); ("$category", "reference"); ("$syntax", "reference/syntax"); ("$styling", "reference/styling");
   ("$scripting", "reference/scripting"); ("$context", "reference/context"); ("$guides", "guides"); ("$changelog", "changelog"); ("$community", "community")]%string.
(** mod.rs:157-171 [resolve_known], with the one destination that is not below the base. *)
Definition resolve_known (head base : text) : option text :=
  match find (fun p => text_eqb head (lit (fst p))) known_links with
  | Some p => Some (base ++ lit (snd p))
  | None => if text_eqb head (lit "$universe") then Some (lit "https://typst.app/universe") else None
  end.
Section Library.
(** mod.rs:186-245 [resolve_definition]: the route of a name of the library below a base, or an error. *)
Variable definition : text -> text -> option text.
(** mod.rs:126-147 [resolve]. *)
Definition resolve (link base : text) : option text :=
  if match strip_prefix [35] link with Some _ => true | None => false end || match strip_prefix (lit "http") link with Some _ => true | None => false end then Some link
  else
    let '(head, tail) := split_link link in
    match (match resolve_known head base with Some r => Some r | None => definition head base end) with
    | None => None
    | Some route =>
        let route := match tail with [] => route | _ => route ++ 47 :: tail end in
        Some (if negb (existsb (fun c => (c =? 35) || (c =? 63)) route) && negb (last route 0 =? 47) then route ++ [47] else route)
    end.
(** mod.rs:57-61: the destination of a link. *)
Definition target (link : text) : text :=
  match resolve link (lit "https://typst.app/docs/") with Some r => r | None => lit "https://typst.app/docs/404.html" end.
(** mod.rs:30-79: the loop; the first argument is at least the length of the text, and link is the variable of that name. *)
Fixpoint scan (fuel : nat) (link : bool) (l : text) : text :=
  match fuel, l with
  | S n, ch :: r =>
      if ch =? 96 then let '(raw, rest) := until 96 r in [96] ++ strip raw ++ [96] ++ scan n link (tl rest)
      else if ch =? 91 then [91] ++ scan n true r
      else if (ch =? 93) && link then
        match r with
        | c :: r' =>
            if c =? 40 then let '(dest, rest) := until 41 r' in [93; 40] ++ target dest ++ [41] ++ scan n false (tl rest)
            else if c =? 91 then let '(ref, rest) := until 93 r' in [93; 91] ++ ref ++ firstn 1 rest ++ scan n false (tl rest)
            else [93] ++ scan n false r
        | [] => [93] ++ scan n false r
        end
      else ch :: scan n link r
  | _, _ => []
  end.
(** mod.rs:24-82 [plain_docs_sentence]. *)
Definition plain_docs_sentence (docs : text) : text :=
  let docs := replace (length docs) (lit "```example") (lit "```typ") docs in
  scan (length docs) false docs.
End Library.
(** mod.rs:349-358 [urlify]: one character. *)
Definition url_char (c : nat) : nat :=
  let c := if (65 <=? c) && (c <=? 90) then c + 32 else c in
  if ((97 <=? c) && (c <=? 122)) || ((48 <=? c) && (c <=? 57)) then c else 45.
(** mod.rs:349-358 [urlify]. *)
Definition urlify (title : text) : text := List.map url_char title.

(** [FontStyle] of typst, in this order, for mod.rs:375,382. *)
Inductive style := Normal | Italic | Oblique.
(** [FontVariant] of typst, ordered by its fields in this order, for mod.rs:375,381. *)
Record variant := mkVariant { v_style : style; v_weight : N; v_stretch : nat }.
(** The order of styles, for mod.rs:375. *)
Definition style_num (s : style) : nat := match s with Normal => 0 | Italic => 1 | Oblique => 2 end.
(** The order of variants, for mod.rs:375. *)
Definition variant_leb (a b : variant) : bool :=
  let x := style_num (v_style a) in let y := style_num (v_style b) in
  (x <? y) || ((x =? y) && ((v_weight a <? v_weight b)%N || ((v_weight a =? v_weight b)%N && (v_stretch a <=? v_stretch b)))).
(** mod.rs:375 [sort_by_key], stable. *)
Fixpoint insert (v : variant) (l : list variant) : list variant :=
  match l with [] => [v] | x :: r => if variant_leb v x then v :: l else x :: insert v r end.
(** mod.rs:375 [sort_by_key]. *)
Definition sort (l : list variant) : list variant := fold_right insert [] l.
(** The text of mod.rs:386-398: the number of variants, the weights from and to, and whether there are italics. *)
Record summary := mkSummary { s_count : nat; s_min : N; s_max : N; s_italic : bool }.
(** mod.rs:380-385: one round of the loop. *)
Definition weigh (s : summary) (v : variant) : summary :=
  let m := N.min (s_min s) (v_weight v) in
  mkSummary (s_count s) m (N.max m (v_weight v)) (s_italic s || match v_style v with Italic => true | _ => false end).
(** mod.rs:373-400 [summarize_font_family]. *)
Definition summarize (l : list variant) : summary :=
  let infos := sort l in fold_left weigh infos (mkSummary (length infos) 65535%N 0%N false).
