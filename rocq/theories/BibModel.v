(** The bibliography: entries of YAML files with their ranges, and the merging
    of files.  crates/tinymist-query/src/analysis/bib.rs. *)
From Coq Require Import List Arith NArith Bool.
Import ListNotations.

(** Texts are lists of code points, crates/tinymist-query/src/analysis/bib.rs:53. *)
Definition text := list N.

(** Decidable equality of keys; the key type of the map of
    crates/tinymist-query/src/analysis/bib.rs:35. *)
Fixpoint text_eqb (a b : text) : bool :=
  match a, b with
  | [], [] => true
  | x :: a', y :: b' => N.eqb x y && text_eqb a' b'
  | _, _ => false
  end.

(** * The events of a YAML file *)

(** The events the loader tells apart, with the index of the mark (in
    characters); a mark of no use is left out.
    crates/tinymist-query/src/analysis/bib.rs:113-144. *)
Inductive event := MapStart | Scalar (s : text) (at_ : nat) | MapEnd (at_ : nat) | Other.

(** [BibSpanned<String>], crates/tinymist-query/src/analysis/bib.rs:99-103. *)
Record named := { value : text; from_ : nat; to_ : nat }.

(** [YamlBibLoader]; the content in order.
    crates/tinymist-query/src/analysis/bib.rs:105-111. *)
Record loader := { depth : nat; start : option named; key : option named; found : list (named * (nat * nat)) }.

(** crates/tinymist-query/src/analysis/bib.rs:105,155 *)
Definition fresh : loader := {| depth := 0; start := None; key := None; found := [] |}.

(** [on_event]; [None] is the subtraction below zero.
    crates/tinymist-query/src/analysis/bib.rs:113-144. *)
Definition on_event (l : loader) (e : event) : option loader :=
  match e with
  | MapStart =>
      Some (if depth l =? 1
            then {| depth := S (depth l); start := key l; key := None; found := found l |}
            else {| depth := S (depth l); start := start l; key := key l; found := found l |})
  | Scalar s a =>
      Some (if depth l =? 1
            then {| depth := depth l; start := start l; key := Some {| value := s; from_ := a; to_ := a + length s |}; found := found l |}
            else l)
  | MapEnd a =>
      match depth l with
      | 0 => None
      | S d =>
          Some (if d =? 1
                then {| depth := d; start := None; key := key l;
                        found := match start l with Some n => found l ++ [(n, (from_ n, a))] | None => found l end |}
                else {| depth := d; start := start l; key := key l; found := found l |})
      end
  | Other => Some l
  end.

(** The parser sends its events one by one until it ends or fails,
    crates/tinymist-query/src/analysis/bib.rs:154-156. *)
Fixpoint load (l : loader) (es : list event) : option loader :=
  match es with
  | [] => Some l
  | e :: es' => match on_event l e with Some l' => load l' es' | None => None end
  end.

(** * Offsets *)

(** [len_utf8], crates/tinymist-query/src/analysis/bib.rs:177. *)
Definition len_utf8 (c : N) : nat :=
  if N.ltb c 128 then 1 else if N.ltb c 2048 then 2 else if N.ltb c 65536 then 3 else 4.

(** [sort_by_key], crates/tinymist-query/src/analysis/bib.rs:165. *)
Fixpoint insert (n : nat) (l : list nat) : list nat :=
  match l with [] => [n] | x :: l' => if n <=? x then n :: l else x :: insert n l' end.
(** crates/tinymist-query/src/analysis/bib.rs:165 *)
Definition sort (l : list nat) : list nat := fold_right insert [] l.

(** [dedup_by_key], crates/tinymist-query/src/analysis/bib.rs:166. *)
Fixpoint dedup (l : list nat) : list nat :=
  match l with
  | x :: l' => match dedup l' with y :: r => if x =? y then y :: r else x :: y :: r | [] => [x] end
  | [] => []
  end.

(** The offsets asked for, crates/tinymist-query/src/analysis/bib.rs:159-166. *)
Definition asked (fs : list (named * (nat * nat))) : list nat :=
  dedup (sort (flat_map (fun f => [from_ (fst f); to_ (fst f); fst (snd f); snd (snd f)]) fs)).

(** The loop with its cursor: [offs] are the offsets from the cursor on; the
    result is the map of those met.
    crates/tinymist-query/src/analysis/bib.rs:167-184. *)
Fixpoint scan (idx utf8 : nat) (offs : list nat) (cs : text) : list (nat * nat) :=
  match cs with
  | [] => []
  | c :: cs' =>
      match offs with
      | o :: offs' =>
          if idx =? o then (o, utf8) :: scan (S idx) (utf8 + len_utf8 c) offs' cs'
          else scan (S idx) (utf8 + len_utf8 c) offs cs'
      | [] => []
      end
  end.

(** crates/tinymist-query/src/analysis/bib.rs:187-189 *)
Fixpoint get (m : list (nat * nat)) (n : nat) : option nat :=
  match m with [] => None | (k, v) :: m' => if k =? n then Some v else get m' n end.

(** [map_range], crates/tinymist-query/src/analysis/bib.rs:185-191. *)
Definition map_range (m : list (nat * nat)) (r : nat * nat) : option (nat * nat) :=
  match get m (fst r) with
  | Some a => match get m (snd r) with Some b => Some (a, b) | None => None end
  | None => None
  end.

(** [BibEntry]; the file and the entry of hayagriva are numbers.
    crates/tinymist-query/src/analysis/bib.rs:38-44. *)
Record entry := { file : nat; name_range : nat * nat; range : nat * nat; raw : option nat }.

(** [to_entry], crates/tinymist-query/src/analysis/bib.rs:192-202. *)
Definition to_entry (f : nat) (m : list (nat * nat)) (x : named * (nat * nat)) : option (text * entry) :=
  match map_range m (from_ (fst x), to_ (fst x)) with
  | Some nr =>
      match map_range m (snd x) with
      | Some r => Some (value (fst x), {| file := f; name_range := nr; range := r; raw := None |})
      | None => None
      end
  | None => None
  end.

(** [filter_map], crates/tinymist-query/src/analysis/bib.rs:204. *)
Fixpoint filter_map {A B} (g : A -> option B) (l : list A) : list B :=
  match l with [] => [] | x :: l' => match g x with Some y => y :: filter_map g l' | None => filter_map g l' end end.

(** [YamlBib::from_content], from the events of the parser;
    the chained character is of one byte.
    crates/tinymist-query/src/analysis/bib.rs:153-206. *)
Definition from_content (f : nat) (content : text) (es : list event) : option (list (text * entry)) :=
  match load fresh es with
  | None => None
  | Some l => Some (filter_map (to_entry f (scan 0 0 (asked (found l)) (content ++ [0%N]))) (found l))
  end.

(** * Files *)

(** [IndexMap::insert]: a known key keeps its place.
    crates/tinymist-query/src/analysis/bib.rs:82,94. *)
Fixpoint put {A} (k : text) (e : A) (m : list (text * A)) : list (text * A) :=
  match m with
  | [] => [(k, e)]
  | (k', e') :: m' => if text_eqb k k' then (k', e) :: m' else (k', e') :: put k e m'
  end.
(** crates/tinymist-query/src/analysis/bib.rs:71-75 *)
Fixpoint set_raw (k : text) (r : nat) (m : list (text * entry)) : list (text * entry) :=
  match m with
  | [] => []
  | (k', e) :: m' =>
      if text_eqb k k' then (k', {| file := file e; name_range := name_range e; range := range e; raw := Some r |}) :: m'
      else (k', e) :: set_raw k r m'
  end.

(** What a file gives: [entries] are its entries with their ranges ([None]: its
    kind is unknown, it is not UTF-8, or biblatex cannot parse it), [bib] the
    entries of hayagriva ([None]: it fails).
    crates/tinymist-query/src/analysis/bib.rs:51-69. *)
Record source := { entries : option (list (text * entry)); bib : option (list (text * nat)) }.

(** [analyze_path], crates/tinymist-query/src/analysis/bib.rs:51-96. *)
Definition analyze (m : list (text * entry)) (s : source) : list (text * entry) :=
  match entries s with
  | None => m
  | Some es =>
      let m1 := fold_left (fun m x => put (fst x) (snd x) m) es m in
      match bib s with
      | None => m1
      | Some bs => fold_left (fun m x => set_raw (fst x) (snd x) m) bs m1
      end
  end.

(** [bib_info], crates/tinymist-query/src/analysis/bib.rs:7-27. *)
Definition bib_info (ss : list source) : list (text * entry) := fold_left analyze ss [].

(** How the kind of a file is found: [yml], [yaml], [bib] in any case (ASCII;
    no other character has a lower case in these).
    crates/tinymist-query/src/analysis/bib.rs:52-69. *)
Inductive kind := Yaml | Tex.
(** crates/tinymist-query/src/analysis/bib.rs:56 *)
Definition lower (c : N) : N := if N.leb 65 c && N.leb c 90 then (c + 32)%N else c.
(** crates/tinymist-query/src/analysis/bib.rs:52-69 *)
Definition kind_of (ext : option text) : option kind :=
  match ext with
  | None => None
  | Some e =>
      let e := map lower e in
      if text_eqb e [121; 109; 108]%N || text_eqb e [121; 97; 109; 108]%N then Some Yaml
      else if text_eqb e [98; 105; 98]%N then Some Tex else None
  end.

(** A file as it is read; the results of the parsers are given.
    crates/tinymist-query/src/analysis/bib.rs:51-69,80-96. *)
Record input := {
  id : nat; ext : option text; content : option text; events : list event;
  tex : option (list (text * (nat * nat) * (nat * nat))); hayagriva : option (list (text * nat)) }.

(** crates/tinymist-query/src/analysis/bib.rs:51-69,80-96; [None] is a panic. *)
Definition read (i : input) : option source :=
  match kind_of (ext i), content i with
  | Some Yaml, Some c =>
      match from_content (id i) c (events i) with
      | Some es => Some {| entries := Some es; bib := hayagriva i |}
      | None => None
      end
  | Some Tex, Some c =>
      Some {| entries := option_map (map (fun x => (fst (fst x), {| file := id i; name_range := snd (fst x); range := snd x; raw := None |}))) (tex i);
              bib := hayagriva i |}
  | _, _ => Some {| entries := None; bib := None |}
  end.

(** The whole, crates/tinymist-query/src/analysis/bib.rs:7-27. *)
Fixpoint reads (is : list input) : option (list source) :=
  match is with
  | [] => Some []
  | i :: is' => match read i with Some s => match reads is' with Some ss => Some (s :: ss) | None => None end | None => None end
  end.
(** crates/tinymist-query/src/analysis/bib.rs:7-27 *)
Definition info (is : list input) : option (list (text * entry)) := option_map bib_info (reads is).
