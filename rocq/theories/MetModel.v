(** * Model of the metrics of a document

    crates/tinymist-query/src/document_metrics.rs 99-260: the fonts a document
    uses, how many glyphs of each, and where each first occurs.

    Simplifications.  A font is a number, and so is the file it comes from.
    Frames are trees of text items, groups and other items.  Looking at
    sources (Typst's [Source]) is an oracle.  The order of the map of fonts,
    which the hash decides, is an arbitrary rearrangement given to [compute].
    Names and styles of fonts are left out: they are copied from the font. *)

From Coq Require Import List Arith NArith Bool.
Import ListNotations.

(** Where a text begins: a line and a column of a file
    (crates/tinymist-query/src/document_metrics.rs 126-133). *)
Record place := mkPlace { p_file : nat; p_line : N; p_column : N }.

(** The span of a glyph: the span and the offset into it
    (crates/tinymist-query/src/document_metrics.rs 181). *)
Record glyph := mkGlyph { g_span : nat; g_offset : nat }.

(** Items of a frame (crates/tinymist-query/src/document_metrics.rs 159-169). *)
Inductive item :=
  | Text (font : nat) (glyphs : list glyph)
  | Group (items : list item)
  | Other.

(** Documents (crates/tinymist-query/src/document_metrics.rs 138-150). *)
Inductive document := Paged (pages : list (list item)) | Html.

(** What the world tells about spans and files: the file of a span, if it has
    one; whether the file can be read; the range of the span in it; the line
    and the column of a byte; and the path of the file
    (crates/tinymist-query/src/document_metrics.rs 206-221). *)
Record env := mkEnv {
  span_id : nat -> option nat;
  readable : nat -> bool;
  range : nat -> option (nat * nat);
  line_of : nat -> nat -> option N;
  column_of : nat -> nat -> option N;
  path_of : nat -> option nat;
  font_source : nat -> option nat }.

(** Largest value of the counter (a [u32];
    crates/tinymist-query/src/document_metrics.rs 127). *)
Definition max_uses : N := 4294967295.

(** [source_code_file_line]: the byte is the start of the span plus the
    offset, but before the end of the span
    (crates/tinymist-query/src/document_metrics.rs 206-221).  The line and
    column start from one; [range.end - 1] wraps around for a span that ends
    at zero (release build), and then there is no limit. *)
Definition locate (v : env) (g : glyph) : option place :=
  match span_id v (g_span g) with
  | None => None
  | Some id =>
      if readable v id then
        match range v (g_span g) with
        | None => None
        | Some (s, e) =>
            let b := s + g_offset g in
            let b := match e with 0 => b | S e' => Nat.min b e' end in
            match line_of v id b, column_of v id b, path_of v id with
            | Some l, Some c, Some p => Some (mkPlace p (l + 1) (c + 1))
            | _, _, _ => None
            end
        end
      else None
  end.

(** The facts about a font (crates/tinymist-query/src/document_metrics.rs
    125-131; the three optional fields are set together). *)
Record info := mkInfo { uses : N; first : option place }.

(** The map of fonts (crates/tinymist-query/src/document_metrics.rs 136). *)
Definition fonts := list (nat * info).

(** Looks a font up (crates/tinymist-query/src/document_metrics.rs 175). *)
Fixpoint get (f : nat) (m : fonts) : option info :=
  match m with
  | [] => None
  | (g, i) :: m' => if Nat.eqb g f then Some i else get f m'
  end.

(** Inserts or replaces a font
    (crates/tinymist-query/src/document_metrics.rs 185 and 198). *)
Fixpoint put (f : nat) (i : info) (m : fonts) : fonts :=
  match m with
  | [] => [(f, i)]
  | (g, j) :: m' => if Nat.eqb g f then (g, i) :: m' else (g, j) :: put f i m'
  end.

(** The first part of [work_text]: the place of the first glyph, if the font
    has none yet (crates/tinymist-query/src/document_metrics.rs 172-196). *)
Definition note (v : env) (f : nat) (gs : list glyph) (m : fonts) : fonts :=
  match match get f m with Some i => first i | None => None end, gs with
  | None, g :: _ =>
      match locate v g with
      | Some p => put f (mkInfo (match get f m with Some i => uses i | None => 0 end) (Some p)) m
      | None => m
      end
  | _, _ => m
  end.

(** [work_text] (crates/tinymist-query/src/document_metrics.rs 171-204). *)
Definition work_text (v : env) (f : nat) (gs : list glyph) (m : fonts) : option fonts :=
  let m := note v f gs m in
  let i := match get f m with Some i => i | None => mkInfo 0 None end in
  let n := (uses i + N.of_nat (length gs) mod 4294967296)%N in
  if (n <=? max_uses)%N then Some (put f (mkInfo n (first i)) m) else None.

(** [work_elem] and [work_frame]
    (crates/tinymist-query/src/document_metrics.rs 151-169). *)
Fixpoint work_elem (v : env) (x : item) (m : fonts) : option fonts :=
  match x with
  | Text f gs => work_text v f gs m
  | Group xs =>
      (fix go (xs : list item) (m : fonts) : option fonts :=
         match xs with
         | [] => Some m
         | x :: xs' => match work_elem v x m with Some m' => go xs' m' | None => None end
         end) xs m
  | Other => Some m
  end.

(** [work_frame] (crates/tinymist-query/src/document_metrics.rs 151-157). *)
Fixpoint work_frame (v : env) (xs : list item) (m : fonts) : option fonts :=
  match xs with
  | [] => Some m
  | x :: xs' => match work_elem v x m with Some m' => work_frame v xs' m' | None => None end
  end.

(** [work] (crates/tinymist-query/src/document_metrics.rs 138-150). *)
Fixpoint work_pages (v : env) (ps : list (list item)) (m : fonts) : option fonts :=
  match ps with
  | [] => Some m
  | p :: ps' => match work_frame v p m with Some m' => work_pages v ps' m' | None => None end
  end.

(** [internal_source]: the place of a file in the list of files
    (crates/tinymist-query/src/document_metrics.rs 223-231; the map from files
    to places and the list are one here). *)
Fixpoint intern (x : nat) (l : list nat) : nat * list nat :=
  match l with
  | [] => (0, [x])
  | y :: l' => if Nat.eqb y x then (0, l) else let (n, l'') := intern x l' in (S n, y :: l'')
  end.

(** One row of the answer (crates/tinymist-query/src/document_metrics.rs 38-75). *)
Record row := mkRow { r_font : nat; r_source : option nat; r_uses : N; r_first : option place }.

(** [compute] (crates/tinymist-query/src/document_metrics.rs 233-259). *)
Fixpoint compute (v : env) (m : fonts) (l : list nat) : list row * list nat :=
  match m with
  | [] => ([], l)
  | (f, i) :: m' =>
      let (src, l) := match font_source v f with
                      | Some x => let (n, l') := intern x l in (Some n, l')
                      | None => (None, l) end in
      let (rows, l) := compute v m' l in
      (mkRow f src (uses i) (first i) :: rows, l)
  end.

(** The request: the rows and the list of files.  [order] rearranges the map
    (crates/tinymist-query/src/document_metrics.rs 99-124). *)
Definition request (v : env) (order : fonts -> fonts) (d : document)
  : option (list row * list nat) :=
  match d with
  | Html => None
  | Paged ps =>
      match work_pages v ps [] with
      | None => None
      | Some m => Some (compute v (order m) [])
      end
  end.
