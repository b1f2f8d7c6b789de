(** Model of source texts, LSP position conversion and incremental edits.

    Modelled code:
    - crates/tinymist-analysis/src/location.rs
    - crates/tinymist/src/input.rs (edit_source)
    - typst-syntax 0.13 [Source] (external crate; its line index and
      conversions are transcribed here because location.rs is a thin layer on
      top of them).

    A text is a list of Unicode scalar values ([N]); Rust's [usize]/[u32] are
    [nat] (no text of 4 GiB or more: the [as u32] casts in location.rs are the
    identity). *)
From Coq Require Import List NArith Arith Bool.
Import ListNotations.

(** Unicode scalar values, crates/tinymist-analysis/src/location.rs:57-59. *)
Definition char := N.
(** A text as its characters, crates/tinymist-analysis/src/location.rs:57-59. *)
Notation text := (list char).

(** [char::len_utf8] (Rust core): for location.rs:60-62. *)
Definition len8c (c : char) : nat :=
  if (c <? 128)%N then 1 else if (c <? 2048)%N then 2
  else if (c <? 65536)%N then 3 else 4.

(** [char::len_utf16] (Rust core): location.rs:57-59. *)
Definition len16c (c : char) : nat := if (c <? 65536)%N then 1 else 2.

(** [str::len] of a text; also [Source::len_bytes]: location.rs:60-62,122. *)
Fixpoint len8 (t : text) : nat :=
  match t with [] => 0 | c :: r => len8c c + len8 r end.

(** [text.chars().map(char::len_utf16).sum()], location.rs:57-59. *)
Fixpoint len16 (t : text) : nat :=
  match t with [] => 0 | c :: r => len16c c + len16 r end.

(** Line feed, for the line index behind location.rs:46. *)
Definition LF : char := 10%N.
(** Carriage return, for the line index behind location.rs:46. *)
Definition CR : char := 13%N.

(** typst-syntax [is_newline] (external): LF, VT, FF, CR, NEL, LS, PS: behind location.rs:46,128. *)
Definition is_newline (c : char) : bool :=
  ((c =? 10) || (c =? 11) || (c =? 12) || (c =? 13) || (c =? 133)
   || (c =? 8232) || (c =? 8233))%N.

(** One entry of typst's line index (external: [Line { byte_idx, utf16_idx }]):
    behind location.rs:46. *)
Record line := mkLine { l_byte : nat; l_utf16 : nat }.

(** typst-syntax [lines_from] (external): scan to the next newline; CR LF is a
    single line terminator: behind location.rs:46. *)
Fixpoint lines_from (b u : nat) (t : text) {struct t} : list line :=
  match t with
  | [] => []
  | c :: r =>
      if is_newline c then
        match r with
        | d :: r' =>
            if ((c =? CR) && (d =? LF))%N
            then mkLine (b + 2) (u + 2) :: lines_from (b + 2) (u + 2) r'
            else mkLine (b + len8c c) (u + len16c c)
                   :: lines_from (b + len8c c) (u + len16c c) r
        | [] => [mkLine (b + len8c c) (u + len16c c)]
        end
      else lines_from (b + len8c c) (u + len16c c) r
  end.

(** typst-syntax [lines] (external): behind location.rs:46. *)
Definition lines (t : text) : list line := mkLine 0 0 :: lines_from 0 0 t.

(** [Source::len_lines] (external): used at location.rs:46. *)
Definition len_lines (t : text) : nat := length (lines t).

(** Split a text at a byte offset; [None] when the offset is past the end or
    not on a character boundary ([str::get] returns [None]): slicing at location.rs:54. *)
Fixpoint split_byte (n : nat) (t : text) : option (text * text) :=
  match n with
  | 0 => Some ([], t)
  | _ =>
      match t with
      | [] => None
      | c :: r =>
          if len8c c <=? n then
            match split_byte (n - len8c c) r with
            | Some (p, s) => Some (c :: p, s)
            | None => None
            end
          else None
      end
  end.

(** [text.get(a..b)] (Rust core): used at location.rs:54. *)
Definition get_range (t : text) (a b : nat) : option text :=
  if b <? a then None
  else match split_byte a t with
       | Some (_, s) =>
           match split_byte (b - a) s with
           | Some (m, _) => Some m
           | None => None
           end
       | None => None
       end.

(** Result of [binary_search_by_key] followed by [Ok(i) => i, Err(i) => i - 1]
    on the (strictly increasing) line index: the last line whose key is not
    after the wanted one.  The first line has key 0, so it always exists: for location.rs:128. *)
Definition count_le (key : line -> nat) (x : nat) (ls : list line) : nat :=
  length (filter (fun l => key l <=? x) ls).
(** Line search behind location.rs:110,128. *)
Definition search_line (key : line -> nat) (x : nat) (ls : list line) : nat :=
  count_le key x ls - 1.

(** [Source::byte_to_line] (external): used at location.rs:128. *)
Definition byte_to_line (t : text) (b : nat) : option nat :=
  if b <=? len8 t then Some (search_line l_byte b (lines t)) else None.

(** [Source::line_to_byte] (external): used at location.rs:53,109,144. *)
Definition line_to_byte (t : text) (l : nat) : option nat :=
  option_map l_byte (nth_error (lines t) l).

(** [Source::byte_to_column] (external): counts characters: used at location.rs:129. *)
Definition byte_to_column (t : text) (b : nat) : option nat :=
  match byte_to_line t b with
  | None => None
  | Some l =>
      match line_to_byte t l with
      | None => None
      | Some st =>
          match get_range t st b with
          | None => None
          | Some h => Some (length h)
          end
      end
  end.

(** [Source::byte_to_utf16] (external): used at location.rs:110,142,145. *)
Definition byte_to_utf16 (t : text) (b : nat) : option nat :=
  match byte_to_line t b with
  | None => None
  | Some l =>
      match nth_error (lines t) l with
      | None => None
      | Some ln =>
          match get_range t (l_byte ln) b with
          | None => None
          | Some h => Some (l_utf16 ln + len16 h)
          end
      end
  end.

(** The scanning loop of [Source::utf16_to_byte] (external). [b]/[k] are the
    byte and UTF-16 offsets reached: for location.rs:113. *)
Fixpoint utf16_scan (target b k : nat) (t : text) : option nat :=
  match t with
  | [] => if k =? target then Some b else None
  | c :: r => if target <=? k then Some b
              else utf16_scan target (b + len8c c) (k + len16c c) r
  end.

(** [Source::utf16_to_byte] (external).  At the end of the text [b] is the
    length of the text: used at location.rs:113. *)
Definition utf16_to_byte (t : text) (x : nat) : option nat :=
  match nth_error (lines t) (search_line l_utf16 x (lines t)) with
  | None => None
  | Some ln =>
      match split_byte (l_byte ln) t with
      | None => None
      | Some (_, s) => utf16_scan x (l_byte ln) (l_utf16 ln) s
      end
  end.

(** [Source::line_column_to_byte] (external): advance [col] characters inside
    the line (terminator included), stopping at its end: used at location.rs:85. *)
Definition line_column_to_byte (t : text) (l col : nat) : option nat :=
  match line_to_byte t l with
  | None => None
  | Some st =>
      let en := match line_to_byte t (l + 1) with Some e => e | None => len8 t end in
      match get_range t st en with
      | None => None
      | Some h => Some (st + len8 (firstn col h))
      end
  end.

(** crates/tinymist-analysis/src/location.rs:17-29 *)
Inductive encoding := Utf8 | Utf16.

(** LSP position (line, character): parameter of location.rs:41. *)
Record pos := mkPos { p_line : nat; p_char : nat }.

(** crates/tinymist-analysis/src/location.rs:40-116 [to_typst_position].
    Logging is dropped. *)
Definition to_typst_position (p : pos) (e : encoding) (t : text) : option nat :=
  let lns := len_lines t in
  let convert :=
    match e with
    | Utf8 => line_column_to_byte t (p_line p) (p_char p)
    | Utf16 =>
        match line_to_byte t (p_line p) with
        | None => None
        | Some bl =>
            match byte_to_utf16 t bl with
            | None => None
            | Some ul => utf16_to_byte t (ul + p_char p)
            end
        end
    end in
  if p_line p <? lns then
    if p_line p + 1 =? lns then
      match line_to_byte t (lns - 1) with
      | None => None
      | Some off =>
          match split_byte off t with
          | None => None
          | Some (_, last) =>
              let len := match e with Utf8 => len8 last | Utf16 => len16 last end in
              if p_char p <? len then convert else Some (len8 t)
          end
      end
    else convert
  else Some (len8 t).

(** crates/tinymist-analysis/src/location.rs:118-153 [to_lsp_position]; [None]
    stands for the panics of the four [unwrap]s. *)
Definition to_lsp_position (o : nat) (e : encoding) (t : text) : option pos :=
  if len8 t <? o then Some (mkPos (len_lines t) 0)
  else
    match byte_to_line t o, byte_to_column t o with
    | Some l, Some col =>
        match e with
        | Utf8 => Some (mkPos l col)
        | Utf16 =>
            match byte_to_utf16 t o, line_to_byte t l with
            | Some u, Some bl =>
                match byte_to_utf16 t bl with
                | Some ul => Some (mkPos l (u - ul))
                | None => None
                end
            | _, _ => None
            end
        end
    | _, _ => None
    end.

(** LSP range: parameter of location.rs:156. *)
Record range := mkRange { r_start : pos; r_end : pos }.

(** crates/tinymist-analysis/src/location.rs:155-171 [to_typst_range]. *)
Definition to_typst_range (r : range) (e : encoding) (t : text) : option (nat * nat) :=
  match to_typst_position (r_start r) e t with
  | None => None
  | Some a =>
      match to_typst_position (r_end r) e t with
      | None => None
      | Some b => Some (a, b)
      end
  end.

(** crates/tinymist-analysis/src/location.rs:173-186 [to_lsp_range]; [None] is a
    panic. *)
Definition to_lsp_range (a b : nat) (t : text) (e : encoding) : option range :=
  match to_lsp_position a e t, to_lsp_position b e t with
  | Some x, Some y => Some (mkRange x y)
  | _, _ => None
  end.

(** [Source::edit] (external): replace a byte range.  [None] is the panic of
    slicing at a non-boundary or with a reversed range: used at crates/tinymist/src/input.rs:69. *)
Definition source_edit (t : text) (a b : nat) (new : text) : option text :=
  if b <? a then None
  else match split_byte a t, split_byte b t with
       | Some (p, _), Some (_, s) => Some (p ++ new ++ s)
       | _, _ => None
       end.

(** One [TextDocumentContentChangeEvent]: parameter of crates/tinymist/src/input.rs:55. *)
Record change := mkChange { c_range : option range; c_text : text }.

(** Body of the loop in crates/tinymist/src/input.rs:63-75.  [None] is a panic
    ([expect("invalid range")] or the one inside [source.edit]).
    [Source::replace] is taken to install exactly the new text. *)
Definition apply_change (e : encoding) (t : text) (c : change) : option text :=
  match c_range c with
  | Some r =>
      match to_typst_range r e t with
      | Some (a, b) => source_edit t a b (c_text c)
      | None => None
      end
  | None => Some (c_text c)
  end.

(** crates/tinymist/src/input.rs:63-75 *)
Fixpoint apply_changes (e : encoding) (t : text) (cs : list change) : option text :=
  match cs with
  | [] => Some t
  | c :: r =>
      match apply_change e t c with
      | Some t' => apply_changes e t' r
      | None => None
      end
  end.

(** Outcome of an operation of the document store: results of crates/tinymist/src/input.rs:27-82. *)
Inductive outcome (A : Type) := Done (a : A) | Error | Panic.
Arguments Done {A} a.
Arguments Error {A}.
Arguments Panic {A}.

(** [memory_changes] of crates/tinymist/src/server.rs: open documents. *)
Definition docs := list (nat * text).
(** [memory_changes.get], crates/tinymist/src/input.rs:58-61. *)
Fixpoint doc_get (p : nat) (d : docs) : option text :=
  match d with
  | [] => None
  | (q, t) :: r => if p =? q then Some t else doc_get p r
  end.
(** [memory_changes.remove], crates/tinymist/src/input.rs:42. *)
Definition doc_remove (p : nat) (d : docs) : docs :=
  filter (fun x => negb (p =? fst x)) d.
(** [memory_changes.insert], crates/tinymist/src/input.rs:29-30. *)
Definition doc_insert (p : nat) (t : text) (d : docs) : docs := (p, t) :: doc_remove p d.

(** Document notifications and the content pushed to the compiler with them:
    crates/tinymist/src/lsp.rs:87-113. *)
Inductive doc_event :=
| DidOpen (p : nat) (t : text)
| DidChange (p : nat) (cs : list change)
| DidClose (p : nat).

(** A pushed [FileChangeSet]: one insert or one remove: crates/tinymist/src/input.rs:35,46,79. *)
Inductive push := PushInsert (p : nat) (t : text) | PushRemove (p : nat).

(** crates/tinymist/src/input.rs:26-82 create_source / remove_source /
    edit_source, as called by crates/tinymist/src/lsp.rs:84-111.  Paths are
    numbers. *)
Definition doc_step (e : encoding) (d : docs) (ev : doc_event) : outcome (docs * push) :=
  match ev with
  | DidOpen p t => Done (doc_insert p t d, PushInsert p t)
  | DidClose p => Done (doc_remove p d, PushRemove p)
  | DidChange p cs =>
      match doc_get p d with
      | None => Error
      | Some t =>
          match apply_changes e t cs with
          | Some t' => Done (doc_insert p t' d, PushInsert p t')
          | None => Panic
          end
      end
  end.

(** A sequence of document notifications handled one after the other
    (crates/tinymist/src/lsp.rs:84-111), collecting what is pushed to the
    compiler; the encoding is the default UTF-16. *)
Fixpoint doc_run (s : docs) (evs : list doc_event) : outcome (docs * list push) :=
  match evs with
  | [] => Done (s, [])
  | ev :: r =>
      match doc_step Utf16 s ev with
      | Done (s', pu) =>
          match doc_run s' r with
          | Done (s'', pus) => Done (s'', pu :: pus)
          | Error => Error
          | Panic => Panic
          end
      | Error => Error
      | Panic => Panic
      end
  end.
