(** Model of the fonts of a world: crates/tinymist-world/src/font/{slot,loader,memory,system,resolver}.rs and
    crates/tinymist-std/src/concepts/query.rs. *)
From Coq Require Import List Arith Bool.
Import ListNotations.

(** Contents of files and buffers ([Bytes], memory.rs:37,51), up to equality. *)
Definition bytes := nat.
(** Paths, from the root or relative (system.rs:130), as lists of names. *)
Inductive path := Abs (l : list nat) | Rel (l : list nat).
(** [FontInfo] (typst), resolver.rs:4: a name, and the code points that the font covers in ascending order (resolver.rs:50). *)
Record info := mkInfo { i_name : nat; i_coverage : list nat }.
(** [Font] (typst): the data and the index are what makes fonts equal, resolver.rs:165. *)
Record font := mkFont { f_data : bytes; f_index : nat }.
(** [DataSource], memory.rs:41-43, system.rs:92-94. *)
Inductive desc := Memory | Fs (p : path).
(** Where a loader reads: a buffer (loader.rs:12-15) or a file (loader.rs:24-27). *)
Inductive source := Buffer (b : bytes) | File (p : path).
(** loader.rs:12-27: the source is taken by the first load. *)
Record loader := mkLoader { l_source : option source; l_index : nat }.
(** [QueryRef], query.rs:11-15: the loader and the result. *)
Record cell := mkCell { c_ctx : option loader; c_value : option (option font) }.
(** The cells that slots share by [Arc], slot.rs:18. *)
Definition heap := list cell.
(** [FontSlot], slot.rs:17-20. *)
Record slot := mkSlot { s_cell : nat; s_desc : option desc }.
(** The files, as they are at a time (loader.rs:40, system.rs:87,149-151). *)
Definition disk := path -> option bytes.

Section Fonts.
(** The faces that [fontdb] makes out of a file (system.rs:149-151); none if it is not a font. *)
Variable faces : bytes -> list nat.
(** [fonts_in_collection], 1 if there is none (memory.rs:57). *)
Variable count : bytes -> nat.
(** [FontInfo::new] (typst), memory.rs:63, system.rs:87. *)
Variable info_of : bytes -> nat -> option info.
(** Whether [Font::new] (typst) makes a font, loader.rs:19,41. *)
Variable valid : bytes -> nat -> bool.

(** [Font::new] (typst), loader.rs:19,41. *)
Definition font_new (b : bytes) (i : nat) : option font := if valid b i then Some (mkFont b i) else None.

(** ** Slots *)

(** loader.rs:17-21,37-43 [load]; the outer [None] is a panic in [take().unwrap()]. *)
Definition load (d : disk) (l : loader) : option (option font) :=
  match l_source l with
  | None => None
  | Some (Buffer b) => Some (font_new b (l_index l))
  | Some (File p) => Some (match d p with Some b => font_new b (l_index l) | None => None end)
  end.
(** query.rs:47-50 [compute_with_context] with slot.rs:60: the cell after it and the result; [None] is a panic. *)
Definition compute (d : disk) (c : cell) : option (cell * option font) :=
  match c_value c with
  | Some v => Some (c, v)
  | None =>
      match c_ctx c with
      | None => None
      | Some l => match load d l with Some v => Some (mkCell None (Some v), v) | None => None end
      end
  end.
(** Writing a cell, query.rs:48. *)
Fixpoint put (h : heap) (n : nat) (c : cell) : heap :=
  match h, n with [], _ => [] | _ :: r, O => c :: r | x :: r, S m => x :: put r m c end.
(** slot.rs:59-62 [get_or_init]; [None] is a panic. *)
Definition get_or_init (d : disk) (h : heap) (s : slot) : option (heap * option font) :=
  match nth_error h (s_cell s) with
  | None => None
  | Some c => match compute d c with Some (c', v) => Some (put h (s_cell s) c', v) | None => None end
  end.
(** slot.rs:68-73 [get_uninitialized], flattened as its users have it (resolver.rs:156,165). *)
Definition peek (h : heap) (s : slot) : option font :=
  match nth_error h (s_cell s) with Some c => match c_value c with Some v => v | None => None end | None => None end.
(** slot.rs:29-34 [new_boxed] with query.rs:31-36 [with_context]: a new cell. *)
Definition alloc (h : heap) (src : source) (i : nat) (dsc : desc) : heap * slot :=
  (h ++ [mkCell (Some (mkLoader (Some src) i)) None], mkSlot (length h) (Some dsc)).

(** ** Searching *)

(** [SystemFontSearcher] with its base, system.rs:18-27, memory.rs:13-15; faces in the database by path and index (system.rs:82-91). *)
Record searcher := mkSearcher { x_fonts : list (info * slot); x_paths : list path; x_db : list (path * nat) }.
(** system.rs:31-37 [new]. *)
Definition new_searcher : searcher := mkSearcher [] [] [].
(** system.rs:129-139 [record_path]. *)
Definition record_path (cwd : option (list nat)) (p : path) (x : searcher) : searcher :=
  mkSearcher (x_fonts x) (x_paths x ++ [match p with Abs _ => p | Rel l => match cwd with Some c => Abs (c ++ l) | None => p end end]) (x_db x).
(** The faces of a file in the database ([fontdb]'s [load_font_file]), system.rs:149-151. *)
Definition db_file (d : disk) (p : path) : list (path * nat) := match d p with Some b => map (fun i => (p, i)) (faces b) | None => [] end.
(** system.rs:146-152 [search_file]; the error is dropped (system.rs:54). *)
Definition search_file (cwd : option (list nat)) (d : disk) (p : path) (x : searcher) : searcher :=
  let x := record_path cwd p x in mkSearcher (x_fonts x) (x_paths x) (x_db x ++ db_file d p).
(** system.rs:142-146 [search_dir]; the files in the directory are given. *)
Definition search_dir (cwd : option (list nat)) (d : disk) (p : path) (files : list path) (x : searcher) : searcher :=
  let x := record_path cwd p x in mkSearcher (x_fonts x) (x_paths x) (x_db x ++ flat_map (db_file d) files).
(** system.rs:124-126 [search_system]; the files of the system are given. *)
Definition search_system (d : disk) (files : list path) (x : searcher) : searcher :=
  mkSearcher (x_fonts x) (x_paths x) (x_db x ++ flat_map (db_file d) files).
(** system.rs:79-99: the font of a face. *)
Definition flush_one (d : disk) (acc : heap * list (info * slot)) (f : path * nat) : heap * list (info * slot) :=
  match d (fst f) with
  | None => acc
  | Some b =>
      match info_of b (snd f) with
      | None => acc
      | Some i => let '(h, s) := alloc (fst acc) (File (fst f)) (snd f) (Fs (fst f)) in (h, snd acc ++ [(i, s)])
      end
  end.
(** system.rs:75-103 [flush]. *)
Definition flush (d : disk) (h : heap) (x : searcher) : heap * searcher :=
  let '(h, l) := fold_left (flush_one d) (x_db x) (h, x_fonts x) in (h, mkSearcher l (x_paths x) []).
(** memory.rs:61-73: the font of a buffer and an index. *)
Definition memory_one (b : bytes) (acc : heap * list (info * slot)) (i : nat) : heap * list (info * slot) :=
  match info_of b i with
  | None => acc
  | Some x => let '(h, s) := alloc (fst acc) (Buffer b) i Memory in (h, snd acc ++ [(x, s)])
  end.
(** system.rs:115-121 and memory.rs:35-40,51-78 [add_memory_fonts]; [None] is the panic at system.rs:117. *)
Definition add_memory_fonts (data : list bytes) (h : heap) (x : searcher) : option (heap * searcher) :=
  match x_db x with
  | _ :: _ => None
  | [] =>
      let '(h, l) := fold_left (fun acc b => fold_left (memory_one b) (seq 0 (count b)) acc) data (h, x_fonts x) in
      Some (h, mkSearcher l (x_paths x) [])
  end.
(** [CompileFontOpts], system.rs:45-73: paths of the user, with the files in them if they are directories (system.rs:51), the files of the
    system unless they are not wanted (system.rs:59), and the embedded fonts. *)
Record opts := mkOpts { o_paths : list (path * option (list path)); o_system : option (list path); o_embedded : list bytes }.
(** system.rs:45-73 [resolve_opts]. *)
Definition resolve_opts (cwd : option (list nat)) (d : disk) (o : opts) (h : heap) (x : searcher) : option (heap * searcher) :=
  let x := fold_left (fun x p => match snd p with Some files => search_dir cwd d (fst p) files x | None => search_file cwd d (fst p) x end) (o_paths o) x in
  let x := match o_system o with Some files => search_system d files x | None => x end in
  let '(h, x) := flush d h x in
  add_memory_fonts (o_embedded o) h x.

(** ** Resolving *)

(** [FontResolverImpl], resolver.rs:90-95. *)
Record resolver := mkResolver { r_paths : list path; r_book : list info; r_slots : list slot }.
(** system.rs:40-42 and memory.rs:81-85 [build]. *)
Definition build (x : searcher) : resolver := mkResolver (x_paths x) (map fst (x_fonts x)) (map snd (x_fonts x)).
(** resolver.rs:195-197 [font]; [None] is a panic. *)
Definition font_at (d : disk) (h : heap) (r : resolver) (i : nat) : option (heap * option font) :=
  match nth_error (r_slots r) i with Some s => get_or_init d h s | None => None end.
(** resolver.rs:191-193 [slot]. *)
Definition slot_at (r : resolver) (i : nat) : option slot := nth_error (r_slots r) i.
(** resolver.rs:143-148 [fonts]; [None] is a panic in [unwrap]. *)
Fixpoint zip_fonts (book : list info) (slots : list slot) : option (list (info * slot)) :=
  match slots with
  | [] => Some []
  | s :: r => match book with [] => None | i :: b => match zip_fonts b r with Some l => Some ((i, s) :: l) | None => None end end
  end.
(** resolver.rs:143-148 [fonts]. *)
Definition fonts (r : resolver) : option (list (info * slot)) := zip_fonts (r_book r) (r_slots r).
(** resolver.rs:151-156 [loaded_fonts], from an index. *)
Fixpoint loaded_from (h : heap) (n : nat) (l : list slot) : list (nat * font) :=
  match l with [] => [] | s :: r => match peek h s with Some f => [(n, f)] | None => [] end ++ loaded_from h (S n) r end.
(** resolver.rs:151-156 [loaded_fonts]. *)
Definition loaded_fonts (h : heap) (r : resolver) : list (nat * font) := loaded_from h 0 (r_slots r).
(** Equality of fonts (typst), resolver.rs:165. *)
Definition same_font (a b : font) : bool := (f_data a =? f_data b) && (f_index a =? f_index b).
(** resolver.rs:159-168 [describe_font]. *)
Definition describe_font (h : heap) (r : resolver) (f : font) : option desc :=
  match find (fun s => match peek h s with Some g => same_font g f | None => false end) (r_slots r) with Some s => s_desc s | None => None end.
(** resolver.rs:171-173 [describe_font_by_id]; the outer [None] is a panic. *)
Definition describe_font_by_id (r : resolver) (i : nat) : option (option desc) :=
  match nth_error (r_slots r) i with Some s => Some (s_desc s) | None => None end.
(** resolver.rs:45-60 [default_get_by_info]: the choice among the fonts that cover a code point (typst [select_fallback]) is given by [pick], on
    the indices of these fonts, of which there is at least one. *)
Variable pick : info -> list nat -> nat.
(** The code points that are characters ([char::from_u32]), resolver.rs:51. *)
Variable scalar : nat -> bool.
(** resolver.rs:48-52: the first code point that the font covers, or [c]; [None] is a panic in [from_u32(..).unwrap()]. *)
Definition alternative (i : info) : option nat :=
  match i_coverage i with
  | [] => Some 99
  | c :: _ => if scalar c then Some c else None
  end.
(** The fonts of the book that cover a code point (typst [select_fallback]), resolver.rs:54-57. *)
Fixpoint covering (n c : nat) (book : list info) : list nat :=
  match book with [] => [] | i :: r => (if existsb (Nat.eqb c) (i_coverage i) then [n] else []) ++ covering (S n) c r end.
(** resolver.rs:45-60; [None] is a panic. *)
Definition get_by_info (d : disk) (h : heap) (r : resolver) (i : info) : option (heap * option font) :=
  match alternative i with
  | None => None
  | Some c => match covering 0 c (r_book r) with [] => None | l => font_at d h r (nth (pick i l mod length l) l 0) end
  end.

(** ** Use *)

(** What happens to the fonts of a process: a font is asked for, files change, and slots are made (slot.rs:24-34). *)
Inductive event := Get (r : resolver) (i : nat) | Change (d : disk) | Make (src : source) (i : nat) (dsc : desc).
(** An event; [None] is a panic (resolver.rs:196). *)
Definition step (st : heap * disk) (e : event) : option ((heap * disk) * option (option font)) :=
  match e with
  | Get r i => match font_at (snd st) (fst st) r i with Some (h, f) => Some ((h, snd st), Some f) | None => None end
  | Change d => Some ((fst st, d), None)
  | Make src i dsc => Some ((fst (alloc (fst st) src i dsc), snd st), None)
  end.
(** Events in turn (resolver.rs:196, slot.rs:24). *)
Fixpoint run (st : heap * disk) (es : list event) : option (heap * disk) :=
  match es with [] => Some st | e :: r => match step st e with Some (st', _) => run st' r | None => None end end.
End Fonts.
