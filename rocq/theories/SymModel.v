(** Model of the symbols of a workspace: crates/tinymist-query/src/symbol.rs, on the hierarchy of [LexModel]. *)
From Coq Require Import List Arith Bool.
From Verif Require Import LexModel.
Import ListNotations.

(** symbol.rs:25-29: the pattern, as the names that contain it ([str::contains] at symbol.rs:79; names are those of [LexModel.info]). *)
Definition pattern := option (nat -> bool).
(** A file that the compilation depends on (symbol.rs:39-43): the address of the file if it has one (symbol.rs:43), and its source if it can be read (symbol.rs:40). *)
Record file := mkFile { f_uri : option nat; f_source : option node }.
(** [SymbolInformation] (lsp_types), symbol.rs:85-95, with the range in the source (the conversion is in [TextModel]). *)
Record symbol := mkSymbol { s_name : nat; s_kind : lkind; s_uri : nat; s_range : nat * nat }.
(** symbol.rs:73-77: an item and its children. *)
Definition two (h : hier) : list info := match h with Hier i cs => i :: map (fun c => match c with Hier j _ => j end) cs end.
(** symbol.rs:78-96: none, one symbol, or a panic ([None]) in [try_into().unwrap()] at symbol.rs:87 (lexical_hierarchy.rs:93-105). *)
Definition one (q : pattern) (uri : nat) (i : info) : option (list symbol) :=
  if match q with Some contains => negb (contains (i_name i)) | None => false end then Some []
  else if is_symbol (i_kind i) then Some [mkSymbol (i_name i) (i_kind i) uri (i_range i)] else None.
(** [flat_map] of a function that may panic, and [collect], symbol.rs:78-97. *)
Fixpoint each {A} (f : A -> option (list symbol)) (l : list A) : option (list symbol) :=
  match l with
  | [] => Some []
  | x :: r => match f x with None => None | Some a => match each f r with None => None | Some b => Some (a ++ b) end end
  end.
(** symbol.rs:64-98 [filter_document_symbols]. *)
Definition filter_document_symbols (q : pattern) (uri : nat) (hs : list hier) : option (list symbol) := each (one q uri) (flat_map two hs).
(** symbol.rs:39-57: one file; [None] is a panic, as in [uri_for_id(id).unwrap()] at symbol.rs:43. *)
Definition of_file (q : pattern) (f : file) : option (list symbol) :=
  match f_source f with
  | None => Some []
  | Some root =>
      match f_uri f with
      | None => None
      | Some uri => match get_lexical_hierarchy Symbol root with None => None | Some hs => filter_document_symbols q uri hs end
      end
  end.
(** symbol.rs:34-60 [SymbolRequest::request]. *)
Definition workspace_symbols (q : pattern) (files : list file) : option (list symbol) := each (of_file q) files.
