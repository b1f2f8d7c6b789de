(** Model of the labels of a workspace: crates/tinymist-query/src/workspace_label.rs, on the hierarchy of [LexModel]. *)
From Coq Require Import List Arith Bool.
From Verif Require Import LexModel.
Import ListNotations.

(** A source file of the workspace (workspace_label.rs:24-30): its source if it can be read (workspace_label.rs:25), and its address if it has one (workspace_label.rs:28). *)
Record file := mkFile { f_source : option node; f_uri : option nat }.
(** [SymbolInformation] (lsp_types), workspace_label.rs:65-75, with the range in the source (the conversion is in [TextModel]); the kind is always that of labels. *)
Record label := mkLabel { l_name : nat; l_uri : nat; l_range : nat * nat }.
(** workspace_label.rs:53-57: an item and its children. *)
Definition two (h : hier) : list info := match h with Hier i cs => i :: map (fun c => match c with Hier j _ => j end) cs end.
(** workspace_label.rs:58-76: a label, or none; [try_into().unwrap()] does not panic for the kind of labels (lexical_hierarchy.rs:93-105). *)
Definition one (uri : nat) (i : info) : list label :=
  match i_kind i with LLabel => [mkLabel (i_name i) uri (i_range i)] | _ => [] end.
(** workspace_label.rs:45-78 [filter_document_labels]. *)
Definition filter_document_labels (uri : nat) (hs : list hier) : list label := flat_map (one uri) (flat_map two hs).
(** workspace_label.rs:24-38: one file; [None] is a panic in [get_lexical_hierarchy]. *)
Definition of_file (f : file) : option (list label) :=
  match f_source f with
  | None => Some []
  | Some root =>
      match f_uri f with
      | None => Some []
      | Some uri => match get_lexical_hierarchy Symbol root with None => None | Some hs => Some (filter_document_labels uri hs) end
      end
  end.
(** workspace_label.rs:19-41 [WorkspaceLabelRequest::request]. *)
Fixpoint workspace_labels (files : list file) : option (list label) :=
  match files with
  | [] => Some []
  | f :: r => match of_file f with None => None | Some a => match workspace_labels r with None => None | Some b => Some (a ++ b) end end
  end.
