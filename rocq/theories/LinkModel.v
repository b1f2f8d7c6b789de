(** Links to files in a document: crates/tinymist-query/src/analysis/link_expr.rs,
    crates/tinymist-query/src/document_link.rs, and their edits when a file is
    renamed, crates/tinymist-query/src/rename.rs:197-235.
    The accessors of the syntax tree are those of typst: first or last child of a kind. *)
From Coq Require Import String.
From Coq Require Import List Arith NArith Bool.
From Verif Require Import DigModel PageModel PathModel EntryModel LocModel.
Import ListNotations.
Local Open Scope nat_scope.

(** Leaves: a string and its value, a name, trivia or keyword or error, another
    token, another expression.  crates/tinymist-query/src/analysis/link_expr.rs:77-90,104-131. *)
Inductive leaf := LStr (content : text) | LIdent (name : text) | LSkip | LTok | LExpr.
(** Inner nodes; crates/tinymist-query/src/analysis/link_expr.rs:77-91,100-175. *)
Inductive inner := ICall | IInclude | IField | IArgs | INamed | ISpread | IArray | IExpr | IPart.
(** The syntax tree with the lengths of leaves, crates/tinymist-query/src/analysis/link_expr.rs:74. *)
Inductive node := Leaf (k : leaf) (len : nat) | Inner (k : inner) (cs : list node).
(** The length of a node, crates/tinymist-query/src/analysis/link_expr.rs:179. *)
Fixpoint len (n : node) : nat :=
  match n with Leaf _ l => l | Inner _ cs => fold_right (fun c a => len c + a) 0 cs end.
(** The children with their offsets, crates/tinymist-query/src/analysis/link_expr.rs:93,178. *)
Fixpoint placed (off : nat) (cs : list node) : list (nat * node) :=
  match cs with [] => [] | c :: cs' => (off, c) :: placed (off + len c) cs' end.
(** [cast::<Expr>] is some, crates/tinymist-query/src/analysis/link_expr.rs:102,163. *)
Definition is_expr (n : node) : bool :=
  match n with
  | Leaf (LStr _) _ | Leaf (LIdent _) _ | Leaf LExpr _ => true
  | Inner (ICall | IInclude | IField | IArray | IExpr) _ => true
  | _ => false
  end.
(** [cast_first] of a kind, crates/tinymist-query/src/analysis/link_expr.rs:101,106,153. *)
Definition first_of (f : node -> bool) (l : list (nat * node)) : option (nat * node) := find (fun x => f (snd x)) l.
(** [cast_last] of a kind, crates/tinymist-query/src/analysis/link_expr.rs:85,113,144,154. *)
Definition last_of (f : node -> bool) (l : list (nat * node)) : option (nat * node) := find (fun x => f (snd x)) (rev l).
(** The name of an identifier, crates/tinymist-query/src/analysis/link_expr.rs:107-116. *)
Definition ident (n : node) : option text := match n with Leaf (LIdent x) _ => Some x | _ => None end.
(** Whether it is one, crates/tinymist-query/src/analysis/link_expr.rs:107-116. *)
Definition is_ident (n : node) : bool := match ident n with Some _ => true | None => false end.
(** Whether these are arguments, crates/tinymist-query/src/analysis/link_expr.rs:144. *)
Definition is_args (n : node) : bool := match n with Inner IArgs _ => true | _ => false end.
(** Whether a node is an argument, crates/tinymist-query/src/analysis/link_expr.rs:144,151. *)
Definition is_item (n : node) : bool := match n with Inner INamed _ | Inner ISpread _ => true | _ => is_expr n end.

(** [LinkTarget]; a link never has the variant of a URL.
    crates/tinymist-query/src/analysis/link_expr.rs:44-53. *)
Inductive target := TPackage (spec : text) | TPath (file : nat) (path : text).
(** [LinkObject]: range and target, and the place of the string in lieu of its span.
    crates/tinymist-query/src/analysis/link_expr.rs:33-42. *)
Record link := { l_start : nat; l_end : nat; l_target : target }.

(** [analyze_path_str]; [spec_ok] is whether a specification parses.
    crates/tinymist-query/src/analysis/link_expr.rs:177-203. *)
Definition path_str (spec_ok : text -> bool) (file : nat) (x : nat * node) : list link :=
  match snd x with
  | Leaf (LStr content) n =>
      let s := fst x + 1 in
      let e := fst x + n - 1 in
      if e <=? s then []
      else if match content with c :: _ => N.eqb c 64 | [] => false end then
        if spec_ok content then [{| l_start := s; l_end := e; l_target := TPackage content |}] else []
      else [{| l_start := s; l_end := e; l_target := TPath file content |}]
  | _ => []
  end.
(** [analyze_path_expr], crates/tinymist-query/src/analysis/link_expr.rs:162-175. *)
Definition path_expr (spec_ok : text -> bool) (file : nat) (x : nat * node) : list link :=
  match snd x with
  | Leaf (LStr _) _ => path_str spec_ok file x
  | Inner IArray cs => flat_map (path_str spec_ok file) (placed (fst x) cs)
  | _ => []
  end.
(** An expression that may be missing, crates/tinymist-query/src/analysis/link_expr.rs:85,154. *)
Definition path_opt (spec_ok : text -> bool) (file : nat) (x : option (nat * node)) : list link :=
  match x with Some x => path_expr spec_ok file x | None => [] end.
(** A named argument of the key, crates/tinymist-query/src/analysis/link_expr.rs:151-158. *)
Definition named_links (spec_ok : text -> bool) (file : nat) (key : text) (x : nat * node) : list link :=
  match snd x with
  | Inner INamed cs =>
      match first_of is_ident (placed (fst x) cs) with
      | Some (_, i) => match ident i with
                       | Some name => if eqb name key then path_opt spec_ok file (last_of is_expr (placed (fst x) cs)) else []
                       | None => []
                       end
      | None => []
      end
  | _ => []
  end.
(** [analyze_reader], crates/tinymist-query/src/analysis/link_expr.rs:137-160. *)
Definition analyze_reader (spec_ok : text -> bool) (file : nat) (args : list (nat * node)) (key : text) (pos : bool) : list link :=
  match filter (fun x => is_item (snd x)) args with
  | [] => []
  | x :: items =>
      (if pos && is_expr (snd x) then path_expr spec_ok file x else []) ++ flat_map (named_links spec_ok file key) (x :: items)
  end.
(** The function that is called: its name, or its name in [std].
    crates/tinymist-query/src/analysis/link_expr.rs:101-132. *)
Definition callee (x : option (nat * node)) : option text :=
  match x with
  | Some (_, Leaf (LIdent name) _) => Some name
  | Some (o, Inner IField cs) =>
      match first_of is_expr (placed o cs), last_of is_ident (placed o cs) with
      | Some (_, t), Some (_, f) =>
          match ident t with Some t => if eqb t (lit "std") then ident f else None | None => None end
      | _, _ => None
      end
  | _ => None
  end.
(** [analyze_call], crates/tinymist-query/src/analysis/link_expr.rs:100-135. *)
Definition analyze_call (spec_ok : text -> bool) (file off : nat) (cs : list node) : list link :=
  let args := match last_of is_args (placed off cs) with Some (o, Inner _ a) => placed o a | _ => [] end in
  match callee (first_of is_expr (placed off cs)) with
  | Some f =>
      if eqb f (lit "raw") then analyze_reader spec_ok file args (lit "theme") false ++ analyze_reader spec_ok file args (lit "syntaxes") false
      else if eqb f (lit "bibliography") then
        analyze_reader spec_ok file args (lit "cite") false ++ analyze_reader spec_ok file args (lit "style") false ++ analyze_reader spec_ok file args (lit "path") true
      else if existsb (eqb f) [lit "cbor"; lit "csv"; lit "image"; lit "read"; lit "json"; lit "yaml"; lit "xml"] then analyze_reader spec_ok file args (lit "path") true
      else []
  | None => []
  end.
(** [collect_links], crates/tinymist-query/src/analysis/link_expr.rs:74-98. *)
Fixpoint collect_links (spec_ok : text -> bool) (file off : nat) (n : node) : list link :=
  match n with
  | Leaf _ _ => []
  | Inner k cs =>
      (match k with
       | ICall => analyze_call spec_ok file off cs
       | IInclude => path_opt spec_ok file (last_of is_expr (placed off cs))
       | _ => []
       end)
      ++ (fix go (off : nat) (cs : list node) : list link :=
            match cs with [] => [] | c :: cs' => collect_links spec_ok file off c ++ go (off + len c) cs' end) off cs
  end.
(** [get_link_exprs], crates/tinymist-query/src/analysis/link_expr.rs:12-15. *)
Definition get_link_exprs (spec_ok : text -> bool) (file : nat) (root : node) : list link := collect_links spec_ok file 0 root.

(** * Targets *)

(** The directory of a virtual path, [id.join("")]; crates/tinymist-query/src/analysis/link_expr.rs:62. *)
Definition dir_of (v : path) : path := removelast v.
(** [LinkTarget::resolve] of a path, for a file [v] of a workspace [root].
    crates/tinymist-query/src/analysis/link_expr.rs:56-67. *)
Definition resolve_link (root v : path) (s : text) : option path :=
  match vresolve root (vpath (dir_of v)) with
  | Some d => Some (join d (components s))
  | None => None
  end.
(** What the compiler loads for the path: [id.join(path)] of typst, resolved as at
    crates/tinymist-vfs/src/path_mapper.rs:64-68. *)
Definition load (root v : path) (s : text) : option path :=
  vresolve root (vpath (join (RootC :: dir_of v) (components s))).

(** * Renaming *)

(** The names of files in the strings of a document, for [get_index_info];
    crates/tinymist-query/src/syntax/index.rs:29-53, crates/tinymist-query/src/rename.rs:204-207.
    Strings are shorter than the limit. *)
Fixpoint index_paths (n : node) : list text :=
  match n with
  | Leaf (LStr content) _ =>
      match content with
      | 64%N :: _ => []
      | _ => match file_name (components content) with Some [Nor x] => [x] | _ => [[]] end
      end
  | Leaf _ _ => []
  | Inner _ cs => flat_map index_paths cs
  end.
(** [links_in_file]: the strings that are edited; [name] is the file name of the renamed file.
    crates/tinymist-query/src/rename.rs:197-225. *)
Definition links_in_file (spec_ok : text -> bool) (def : nat) (name : text) (ref : nat) (root : node) : list link :=
  if existsb (eqb name) (index_paths root) then
    filter (fun l => match l_target l with TPath f _ => Nat.eqb f def | TPackage _ => false end) (get_link_exprs spec_ok ref root)
  else [].
