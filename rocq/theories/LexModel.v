(** Model of the lexical hierarchy and of document symbols:
    crates/tinymist-query/src/syntax/lexical_hierarchy.rs, crates/tinymist-query/src/document_symbol.rs
    and the comment groups of crates/tinymist-analysis/src/syntax/comment.rs. *)
From Coq Require Import List Arith Bool.
Import ListNotations.

(** The kinds of typst's [SyntaxKind] that the code tells apart (lexical_hierarchy.rs:223-546,
    comment.rs:84-117), with what it reads of such a node: whether a space has a newline, the name of
    a label and whether what comes before excludes it (lexical_hierarchy.rs:472-485), the text of
    markup ([None] if empty), the depth of a heading.  [KPlain] are the other trivia, keywords, marks
    and errors; [KBraced] are the kinds at lexical_hierarchy.rs:502-518 except block comments. *)
Inductive skind :=
| KHash | KSpace (newline : bool) | KParbreak | KLineComment | KBlockComment | KIn | KPlain
| KLabel (name : nat) (code : bool) | KMarkup (text : option nat) | KHeading (depth : nat) | KItem | KBraced
| KRefMarker | KLet | KClosure | KParams | KFor | KField | KNamed | KImport | KOther.
(** A syntax node with its range; identifiers have no children.  [expr] and [pat] are whether the node
    casts to an expression and to a pattern (lexical_hierarchy.rs:333,353,357,375,444). *)
Inductive node := Ident (name : nat) (rng : nat * nat) | Node (k : skind) (rng : nat * nat) (expr pat : bool) (cs : list node).
(** Ranges, lexical_hierarchy.rs:544. *)
Definition range_of (n : node) : nat * nat := match n with Ident _ r => r | Node _ r _ _ _ => r end.
(** [cast::<ast::Expr>().is_some()], lexical_hierarchy.rs:375. *)
Definition is_expr (n : node) : bool := match n with Ident _ _ => true | Node _ _ e _ _ => e end.
(** [cast::<ast::Pattern>().is_some()], lexical_hierarchy.rs:333. *)
Definition is_pat (n : node) : bool := match n with Ident _ _ => true | Node _ _ _ p _ => p end.
(** A pattern that is a closure, lexical_hierarchy.rs:340. *)
Definition is_closure (n : node) : bool := match n with Node KClosure _ _ _ _ => true | _ => false end.
(** [n.kind() == SyntaxKind::Ident], lexical_hierarchy.rs:368,407. *)
Definition is_ident (n : node) : bool := match n with Ident _ _ => true | _ => false end.
(** The keyword [in], lexical_hierarchy.rs:356. *)
Definition is_in (n : node) : bool := match n with Node KIn _ _ _ _ => true | _ => false end.
(** lexical_hierarchy.rs:223-225 [is_plain_token]. *)
Definition is_plain (n : node) : bool :=
  match n with Node (KHash | KSpace _ | KParbreak | KLineComment | KBlockComment | KIn | KPlain) _ _ _ _ => true | _ => false end.
(** lexical_hierarchy.rs:50-77 [LexicalKind] and [LexicalVarKind], as far as they are made; the heading
    of level -1 at the bottom (lexical_hierarchy.rs:27) is [LRoot]. *)
Inductive lkind := LRoot | LHeading (level : nat) | LLabel | LVariable | LFunction | LBlock | LComment.
(** lexical_hierarchy.rs:137-141 [LexicalInfo]; 0 is the empty name, 1 is "<anonymous>". *)
Record info := mkInfo { i_name : nat; i_kind : lkind; i_range : nat * nat }.
(** lexical_hierarchy.rs:144-147 [LexicalHierarchy]. *)
Inductive hier := Hier (i : info) (cs : list hier).
(** lexical_hierarchy.rs:107-112 [LexicalScopeKind]. *)
Inductive mode := Symbol | Braced.
(** lexical_hierarchy.rs:206-213 [IdentContext]. *)
Inductive ctx := CRef | CFunc | CVar | CParams.
(** The stack of lexical_hierarchy.rs:218, the top first. *)
Definition stack := list (info * list hier).
(** lexical_hierarchy.rs:228-233 [finish_hierarchy]; [None] is a panic. *)
Definition finish (s : stack) : option stack :=
  match s with (i, c) :: (j, d) :: r => Some ((j, d ++ [Hier i c]) :: r) | _ => None end.
(** [n] times [finish_hierarchy], lexical_hierarchy.rs:321-327. *)
Fixpoint finish_n (n : nat) (s : stack) : option stack :=
  match n with 0 => Some s | S n => match finish s with None => None | Some s => finish_n n s end end.
(** [while h <= self.stack.len()], lexical_hierarchy.rs:325-327,395-397. *)
Definition finish_to (h : nat) (s : stack) : option stack := finish_n (length s + 1 - h) s.
(** lexical_hierarchy.rs:299-310: the loop before a heading; [fuel] is the height of the stack. *)
Fixpoint pop_heading (fuel level : nat) (s : stack) : option stack :=
  match fuel with
  | 0 => Some s
  | S fuel =>
      match s with
      | [] => Some s
      | (w, _) :: _ =>
          if match i_kind w with LRoot => true | LHeading l => l <? level | LBlock => true | _ => false end || (length s <=? 1) then Some s
          else match finish s with None => None | Some s => pop_heading fuel level s end
      end
  end.
(** The signals of comment.rs:52-64, as lexical_hierarchy.rs:261-285 tells them apart. *)
Inductive signal := SgSpace | SgComment | SgBreak.
(** comment.rs:84-118 [process], with the count of newlines. *)
Definition process (n : node) (nl : nat) : signal * nat :=
  match n with
  | Node KHash _ _ _ _ => (SgBreak, 0)
  | Node (KSpace b) _ _ _ _ => let nl := if b then nl + 1 else nl in (if 1 <? nl then SgBreak else SgSpace, nl)
  | Node KParbreak _ _ _ _ => (SgBreak, 2)
  | Node (KLineComment | KBlockComment) _ _ _ _ => (SgComment, 0)
  | _ => (SgBreak, 0)
  end.
(** A comment group, lexical_hierarchy.rs:272-279. *)
Definition comment_info (r : nat * nat) : info := mkInfo 0 LComment r.
(** lexical_hierarchy.rs:256-290 [check_nodes]: the loop over the children, each with what
    [check_node] does on it; [None] is a panic. *)
Fixpoint check_nodes (l : list (node * (stack -> option stack))) (nl : nat) (cr : option (nat * nat)) (s : stack) : option stack :=
  match l with
  | [] => Some s
  | (n, f) :: l =>
      let '(sg, nl) := process n nl in
      match sg with
      | SgSpace => check_nodes l nl cr s
      | SgComment => check_nodes l nl (Some (match cr with Some r => (fst r, snd (range_of n)) | None => range_of n end)) s
      | SgBreak =>
          let s := match cr with Some r => (comment_info r, []) :: s | None => s end in
          if is_plain n then check_nodes l nl None s
          else match f s with None => None | Some s => check_nodes l nl None s end
      end
  end.
(** lexical_hierarchy.rs:236-247 [enter_node]. *)
Definition enter (k : skind) (c : ctx) : ctx :=
  match k with KRefMarker => CRef | KLet => CRef | KClosure => CFunc | KParams => CParams | _ => c end.
(** lexical_hierarchy.rs:469-546 [get_ident]; [par] is the kind of the parent.  (The casts to a label
    and to an identifier succeed for nodes of those kinds.) *)
Definition get_ident (m : mode) (par : option skind) (c : ctx) (n : node) : option info :=
  match n with
  | Ident name r =>
      match m, c with
      | Symbol, CFunc => Some (mkInfo name LFunction r)
      | Symbol, (CVar | CParams) => Some (mkInfo name LVariable r)
      | _, _ => None
      end
  | Node (KLabel name code) r _ _ _ => match m with Symbol => if code then None else Some (mkInfo name LLabel r) | Braced => None end
  | Node (KBraced | KBlockComment) r _ _ _ => match m with Braced => Some (mkInfo 0 LBlock r) | Symbol => None end
  | Node (KMarkup (Some t)) r _ _ _ => match par with Some (KHeading d) => Some (mkInfo t (LHeading d) r) | _ => None end
  | Node KItem r _ _ _ => Some (mkInfo 0 LBlock r)
  | _ => None
  end.
(** What [check_node] does on a child, with a context; lexical_hierarchy.rs:456-464. *)
Definition checked := (node * (ctx -> stack -> option stack))%type.
(** lexical_hierarchy.rs:425-435 [check_opt_node_with] (and :456-464 [check_node_with]). *)
Definition check_opt (x : option checked) (c : ctx) (s : stack) : option stack := match x with Some (_, f) => f c s | None => Some s end.
(** lexical_hierarchy.rs:439-453 [check_first_sub_expr]. *)
Definition check_first (l : list checked) (after : option nat) (s : stack) : option stack :=
  match find (fun x => is_expr (fst x)) l with
  | Some (n, f) => if match after with Some o => fst (range_of n) <=? o | None => false end then Some s else f CRef s
  | None => Some s
  end.
(** [skip_while] (standard library), lexical_hierarchy.rs:356. *)
Fixpoint skip_while {A} (p : A -> bool) (l : list A) : list A := match l with [] => [] | x :: r => if p x then skip_while p r else l end.
(** Sequence of two steps either of which may panic, such as lexical_hierarchy.rs:348-349. *)
Definition seq_ (x : option stack) (f : stack -> option stack) : option stack := match x with Some s => f s | None => None end.
(** lexical_hierarchy.rs:293-420 [check_node].  The context is a parameter, because it is restored at
    the end (lexical_hierarchy.rs:417,462). *)
Fixpoint check_node (m : mode) (par : option skind) (n : node) (c : ctx) (s : stack) {struct n} : option stack :=
  match n with
  | Ident _ _ =>
      match get_ident m par c n with
      | Some i => finish_to (length s + 1) ((i, []) :: s)
      | None => Some s
      end
  | Node k r _ _ cs =>
      let rs := map (fun x => (x, check_node m (Some k) x)) cs in
      let c' := enter k c in
      let nodes := check_nodes (map (fun x => (fst x, snd x c')) rs) 0 None in
      match get_ident m par c n with
      | Some i =>
          match i_kind i with
          | LHeading level =>
              seq_ (pop_heading (length s) level s) (fun s => let s := (i, []) :: s in let h := length s in seq_ (nodes s) (finish_to (h + 1)))
          | _ =>
              let s := (i, []) :: s in let h := length s in seq_ (match k with KImport => Some s | _ => nodes s end) (finish_to h)
          end
      | None =>
          match k with
          | KLet =>
              let pattern := find (fun x => is_pat (fst x)) rs in
              if match pattern with Some x => is_closure (fst x) | None => false end then check_opt pattern CRef s
              else seq_ (check_opt pattern CVar s) (check_first (rev rs) (option_map (fun x => fst (range_of (fst x))) pattern))
          | KFor =>
              let pattern := find (fun x => is_pat (fst x)) rs in
              let iterable := find (fun x => is_expr (fst x)) (skip_while (fun x => negb (is_in (fst x))) rs) in
              seq_ (check_opt iterable CRef s) (fun s => seq_ (check_opt pattern CVar s)
                (check_first (rev rs) (option_map (fun x => fst (range_of (fst x))) iterable)))
          | KClosure =>
              match s with
              | [] => None
              | (_, children) :: _ =>
                  let current := length children in
                  seq_ (match hd_error rs with Some x => if is_ident (fst x) then snd x CFunc s else Some s | None => Some s end) (fun s =>
                  match find (fun x => is_expr (fst x)) (rev rs) with
                  | None => Some s
                  | Some (_, f) =>
                      match s with
                      | [] => None
                      | (w, children) :: below =>
                          let start :=
                            if current =? length children then Some (mkInfo 1 LFunction r, s)
                            else match rev children with
                                 | [] => None
                                 | Hier i _ :: init => Some (mkInfo (i_name i) (i_kind i) r, (w, rev init) :: below)
                                 end in
                          match start with
                          | None => None
                          | Some (i, s) => let s := (i, []) :: s in seq_ (f CRef s) (finish_to (length s))
                          end
                      end
                  end)
              end
          | KField => check_first rs None s
          | KNamed =>
              seq_ (check_first (rev rs) None s) (fun s => match c' with CParams => check_opt (find (fun x => is_ident (fst x)) rs) CVar s | _ => Some s end)
          | _ => if is_plain n then Some s else nodes s
          end
      end
  end.
(** lexical_hierarchy.rs:14-46 [get_lexical_hierarchy]; [None] is a panic. *)
Definition get_lexical_hierarchy (m : mode) (root : node) : option (list hier) :=
  match check_node m None root CRef [(mkInfo 0 LRoot (0, 0), [])] with
  | None => None
  | Some s => match finish_to 2 s with Some [(_, cs)] => Some cs | _ => None end
  end.
(** lexical_hierarchy.rs:93-105: the kinds that are symbols. *)
Definition is_symbol (k : lkind) : bool := match k with LHeading _ | LLabel | LVariable | LFunction => true | _ => false end.
(** [DocumentSymbol] (lsp_types), document_symbol.rs:53-66. *)
Inductive dsym := DSym (name : nat) (k : lkind) (rng : nat * nat) (cs : list dsym).
(** document_symbol.rs:42-70 [symbols_in_hierarchy], on one item: none, or one. *)
Fixpoint symbols (h : hier) : list dsym :=
  match h with Hier i cs => if is_symbol (i_kind i) then [DSym (i_name i) (i_kind i) (i_range i) (flat_map symbols cs)] else [] end.
(** document_symbol.rs:30-39 [DocumentSymbolRequest::request]; [None] is a panic. *)
Definition document_symbols (root : node) : option (list dsym) := option_map (flat_map symbols) (get_lexical_hierarchy Symbol root).
