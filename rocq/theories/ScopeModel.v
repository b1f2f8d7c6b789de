(** How the analysis of a file finds out what its names refer to:
    [ExprWorker] of crates/tinymist-query/src/syntax/expr.rs:31-1243 and the
    scopes and declarations of crates/tinymist-analysis/src/syntax/def.rs.

    Names, spans, files and library values are numbers; name 0 is the empty
    name and span 0 the detached span.  Of the expressions the worker builds
    only those it keeps in scopes and in the table of resolved names are
    modelled.  Doc comments, docstrings, the interpretation mode that the
    worker keeps (it is not read when a name is looked up), labels, and the
    dynamic analysis of import sources (analyze_expr, analyze_import) are
    not modelled: the last is taken to find nothing. *)
From Coq Require Import List Arith Bool.
Import ListNotations.

(** A declaration, crates/tinymist-analysis/src/syntax/def.rs:345-368 (the
    variants the worker makes for names of code). *)
Inductive decl :=
| DVar (s x : nat) | DFunc (s x : nat) | DClosure (s : nat) | DSpread (s : nat)
| DMod (f x : nat)
| DModAlias (s x : nat) | DStem (s x : nat) | DModImport (s : nat) | DPath (s x : nat)
| DImport (s x : nat) | DAlias (s x : nat) | DRef (s x : nat) | DMath (s x : nat).

(** [Decl::span], crates/tinymist-analysis/src/syntax/def.rs:671-788. *)
Definition dspan (d : decl) : nat :=
  match d with
  | DMod _ _ => 0
  | DVar s _ | DFunc s _ | DClosure s | DSpread s | DModAlias s _ | DStem s _
  | DModImport s | DPath s _ | DImport s _ | DAlias s _ | DRef s _ | DMath s _ => s
  end.

(** [Decl::name], crates/tinymist-analysis/src/syntax/def.rs:671-788; a
    declaration that is only a span has the empty name (def.rs:762-764). *)
Definition dname (d : decl) : nat :=
  match d with
  | DClosure _ | DSpread _ | DModImport _ => 0
  | DVar _ x | DFunc _ x | DMod _ x | DModAlias _ x | DStem _ x | DPath _ x
  | DImport _ x | DAlias _ x | DRef _ x | DMath _ x => x
  end.

(** [Decl::is_def], crates/tinymist-analysis/src/syntax/def.rs:527-544. *)
Definition is_def (d : decl) : bool :=
  match d with
  | DVar _ _ | DFunc _ _ | DClosure _ | DSpread _ | DMod _ _ | DStem _ _ | DModImport _ | DPath _ _ => true
  | DModAlias _ _ | DImport _ _ | DAlias _ _ | DRef _ _ | DMath _ _ => false
  end.

(** [Decl::kind] is a module, crates/tinymist-analysis/src/syntax/def.rs:546-552. *)
Definition mod_kind (d : decl) : bool :=
  match d with DModAlias _ _ | DMod _ _ | DStem _ _ | DPath _ _ => true | _ => false end.

(** The expressions kept in scopes, crates/tinymist-analysis/src/syntax/def.rs:137-188:
    a declaration; a reference ([RefExpr], def.rs:848-853); a selection
    ([SelectExpr], def.rs:863-876); a library value; a member of a library
    value ([select_of], def.rs:306-308). *)
Inductive expr :=
| EDecl (d : decl)
| ERef (d : decl) (step root : option expr) (term : option nat)
| ESel (key : decl) (lhs : expr)
| EVal (v : nat)
| EField (v x : nat).

(** A reference as recorded in the table, crates/tinymist-analysis/src/syntax/def.rs:848-853. *)
Record refx := mkref { r_decl : decl; r_step : option expr; r_root : option expr; r_term : option nat }.

(** The expression [Expr::Ref] of a reference, crates/tinymist-query/src/syntax/expr.rs:1067. *)
Definition eref (r : refx) : expr := ERef (r_decl r) (r_step r) (r_root r) (r_term r).

(** A scope, crates/tinymist-analysis/src/syntax/def.rs:223-228: names of
    the file (the newest entry of a name first) or the scope of a library
    module, function or type. *)
Inductive scope := SLex (m : list (nat * expr)) | SVal (v : nat).

(** What the worker asks of its context: the library's scopes
    (crates/tinymist-query/src/syntax/expr.rs:1149-1165), the scopes and
    fields of values (expr.rs:716, 1117), and the exports of another file
    (expr.rs:1225-1235). *)
Record world := {
  w_global : nat -> option nat;
  w_math : nat -> option nat;
  w_std : nat;
  w_stdval : nat;
  w_members : nat -> option (list (nat * nat));
  w_field : nat -> nat -> option nat;
  w_exports : nat -> list (nat * expr) }.

(** Looking a name up in a scope kept as a list (the red-black tree of
    crates/tinymist-analysis/src/syntax/def.rs:220). *)
Fixpoint find {A} (x : nat) (l : list (nat * A)) : option A :=
  match l with
  | [] => None
  | (y, a) :: l' => if Nat.eqb x y then Some a else find x l'
  end.

(** The entries of a library value, crates/tinymist-analysis/src/syntax/def.rs:238-240
    (a function without a scope has none). *)
Definition members (W : world) (v : nat) : list (nat * nat) :=
  match w_members W v with Some l => l | None => [] end.

(** [ExprScope::is_empty], crates/tinymist-analysis/src/syntax/def.rs:235-242. *)
Definition scope_empty (W : world) (sc : scope) : bool :=
  match sc with
  | SLex [] => true
  | SLex _ => false
  | SVal v => match members W v with [] => true | _ => false end
  end.

(** [ExprScope::get], crates/tinymist-analysis/src/syntax/def.rs:244-269. *)
Definition scope_get (W : world) (sc : scope) (x : nat) : option expr * option nat :=
  match sc with
  | SLex m => (find x m, None)
  | SVal v => (None, find x (members W v))
  end.

(** [ExprScope::merge_into], crates/tinymist-analysis/src/syntax/def.rs:271-303. *)
Definition merge_into (W : world) (sc : scope) (ex : list (nat * expr)) : list (nat * expr) :=
  match sc with
  | SLex m => m ++ ex
  | SVal v => map (fun '(x, _) => (x, EField v x)) (members W v) ++ ex
  end.

(** The worker, crates/tinymist-query/src/syntax/expr.rs:147-177: [last] and
    the scopes around it (the innermost first), the table of resolved names
    (the newest entry first), whether this is the first stage; [stuck] says
    that following references did not come to an end with the steps given,
    [crashed] that a scope was missing when one was closed; [deps] are the
    files whose exports were asked for (the import buffer). *)
Record st := mkst {
  last : scope; up : list scope; buf : list (nat * refx);
  init : bool; stuck : bool; crashed : bool; deps : list nat }.

(** Replacing the innermost scopes (crates/tinymist-query/src/syntax/expr.rs:180-218). *)
Definition set_scopes (l : scope) (u : list scope) (w : st) : st :=
  mkst l u (buf w) (init w) (stuck w) (crashed w) (deps w).

(** [resolve_as_], crates/tinymist-query/src/syntax/expr.rs:1059-1061. *)
Definition resolve_at (s : nat) (r : refx) (w : st) : st :=
  mkst (last w) (up w) ((s, r) :: buf w) (init w) (stuck w) (crashed w) (deps w).

(** [resolve_as], crates/tinymist-query/src/syntax/expr.rs:1055-1057. *)
Definition resolve_as (r : refx) (w : st) : st := resolve_at (dspan (r_decl r)) r w.

(** Following references did not come to an end (the recursion of
    crates/tinymist-query/src/syntax/expr.rs:1170-1201). *)
Definition set_stuck (w : st) : st :=
  mkst (last w) (up w) (buf w) (init w) true (crashed w) (deps w).

(** A file's exports are asked for, crates/tinymist-query/src/syntax/expr.rs:1225-1235. *)
Definition add_dep (f : nat) (w : st) : st :=
  mkst (last w) (up w) (buf w) (init w) (stuck w) (crashed w) (f :: deps w).

(** [Decl::as_def], crates/tinymist-analysis/src/syntax/def.rs:579-587. *)
Definition as_def (d : decl) : refx := mkref d (Some (EDecl d)) (Some (EDecl d)) None.

(** [with_scope], crates/tinymist-query/src/syntax/expr.rs:180-190: the
    scopes above the saved one are cut off, and the saved one taken back
    (panicking if there is none). *)
Definition with_scope (f : st -> st) (w : st) : st :=
  let w1 := set_scopes (SLex []) (last w :: up w) w in
  let len := length (up w1) in
  let w2 := f w1 in
  match skipn (length (up w2) - len) (up w2) with
  | l :: u => set_scopes l u w2
  | [] => mkst (last w2) [] (buf w2) (init w2) (stuck w2) true (deps w2)
  end.

(** [push_scope], crates/tinymist-query/src/syntax/expr.rs:192-197. *)
Definition push_scope (W : world) (sc : scope) (w : st) : st :=
  set_scopes sc (if scope_empty W (last w) then up w else last w :: up w) w.

(** [scope_mut().insert_mut], crates/tinymist-query/src/syntax/expr.rs:200-218. *)
Definition insert (x : nat) (e : expr) (w : st) : st :=
  match last w with
  | SLex m => set_scopes (SLex ((x, e) :: m)) (up w) w
  | SVal v => set_scopes (SLex [(x, e)]) (SVal v :: up w) w
  end.

(** [summarize_scope], crates/tinymist-query/src/syntax/expr.rs:231-237: the
    innermost scope first, then the others from the outermost inwards, each
    overwriting what is there. *)
Definition summarize (W : world) (w : st) : list (nat * expr) :=
  fold_left (fun ex sc => merge_into W sc ex) (last w :: rev (up w)) [].

(** A look-up has found something, crates/tinymist-query/src/syntax/expr.rs:1137, 1143. *)
Definition found (r : option expr * option nat) : bool :=
  match r with (None, None) => false | _ => true end.

(** The scopes searched from the innermost outwards,
    crates/tinymist-query/src/syntax/expr.rs:1136-1146. *)
Fixpoint search (W : world) (l : list scope) (x : nat) : option expr * option nat :=
  match l with
  | [] => (None, None)
  | sc :: l' => let r := scope_get W sc x in if found r then r else search W l' x
  end.

(** The library, crates/tinymist-query/src/syntax/expr.rs:1148-1167. *)
Definition lib_get (W : world) (math : bool) (x : nat) : option nat :=
  match (if math then w_math W x else w_global W x) with
  | Some v => Some v
  | None => if Nat.eqb x (w_std W) then Some (w_stdval W) else None
  end.

(** [eval_ident], crates/tinymist-query/src/syntax/expr.rs:1135-1168. *)
Definition eval_ident (W : world) (w : st) (x : nat) (math : bool) : option expr * option nat :=
  let r := search W (last w :: up w) x in
  if found r then r else (None, lib_get W math x).

(** [extract_ref], crates/tinymist-query/src/syntax/expr.rs:1238-1243. *)
Definition extract_ref (e : option expr) : option expr * option expr :=
  match e with
  | Some (ERef d _ root _) => (root, Some (EDecl d))
  | e => (e, e)
  end.

(** [resolve_ident], crates/tinymist-query/src/syntax/expr.rs:1063-1080. *)
Definition resolve_ident (W : world) (d : decl) (math : bool) (w : st) : st :=
  let '(e, val) := eval_ident W w (dname d) math in
  let '(root, step) := extract_ref e in
  resolve_as (mkref d step root val) w.

(** [syntax_level_select], crates/tinymist-query/src/syntax/expr.rs:1203-1223
    (the selections made here have a detached span, def.rs:870-876). *)
Definition select (W : world) (lhs : expr) (key : decl) (w : st) : st * option expr :=
  match lhs with
  | EDecl (DMod f n) =>
      let w := add_dep f w in
      match find (dname key) (w_exports W f) with
      | Some e =>
          let r := mkref key (Some e) (Some lhs) None in
          (resolve_at 0 r (resolve_as r w), Some e)
      | None => (w, None)
      end
  | _ => (w, None)
  end.

(** [fold_expr] and [fold_expr_and_val],
    crates/tinymist-query/src/syntax/expr.rs:1170-1201, with a number of
    steps after which the worker is [stuck]. *)
Fixpoint fold_expr (W : world) (n : nat) (e : option expr) (w : st) : st * option expr :=
  match n with
  | 0 => (set_stuck w, None)
  | S n =>
      let cc (src : option expr * option nat) (w : st) : st * option expr :=
        match src with
        | (None, Some v) => (w, Some (EVal v))
        | (e, _) => fold_expr W n e w
        end in
      match e with
      | Some (EDecl d) =>
          if is_def d then (w, Some (EDecl d)) else cc (eval_ident W w (dname d) false) w
      | Some (ERef _ _ root term) => cc (root, term) w
      | Some (ESel key lhs) =>
          let '(w, l) := fold_expr W n (Some lhs) w in
          match l with
          | Some l => select W l key w
          | None => (w, None)
          end
      | Some e => (w, Some e)
      | None => (w, None)
      end
  end.

(** [fold_expr_and_val], crates/tinymist-query/src/syntax/expr.rs:1170-1176. *)
Definition fold_cc (W : world) (n : nat) (src : option expr * option nat) (w : st) : st * option expr :=
  match src with
  | (None, Some v) => (w, Some (EVal v))
  | (e, _) => fold_expr W n e w
  end.

(** The source of an import or include: a string (the file it names, if it
    names one, and its stem), a name, a field of one of these, anything
    else; crates/tinymist-query/src/syntax/expr.rs:1102-1133. *)
Inductive src :=
| SFile (s : nat) (f : option nat) (stem : nat)
| SName (s x : nat)
| SField (t : src) (s x : nat)
| SOther.

(** The span of the source node, crates/tinymist-query/src/syntax/expr.rs:735, 568. *)
Definition src_span (c : src) : nat :=
  match c with SFile s _ _ => s | SName s _ => s | SField _ s _ => s | SOther => 0 end.

(** [eval_expr] for names and fields, crates/tinymist-query/src/syntax/expr.rs:1108-1132. *)
Fixpoint eval_src (W : world) (w : st) (c : src) : option expr * option nat :=
  match c with
  | SName _ x => eval_ident W w x false
  | SField t s x =>
      let '(e, v) := eval_src W w t in
      (match e with Some e => Some (ESel (DRef s x) e) | None => None end,
       match v with Some v => w_field W v x | None => None end)
  | SFile _ _ _ | SOther => (None, None)
  end.

(** [check_import], crates/tinymist-query/src/syntax/expr.rs:655-756: the
    module that is the source of an import. *)
Definition check_import (W : world) (n : nat) (c : src) (w : st) : st * option expr :=
  match c with
  | SFile s (Some f) stem =>
      let m := EDecl (DMod f stem) in
      (resolve_as (mkref (DPath s stem) (Some m) (Some m) None) w, Some m)
  | SFile _ None _ => (w, None)
  | _ =>
      let '(w, e) := fold_cc W n (eval_src W w c) w in
      match e with
      | None => (w, None)
      | Some (EVal v) => (w, match w_members W v with Some _ => Some (EVal v) | None => None end)
      | Some (EDecl d) => (w, if mod_kind d then Some (EDecl d) else None)
      | Some (ERef _ _ root _) => (w, root)
      | Some _ => (w, None)
      end
  end.

(** What is imported from a module: the module itself, everything, or items
    (a path and perhaps a new name); crates/tinymist-query/src/syntax/expr.rs:639-650. *)
Inductive imports :=
| Whole
| Star
| Items (l : list (list (nat * nat) * option (nat * nat))).

(** [import_decls] for one item, crates/tinymist-query/src/syntax/expr.rs:761-817. *)
Definition import_item (W : world) (sc : scope) (module : expr)
    (it : list (nat * nat) * option (nat * nat)) (w : st) : st :=
  let '(path, new) := it in
  let '(so, xo) := List.last path (0, 0) in
  let old := DImport so xo in
  let '(root, val) := match path with [] => (None, None) | _ => scope_get W sc xo end in
  let root :=
    if found (root, val) then root
    else Some (fold_left (fun sel '(s, x) => ESel (DRef s x) sel) path module) in
  let '(root, step) := extract_ref root in
  let r := mkref old step root val in
  let w := resolve_as r w in
  match new with
  | Some (sn, xn) =>
      let r' := mkref (DAlias sn xn) (Some (EDecl old)) (r_root r) (r_term r) in
      insert xn (eref r') (resolve_as r' w)
  | None => insert xo (eref r) w
  end.

(** [import_decls], crates/tinymist-query/src/syntax/expr.rs:758-819. *)
Definition import_decls (W : world) (sc : scope) (module : expr)
    (l : list (list (nat * nat) * option (nat * nat))) (w : st) : st :=
  fold_left (fun w it => import_item W sc module it w) l w.

(** The scope of the module of an import, crates/tinymist-query/src/syntax/expr.rs:592-636
    (a value without a scope has none; library modules have no file). *)
Definition mod_scope (W : world) (m : option expr) : scope :=
  match m with
  | Some (EDecl (DMod f _)) => SLex (w_exports W f)
  | Some (EVal v) => match w_members W v with Some _ => SVal v | None => SLex [] end
  | _ => SLex []
  end.

(** The exports of the module of an import are asked for,
    crates/tinymist-query/src/syntax/expr.rs:588-602, 610-611. *)
Definition depend (m : option expr) (w : st) : st :=
  match m with Some (EDecl (DMod f _)) => add_dep f w | _ => w end.

(** [check_module_import], crates/tinymist-query/src/syntax/expr.rs:551-653. *)
Definition check_module_import (W : world) (n : nat) (s : nat) (c : src)
    (new : option (nat * nat)) (im : imports) (w : st) : st :=
  let '(w, m) := check_import W n c w in
  let var :=
    match new with
    | Some (sn, xn) => Some (DModAlias sn xn)
    | None =>
        match im, m with
        | Whole, Some (EDecl (DMod _ stem)) => Some (DStem (src_span c) stem)
        | _, _ => None
        end
    end in
  let d := match var with Some d => d | None => DModImport s end in
  let r := mkref d m m None in
  let w := match var with Some _ => insert (dname d) (eref r) w | None => w end in
  let w := depend m (resolve_as r w) in
  let sc := mod_scope W m in
  match im with
  | Whole => w
  | Star => push_scope W sc w
  | Items l => import_decls W sc (EDecl d) l w
  end.

(** Patterns, crates/tinymist-query/src/syntax/expr.rs:482-549: a name, a
    placeholder, or a destructuring (whose items are patterns; the key of a
    named item is not resolved).  Patterns that are other expressions are
    not modelled. *)
Inductive pat := PHole | PVar (s x : nat) | PTuple (ps : list pat).

(** Parameters, crates/tinymist-query/src/syntax/expr.rs:429-461: a pattern,
    a named one (with a default), a named sink, an anonymous sink. *)
Inductive param := QPos (p : pat) | QNamed (s x : nat) | QRest (s x : nat) | QAny (s : nat).

(** Syntax as far as the names in it are concerned,
    crates/tinymist-query/src/syntax/expr.rs:246-379.  [Group]: parts that
    are checked one after the other where they stand (operators, calls and
    their arguments, arrays, equations, strong and emphasised text, the
    return of a value).  [Keyed]: an item of a dictionary with a computed
    key ([true] if it is a constant string).  [Blk]: a code or content
    block.  [Item]: the body of a heading, of a list or enumeration item,
    the term and the description of a term item.  [Field]: the access to a
    field (expr.rs:920-925). *)
Inductive ast :=
| Lit
| Id (s x : nat)
| MathId (s x : nat)
| Group (es : list ast)
| Keyed (const : bool) (key val : ast)
| Blk (es : list ast)
| Item (es : list ast)
| Let (p : pat) (i : option ast)
| Fun (s : nat) (name : option (nat * nat)) (ps : list (param * ast)) (body : ast)
| Import (s : nat) (c : src) (new : option (nat * nat)) (im : imports)
| Include (c : src)
| For (p : pat) (it body : ast)
| While (c body : ast)
| If (c t : ast) (e : option ast)
| Assign (p : pat) (v : ast)
| SetR (target : ast) (args : list ast) (cond : option ast)
| Show (sel : option ast) (tr : ast)
| Context (body : ast)
| Field (t : ast) (s x : nat).

(** Declaring a variable, crates/tinymist-query/src/syntax/expr.rs:540-543. *)
Definition declare (d : decl) (w : st) : st :=
  insert (dname d) (EDecl d) (resolve_as (as_def d) w).

(** [check_pattern], crates/tinymist-query/src/syntax/expr.rs:482-549. *)
Fixpoint check_pattern (p : pat) (w : st) : st :=
  match p with
  | PHole => w
  | PVar s x => declare (DVar s x) w
  | PTuple ps => fold_left (fun w p => check_pattern p w) ps w
  end.

(** [check] of the source of an include, crates/tinymist-query/src/syntax/expr.rs:823:
    a name, and the names inside fields, are resolved. *)
Fixpoint check_src (W : world) (c : src) (w : st) : st :=
  match c with
  | SName s x => resolve_ident W (DRef s x) false w
  | SField t _ _ => check_src W t w
  | SFile _ _ _ | SOther => w
  end.

(** [defer], crates/tinymist-query/src/syntax/expr.rs:1082-1088. *)
Definition defer (f : st -> st) (w : st) : st := if init w then w else f w.

(** [check], crates/tinymist-query/src/syntax/expr.rs:239-379, 390-480,
    821-1053. *)
Fixpoint check (W : world) (n : nat) (e : ast) (w : st) {struct e} : st :=
  let all := fix all (l : list ast) (w : st) : st :=
    match l with [] => w | e :: l' => all l' (check W n e w) end in
  let opt (o : option ast) (w : st) : st :=
    match o with Some e => check W n e w | None => w end in
  match e with
  | Lit => w
  | Id s x => resolve_ident W (DRef s x) false w
  | MathId s x => resolve_ident W (DMath s x) true w
  | Group es => all es w
  | Keyed const key val =>
      let w := check W n val w in
      if const then w else check W n key w
  | Blk es | Item es => with_scope (all es) w
  | Let p i =>
      let w := match i with Some i => defer (check W n i) w | None => w end in
      check_pattern p w
  | Fun s name ps body =>
      let d := match name with Some (sn, xn) => DFunc sn xn | None => DClosure s end in
      let w := resolve_as (as_def d) w in
      let params := fix params (l : list (param * ast)) (w : st) : st :=
        match l with
        | [] => w
        | (q, dflt) :: l' =>
            params l'
              match q with
              | QPos p => check_pattern p w
              | QNamed sq xq => declare (DVar sq xq) (check W n dflt w)
              | QRest sq xq => declare (DVar sq xq) (resolve_ident W (DRef sq xq) false w)
              | QAny sq => declare (DSpread sq) w
              end
        end in
      let w := with_scope (fun w =>
        defer (check W n body) (params ps (insert (dname d) (EDecl d) w))) w in
      insert (dname d) (EDecl d) w
  | Import s c new im => check_module_import W n s c new im w
  | Include c => check_src W c (fst (check_import W n c w))
  | For p it body =>
      with_scope (fun w => defer (check W n body) (check W n it (check_pattern p w))) w
  | While c body => defer (check W n body) (check W n c w)
  | If c t e =>
      let w := defer (check W n t) (check W n c w) in
      match e with Some e => defer (check W n e) w | None => w end
  | Assign p v => check W n v (check_pattern p w)
  | SetR target args cond => opt cond (all args (check W n target w))
  | Show sel tr => defer (check W n tr) (opt sel w)
  | Context body => defer (check W n body) w
  | Field t _ _ => check W n t w
  end.

(** The worker before a stage, crates/tinymist-query/src/syntax/expr.rs:96-116. *)
Definition start (i : bool) : st := mkst (SLex []) [] [] i false false [].

(** The children of the root checked in a stage, crates/tinymist-query/src/syntax/expr.rs:1002-1023, 110, 118. *)
Definition run (W : world) (n : nat) (i : bool) (file : list ast) : st :=
  fold_left (fun w e => check W n e w) file (start i).

(** [expr_of], crates/tinymist-query/src/syntax/expr.rs:95-136: the scope
    put on the route while the file is analysed, the table of resolved
    names and the exports. *)
Definition route_scope (W : world) (n : nat) (file : list ast) : list (nat * expr) :=
  summarize W (run W n true file).

(** The exports, crates/tinymist-query/src/syntax/expr.rs:119. *)
Definition exports (W : world) (n : nat) (file : list ast) : list (nat * expr) :=
  summarize W (run W n false file).

(** The table of resolved names, crates/tinymist-query/src/syntax/expr.rs:121, 129:
    the last entry of a span counts. *)
Definition resolves (W : world) (n : nat) (file : list ast) (s : nat) : option refx :=
  find s (buf (run W n false file)).

(** The files a file imports, crates/tinymist-query/src/syntax/expr.rs:122, 1090-1098. *)
Definition imports_of (W : world) (n : nat) (file : list ast) : list nat := deps (run W n false file).

(** Declarations compared, crates/tinymist-analysis/src/syntax/def.rs:94, 104. *)
Definition decl_eq_dec (a b : decl) : {a = b} + {a <> b}.
Proof. decide equality; apply Nat.eq_dec. Defined.

(** The references of a file to a declaration, [get_refs],
    crates/tinymist-analysis/src/syntax/def.rs:83-96. *)
Definition is_ref (d : decl) (r : refx) : bool :=
  (if decl_eq_dec (r_decl r) d then true else false)
  || match r_root r with Some (EDecl d') => if decl_eq_dec d' d then true else false | _ => false end.

(** [is_exported], crates/tinymist-analysis/src/syntax/def.rs:98-106. *)
Definition is_exported (d : decl) (ex : list (nat * expr)) : bool :=
  match find (dname d) ex with
  | Some (ERef _ _ root _) =>
      match root with Some (EDecl d') => if decl_eq_dec d' d then true else false | _ => false end
  | Some (EDecl d') => if decl_eq_dec d' d then true else false
  | _ => false
  end.
