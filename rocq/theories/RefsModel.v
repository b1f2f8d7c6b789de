(** How the references to a definition are searched for in the files of a
    workspace: [ReferencesWorker] of
    crates/tinymist-query/src/references.rs:41-167 and [SearchCtx] of
    crates/tinymist-query/src/analysis/global.rs:1371-1399, over the tables
    of ScopeModel.v.

    The definition is a variable or a function ([local] in ScopeSpec.v), and
    already known.  Labels and modules are not modelled, nor the translation
    of spans to ranges, except that the detached span has none. *)
From Coq Require Import List Arith Bool.
From Verif Require Import ScopeModel ScopeSpec.
Import ListNotations.

(** The names in the source of an import, crates/tinymist-query/src/syntax/index.rs:53-58. *)
Fixpoint src_idents (c : src) : list nat :=
  match c with SName _ x => [x] | SField t _ x => x :: src_idents t | _ => [] end.

(** The names of the items of an import, crates/tinymist-query/src/syntax/index.rs:53-58. *)
Definition im_idents (im : imports) : list nat :=
  match im with
  | Items l => concat (map (fun '(path, new) =>
      map snd path ++ match new with Some (_, x) => [x] | None => [] end) l)
  | _ => []
  end.

(** The name of a node that has one, crates/tinymist-query/src/syntax/index.rs:53-58. *)
Definition oname (o : option (nat * nat)) : list nat := match o with Some (_, x) => [x] | None => [] end.

(** The identifiers of an expression, [IndexWorker::visit],
    crates/tinymist-query/src/syntax/index.rs:30-66 (the keys of named
    arguments are not in [ast]). *)
Fixpoint idents (e : ast) : list nat :=
  let all := fix all (l : list ast) : list nat :=
    match l with [] => [] | e :: l' => idents e ++ all l' end in
  let opt (o : option ast) : list nat := match o with Some e => idents e | None => [] end in
  match e with
  | Lit => []
  | Id _ x | MathId _ x => [x]
  | Group es | Blk es | Item es => all es
  | Keyed _ key val => idents key ++ idents val
  | Let p i => opt i ++ map snd (pvars p)
  | Fun _ name ps body =>
      oname name
      ++ (fix go (l : list (param * ast)) : list nat :=
            match l with [] => [] | (q, d) :: l' => map snd (qvars q) ++ idents d ++ go l' end) ps
      ++ idents body
  | Import _ c new im => src_idents c ++ oname new ++ im_idents im
  | Include c => src_idents c
  | For p it body => map snd (pvars p) ++ idents it ++ idents body
  | While c body => idents c ++ idents body
  | If c t e => idents c ++ idents t ++ opt e
  | Assign p v => map snd (pvars p) ++ idents v
  | SetR target args cond => idents target ++ all args ++ opt cond
  | Show sel tr => opt sel ++ idents tr
  | Context body => idents body
  | Field t _ x => idents t ++ [x]
  end.

(** The identifiers of a file, [get_index_info],
    crates/tinymist-query/src/syntax/index.rs:15-23. *)
Fixpoint idents_all (l : list ast) : list nat :=
  match l with [] => [] | e :: l' => idents e ++ idents_all l' end.

(** What is known of a file: whether it is one of the workspace's source
    files (crates/tinymist-query/src/syntax/module.rs:27), its table, its
    exports, its identifiers, the files it imports
    ([ExprInfo], crates/tinymist-analysis/src/syntax/def.rs:45-57). *)
Record info := mkinfo {
  i_ws : bool; i_table : list (nat * refx); i_exports : list (nat * expr);
  i_idents : list nat; i_imports : list nat }.

(** The analysis of a file, [expr_stage] with [get_index_info],
    crates/tinymist-query/src/references.rs:101, 118. *)
Definition analyse (W : world) (n : nat) (ws : bool) (file : list ast) : info :=
  mkinfo ws (buf (run W n false file)) (exports W n file) (idents_all file) (imports_of W n file).

(** The files of the workspace that import a file, [module_dependencies],
    crates/tinymist-query/src/syntax/module.rs:21-63; nothing is known of
    files outside of the workspace (module.rs:56-60). *)
Definition dependents (P : list info) (f : nat) : list nat :=
  match nth_error P f with
  | Some i =>
      if i_ws i then
        filter (fun k => match nth_error P k with
                         | Some j => i_ws j && existsb (Nat.eqb f) (i_imports j)
                         | None => false
                         end) (seq 0 (length P))
      else []
  | None => []
  end.

(** The search: the files that were put on the list, the list (the next file
    first), the references found (the newest first);
    crates/tinymist-query/src/analysis/global.rs:1371-1378,
    crates/tinymist-query/src/references.rs:73-78. *)
Record search := mksearch { searched : list nat; work : list nat; out : list (nat * nat) }.

(** [SearchCtx::push], crates/tinymist-query/src/analysis/global.rs:1382-1389. *)
Definition push (st : search) (f : nat) : search :=
  if existsb (Nat.eqb f) (searched st) then st
  else mksearch (f :: searched st) (f :: work st) (out st).

(** [SearchCtx::push_dependents], crates/tinymist-query/src/analysis/global.rs:1392-1398. *)
Definition push_dependents (P : list info) (f : nat) (st : search) : search :=
  fold_left push (dependents P f) st.

(** [get_refs] with the spans that have a range,
    crates/tinymist-analysis/src/syntax/def.rs:83-96,
    crates/tinymist-query/src/references.rs:140-150.  The table is a map:
    each span once, with its newest entry. *)
Definition refs_in (d : decl) (i : info) : list nat :=
  filter (fun s => negb (Nat.eqb s 0) && match find s (i_table i) with Some r => is_ref d r | None => false end)
    (nodup Nat.eq_dec (map fst (i_table i))).

(** [ReferencesWorker::file] for variables and functions,
    crates/tinymist-query/src/references.rs:98-129. *)
Definition visit (P : list info) (d : decl) (f : nat) (st : search) : search :=
  match nth_error P f with
  | None => st
  | Some i =>
      if existsb (Nat.eqb (dname d)) (i_idents i) then
        let st := mksearch (searched st) (work st) (map (fun s => (f, s)) (refs_in d i) ++ out st) in
        if is_exported d (i_exports i) then push_dependents P f st else st
      else st
  end.

(** The loop of [ident_root], crates/tinymist-query/src/references.rs:91-93,
    with a number of rounds. *)
Fixpoint loop (P : list info) (d : decl) (n : nat) (st : search) : search :=
  match n with
  | 0 => st
  | S n =>
      match work st with
      | [] => st
      | f :: w => loop P d n (visit P d f (mksearch (searched st) w (out st)))
      end
  end.

(** [ident_root], crates/tinymist-query/src/references.rs:89-96, of a
    definition in file [f]. *)
Definition references (P : list info) (d : decl) (f : nat) (n : nat) : search :=
  loop P d n (visit P d f (mksearch [] [] [])).
