(** What the names of a Typst file refer to, without a stack of scopes: an
    environment is the list of the bindings in force, the newest first; a
    block forgets the bindings made in it. *)
From Coq Require Import List Arith Bool.
From Verif Require Import ScopeModel.
Import ListNotations.

(** What a name refers to: a definition of a file, a module, a library
    value, a member of a library value, something that is bound but not
    known, nothing. *)
Inductive tgt :=
| TDef (d : decl) | TMod (f : nat) | TVal (v : nat) | TMember (v x : nat) | TUnknown | TFree.

Definition rtgt (root : option expr) (term : option nat) (bound : bool) : tgt :=
  match root with
  | Some (EDecl (DMod f _)) => TMod f
  | Some (EDecl d) => TDef d
  | Some (EVal v) => TVal v
  | Some (EField v x) => TMember v x
  | Some (ERef _ _ _ _) | Some (ESel _ _) => TUnknown
  | None => match term with Some v => TVal v | None => if bound then TUnknown else TFree end
  end.

(** What an entry of the table says its name refers to. *)
Definition tgt_of_ref (r : refx) : tgt :=
  rtgt (r_root r) (r_term r) (match r_step r with Some _ => true | None => false end).

(** What an export of a file refers to. *)
Definition texp (e : expr) : tgt :=
  match e with
  | ERef _ _ root term => rtgt root term true
  | e => rtgt (Some e) None true
  end.

Definition env := list (nat * tgt).

(** What a name that nothing binds means: the names of the library in code and
    in math, and the library itself under its own name. *)
Definition library (W : world) (math : bool) (x : nat) : option nat :=
  let std := if Nat.eqb x (w_std W) then Some (w_stdval W) else None in
  if math then match w_math W x with Some v => Some v | None => std end
  else match w_global W x with Some v => Some v | None => std end.

Definition look (W : world) (E : env) (math : bool) (x : nat) : tgt :=
  match find x E with
  | Some t => t
  | None => match library W math x with Some v => TVal v | None => TFree end
  end.

(** A name in the file: whether it is the source of an import, its span,
    what it refers to. *)
Definition use := (bool * nat * tgt)%type.

Definition here (s : nat) (t : tgt) : use := (false, s, t).

(** The variables of a pattern, the last first. *)
Fixpoint pvars (p : pat) : list (nat * nat) :=
  match p with
  | PHole => []
  | PVar s x => [(s, x)]
  | PTuple ps => fold_left (fun acc p => pvars p ++ acc) ps []
  end.

Definition bind (l : list (nat * nat)) : env := map (fun '(s, x) => (x, TDef (DVar s x))) l.
Definition sites (l : list (nat * nat)) : list use := map (fun '(s, x) => here s (TDef (DVar s x))) l.

(** Variables of a parameter. *)
Definition qvars (q : param) : list (nat * nat) :=
  match q with
  | QPos p => pvars p
  | QNamed s x | QRest s x => [(s, x)]
  | QAny _ => []
  end.

Inductive modl := MFile (f : nat) | MVal (v : nat) | MNone.

Definition modof (W : world) (E : env) (c : src) : modl :=
  match c with
  | SFile _ (Some f) _ => MFile f
  | SName _ x =>
      match look W E false x with
      | TMod f => MFile f
      | TVal v => match w_members W v with Some _ => MVal v | None => MNone end
      | _ => MNone
      end
  | _ => MNone
  end.

Definition mtgt (m : modl) : tgt :=
  match m with MFile f => TMod f | MVal v => TVal v | MNone => TUnknown end.

(** Everything a module has to offer. *)
Definition offers (W : world) (m : modl) : env :=
  match m with
  | MFile f => map (fun '(x, e) => (x, texp e)) (w_exports W f)
  | MVal v => map (fun '(x, v) => (x, TVal v)) (members W v)
  | MNone => []
  end.

(** What an item of an import refers to: the first name of the path in the
    module; what the further ones select is not known. *)
Definition item_tgt (W : world) (m : modl) (path : list (nat * nat)) : tgt :=
  match path with
  | [(_, x)] => match find x (offers W m) with Some t => t | None => TUnknown end
  | _ => TUnknown
  end.

Definition sem_item (W : world) (m : modl) (it : list (nat * nat) * option (nat * nat)) (E : env)
  : env * list use :=
  let '(path, new) := it in
  let '(so, xo) := List.last path (0, 0) in
  let t := item_tgt W m path in
  match new with
  | Some (sn, xn) => ((xn, t) :: E, [here so t; here sn t])
  | None => ((xo, t) :: E, [here so t])
  end.

Fixpoint sem_items (W : world) (m : modl) (l : list (list (nat * nat) * option (nat * nat))) (E : env)
  : env * list use :=
  match l with
  | [] => (E, [])
  | it :: l' =>
      let '(E1, u1) := sem_item W m it E in
      let '(E2, u2) := sem_items W m l' E1 in (E2, u1 ++ u2)
  end.

(** The names in the source of an import. *)
Fixpoint src_uses (W : world) (k : bool) (E : env) (c : src) : list use :=
  match c with
  | SName s x => [(k, s, look W E false x)]
  | SField t _ _ => src_uses W k E t
  | SFile _ _ _ | SOther => []
  end.

Definition path_uses (c : src) : list use :=
  match c with SFile s (Some f) _ => [here s (TMod f)] | _ => [] end.

(** The source of an import that is the path of a file. *)
Definition src_files (c : src) : list use :=
  match c with SFile s (Some f) _ => [(true, s, TMod f)] | _ => [] end.

Definition sem_import (W : world) (c : src) (new : option (nat * nat)) (im : imports) (E : env)
  : env * list use :=
  let m := modof W E c in
  let u := (src_files c ++ src_uses W true E c) ++ path_uses c in
  let '(E1, u1) :=
    match new with
    | Some (sn, xn) => ((xn, mtgt m) :: E, [here sn (mtgt m)])
    | None =>
        match im, c with
        | Whole, SFile _ (Some f) stem => ((stem, TMod f) :: E, [])
        | Whole, SName _ x => ((x, mtgt m) :: E, [])
        | _, _ => (E, [])
        end
    end in
  match im with
  | Whole => (E1, u ++ u1)
  | Star => (offers W m ++ E1, u ++ u1)
  | Items l => let '(E2, u2) := sem_items W m l E1 in (E2, u ++ u1 ++ u2)
  end.

(** The name of a field that is taken from a module. *)
Definition field_uses (W : world) (E : env) (t : ast) (s x : nat) : list use :=
  match t with
  | Id _ y =>
      match look W E false y with
      | TMod f => [here s (match find x (offers W (MFile f)) with Some t => t | None => TUnknown end)]
      | _ => []
      end
  | _ => []
  end.

(** The bindings in force after an expression and the names in it. *)
Fixpoint sem (W : world) (e : ast) (E : env) {struct e} : env * list use :=
  let all := fix all (l : list ast) (E : env) : env * list use :=
    match l with
    | [] => (E, [])
    | e :: l' => let '(E1, u1) := sem W e E in let '(E2, u2) := all l' E1 in (E2, u1 ++ u2)
    end in
  let opt (o : option ast) (E : env) : env * list use :=
    match o with Some e => sem W e E | None => (E, []) end in
  match e with
  | Lit => (E, [])
  | Id s x => (E, [here s (look W E false x)])
  | MathId s x => (E, [here s (look W E true x)])
  | Group es => all es E
  | Keyed const key val =>
      let '(E1, u1) := if const then (E, []) else sem W key E in
      let '(E2, u2) := sem W val E1 in (E2, u1 ++ u2)
  | Blk es => (E, snd (all es E))
  | Item es => all es E
  | Let p i =>
      let '(E1, u1) := opt i E in
      (bind (pvars p) ++ E1, u1 ++ sites (pvars p))
  | Fun s name ps body =>
      let self := match name with Some (sn, xn) => [(xn, TDef (DFunc sn xn))] | None => [] end in
      let at_self := match name with Some (sn, xn) => [here sn (TDef (DFunc sn xn))] | None => [] end in
      (* the defaults, before anything of the function is bound *)
      let '(E1, u1) := (fix defaults (l : list (param * ast)) (E : env) : env * list use :=
        match l with
        | [] => (E, [])
        | (QNamed _ _, d) :: l' =>
            let '(E1, u1) := sem W d E in let '(E2, u2) := defaults l' E1 in (E2, u1 ++ u2)
        | _ :: l' => defaults l' E
        end) ps E in
      let vars := fold_left (fun acc '(q, _) => qvars q ++ acc) ps [] in
      let '(_, u2) := sem W body (bind vars ++ self ++ E1) in
      (self ++ E1, at_self ++ u1 ++ sites vars ++ u2)
  | Import _ c new im => sem_import W c new im E
  | Include c => (E, src_uses W false E c ++ path_uses c)
  | For p it body =>
      let '(E1, u1) := sem W it E in
      let '(_, u2) := sem W body (bind (pvars p) ++ E1) in
      (E1, u1 ++ sites (pvars p) ++ u2)
  | While c body =>
      let '(E1, u1) := sem W c E in let '(E2, u2) := sem W body E1 in (E2, u1 ++ u2)
  | If c t e =>
      let '(E1, u1) := sem W c E in
      let '(E2, u2) := sem W t E1 in
      let '(E3, u3) := opt e E2 in (E3, u1 ++ u2 ++ u3)
  | Assign p v =>
      let '(E1, u1) := sem W v E in
      (E1, u1 ++ map (fun '(s, x) => here s (look W E1 false x)) (pvars p))
  | SetR target args cond =>
      let '(E1, u1) := opt cond E in
      let '(E2, u2) := sem W target E1 in
      let '(E3, u3) := all args E2 in (E3, u1 ++ u2 ++ u3)
  | Show sel tr =>
      let '(E1, u1) := opt sel E in let '(E2, u2) := sem W tr E1 in (E2, u1 ++ u2)
  | Context body => (E, snd (sem W body E))
  | Field t s x => let '(E1, u1) := sem W t E in (E1, u1 ++ field_uses W E1 t s x)
  end.

Definition sem_all (W : world) := fix all (l : list ast) (E : env) : env * list use :=
  match l with
  | [] => (E, [])
  | e :: l' => let '(E1, u1) := sem W e E in let '(E2, u2) := all l' E1 in (E2, u1 ++ u2)
  end.

(** The names of a file and what they refer to. *)
Definition uses (W : world) (file : list ast) : list use := snd (sem_all W file []).

(** The bindings at the end of the file: what it exports. *)
Definition bound (W : world) (file : list ast) : env := fst (sem_all W file []).

(** The spans of an expression. *)
Definition omark (o : option (nat * nat)) : list nat := match o with Some (s, _) => [s] | None => [] end.

Fixpoint src_marks (c : src) : list nat :=
  match c with
  | SFile s _ _ => [s] | SName s _ => [s] | SField t s _ => s :: src_marks t | SOther => []
  end.

Definition im_marks (im : imports) : list nat :=
  match im with
  | Items l => concat (map (fun '(path, new) => map fst path ++ omark new) l)
  | _ => []
  end.

Definition qmarks (q : param) : list nat :=
  match q with QAny s => [s] | q => map fst (qvars q) end.

Fixpoint marks (e : ast) : list nat :=
  let all := fix all (l : list ast) : list nat :=
    match l with [] => [] | e :: l' => marks e ++ all l' end in
  let opt (o : option ast) : list nat := match o with Some e => marks e | None => [] end in
  match e with
  | Lit => []
  | Id s _ | MathId s _ => [s]
  | Group es | Blk es | Item es => all es
  | Keyed _ key val => marks key ++ marks val
  | Let p i => opt i ++ map fst (pvars p)
  | Fun s name ps body =>
      s :: omark name
      ++ (fix go (l : list (param * ast)) : list nat :=
            match l with [] => [] | (q, d) :: l' => qmarks q ++ marks d ++ go l' end) ps
      ++ marks body
  | Import s c new im => s :: src_marks c ++ omark new ++ im_marks im
  | Include c => src_marks c
  | For p it body => map fst (pvars p) ++ marks it ++ marks body
  | While c body => marks c ++ marks body
  | If c t e => marks c ++ marks t ++ opt e
  | Assign p v => map fst (pvars p) ++ marks v
  | SetR target args cond => marks target ++ all args ++ opt cond
  | Show sel tr => opt sel ++ marks tr
  | Context body => marks body
  | Field t s _ => marks t ++ [s]
  end.

(** The names mentioned in an expression. *)
Fixpoint src_names (c : src) : list nat :=
  match c with SName _ x => [x] | SField t _ _ => src_names t | _ => [] end.

Fixpoint mentions (e : ast) : list nat :=
  let all := fix all (l : list ast) : list nat :=
    match l with [] => [] | e :: l' => mentions e ++ all l' end in
  let opt (o : option ast) : list nat := match o with Some e => mentions e | None => [] end in
  match e with
  | Lit => []
  | Id _ x | MathId _ x => [x]
  | Group es | Blk es | Item es => all es
  | Keyed _ key val => mentions key ++ mentions val
  | Let _ i => opt i
  | Fun _ _ ps body =>
      (fix go (l : list (param * ast)) : list nat :=
         match l with [] => [] | (_, d) :: l' => mentions d ++ go l' end) ps
      ++ mentions body
  | Import _ c _ _ => src_names c
  | Include c => src_names c
  | For _ it body => mentions it ++ mentions body
  | While c body => mentions c ++ mentions body
  | If c t e => mentions c ++ mentions t ++ opt e
  | Assign p v => map snd (pvars p) ++ mentions v
  | SetR target args cond => mentions target ++ all args ++ opt cond
  | Show sel tr => opt sel ++ mentions tr
  | Context body => mentions body
  | Field t _ _ => mentions t
  end.

(** An expression that may bind a name where it stands. *)
Fixpoint binds (e : ast) : bool :=
  let all := fix all (l : list ast) : bool :=
    match l with [] => false | e :: l' => binds e || all l' end in
  let opt (o : option ast) : bool := match o with Some e => binds e | None => false end in
  match e with
  | Lit | Id _ _ | MathId _ _ | Blk _ | Include _ => false
  | Group es | Item es => all es
  | Keyed _ key val => binds key || binds val
  | Let _ _ | Import _ _ _ _ | Assign _ _ => true
  | Fun _ name ps _ =>
      match name with Some _ => true | None => false end
      || (fix go (l : list (param * ast)) : bool :=
            match l with [] => false | (_, d) :: l' => binds d || go l' end) ps
  | For _ it _ => binds it
  | While c body => binds c || binds body
  | If c t e => binds c || binds t || opt e
  | SetR target args cond => binds target || all args || opt cond
  | Show sel tr => opt sel || binds tr
  | Context body => binds body
  | Field t _ _ => binds t
  end.

Definition apart (a b : list nat) : bool :=
  forallb (fun x => negb (existsb (Nat.eqb x) b)) a.

(** The imports the analysis gets right: of a file, or of a name that is
    known; a whole module only from a file or under a new name,
    and under a new name only if it is known; items that
    are single names and not of a library value. *)
Definition tame_src (W : world) (E : env) (c : src) : bool :=
  match c with
  | SFile _ _ _ => true
  | SName _ x =>
      negb (Nat.eqb x 0) && match look W E false x with TUnknown => false | _ => true end
  | SField _ _ _ | SOther => false
  end.

Definition tame_import (W : world) (E : env) (c : src) (new : option (nat * nat)) (im : imports) : bool :=
  tame_src W E c
  && match new, modof W E c with Some _, MNone => false | _, _ => true end &&
  match im with
  | Whole =>
      match new, c with Some _, _ => true | None, SFile _ _ _ => true | None, _ => false end
  | Star => true
  | Items l =>
      match modof W E c with MVal _ => false | _ => true end
      && forallb (fun '(path, _) => match path with [_] => true | _ => false end) l
  end.

(** The expressions of which the analysis says what Typst does. *)
Fixpoint tame (W : world) (e : ast) (E : env) {struct e} : bool :=
  let all := fix all (l : list ast) (E : env) : bool :=
    match l with [] => true | e :: l' => tame W e E && all l' (fst (sem W e E)) end in
  let opt (o : option ast) (E : env) : bool := match o with Some e => tame W e E | None => true end in
  match e with
  | Lit => true
  | Id _ x | MathId _ x => negb (Nat.eqb x 0)
  | Group es | Blk es => all es E
  | Keyed _ key val =>
      negb (binds key) && negb (binds val) && tame W key E && tame W val E
  | Item es => negb (binds e) && all es E
  | Let _ i => opt i E
  | Fun _ name ps body =>
      let self := match name with Some (sn, xn) => [(xn, TDef (DFunc sn xn))] | None => [] end in
      let own := match name with Some (_, xn) => [xn] | None => [] end in
      (fix go (l : list (param * ast)) (seen : list nat) : bool :=
         match l with
         | [] => true
         | (q, d) :: l' =>
             match q with
             | QNamed _ _ => negb (binds d) && tame W d E && apart (mentions d) seen
             | _ => match d with Lit => true | _ => false end
             end
             && go l' (map snd (qvars q) ++ seen)
         end) ps own
      && tame W body (bind (fold_left (fun acc '(q, _) => qvars q ++ acc) ps []) ++ self ++ E)
  | Import _ c new im => tame_import W E c new im
  | Include c => tame_src W E c
  | For p it body =>
      negb (binds it) && tame W it E && apart (mentions it) (map snd (pvars p))
      && tame W body (bind (pvars p) ++ E)
  | While c body => tame W c E && tame W body (fst (sem W c E))
  | If c t e =>
      tame W c E && tame W t (fst (sem W c E))
      && opt e (fst (sem W t (fst (sem W c E))))
  | Assign _ _ => false
  | SetR target args cond =>
      negb (binds e) && tame W target E && all args E && opt cond E
  | Show sel tr =>
      opt sel E && tame W tr (match sel with Some s => fst (sem W s E) | None => E end)
  | Context body => negb (binds body) && tame W body E
  | Field t s x =>
      tame W t E && match field_uses W (fst (sem W t E)) t s x with [] => true | _ => false end
  end.

Definition tame_all (W : world) := fix all (l : list ast) (E : env) : bool :=
  match l with [] => true | e :: l' => tame W e E && all l' (fst (sem W e E)) end.

(** The exports of the other files: definitions, and references of which it
    is known what they refer to, or known that it is not known. *)
Definition proper (d : decl) : bool :=
  is_def d && (negb (mod_kind d) || match d with DMod _ _ => true | _ => false end).

Definition plain (e : expr) : bool :=
  match e with
  | EDecl d => proper d
  | ERef _ _ (Some (EDecl d)) _ => proper d
  | ERef _ _ (Some (EVal _)) _ | ERef _ _ (Some (EField _ _)) _ | ERef _ _ (Some (ESel _ _)) _ => true
  | ERef _ _ (Some (ERef _ _ _ _)) _ => false
  | ERef _ _ None None => true
  | ERef _ _ None (Some _) => false
  | EVal _ | EField _ _ => true
  | ESel _ _ => false
  end.

Definition plain_world (W : world) : Prop :=
  forall f x e, In (x, e) (w_exports W f) -> plain e = true.

(** A definition in a file: a variable or a function. *)
Definition local (d : decl) : bool :=
  match d with DVar _ _ | DFunc _ _ => true | _ => false end.

(** An expression that imports everything of a module where it stands. *)
Fixpoint stars (e : ast) : bool :=
  let all := fix all (l : list ast) : bool :=
    match l with [] => false | e :: l' => stars e || all l' end in
  let opt (o : option ast) : bool := match o with Some e => stars e | None => false end in
  match e with
  | Lit | Id _ _ | MathId _ _ | Blk _ | Item _ | Fun _ _ _ _ | Include _ | For _ _ _ => false
  | Group es => all es
  | Keyed _ key val => stars key || stars val
  | Let _ i => opt i
  | Import _ _ _ im => match im with Star => true | _ => false end
  | While c body => stars c || stars body
  | If c t e => stars c || stars t || opt e
  | Assign _ v => stars v
  | SetR target args cond => stars target || all args || opt cond
  | Show sel tr => opt sel || stars tr
  | Context body => stars body
  | Field t _ _ => stars t
  end.

Definition stars_all (l : list ast) : bool := existsb stars l.

(** The spans of a file. *)
Fixpoint marks_all (l : list ast) : list nat :=
  match l with [] => [] | e :: l' => marks e ++ marks_all l' end.

(** A project: files of which each may import those before it.  The world
    in which the files after [files] are analysed, the first of [files]
    being file [k]. *)
Definition provide (W : world) (k : nat) (ex : list (nat * expr)) : world :=
  {| w_global := w_global W; w_math := w_math W; w_std := w_std W; w_stdval := w_stdval W;
     w_members := w_members W; w_field := w_field W;
     w_exports := fun f => if Nat.eqb f k then ex else w_exports W f |}.

Fixpoint project (W : world) (n k : nat) (files : list (list ast)) : world :=
  match files with
  | [] => W
  | file :: files' => project (provide W k (exports W n file)) n (S k) files'
  end.

Fixpoint tame_project (W : world) (n k : nat) (files : list (list ast)) : Prop :=
  match files with
  | [] => True
  | file :: files' =>
      tame_all W file [] = true /\ NoDup (marks_all file)
      /\ tame_project (provide W k (exports W n file)) n (S k) files'
  end.

(** A name of the file of which the table does not say what Typst means. *)
Definition misread (W : world) (n : nat) (file : list ast) (s : nat) (t : tgt) : Prop :=
  In (false, s, t) (uses W file)
  /\ forall r, resolves W n file s = Some r -> tgt_of_ref r <> t.
