(** What the names of a project mean, by the environments of ScopeSpec.v
    alone, and what it takes to rename a definition. *)
From Coq Require Import List Arith Bool.
From Verif Require Import ScopeModel ScopeSpec RefsModel RenModel.
Import ListNotations.

(** Something that refers to a target. *)
Definition stand (t : tgt) : expr :=
  match t with
  | TDef d => EDecl d
  | TMod f => EDecl (DMod f 0)
  | TVal v => EVal v
  | TMember v x => EField v x
  | TUnknown | TFree => ESel (DRef 0 0) (EVal 0)
  end.

(** The world after the files of a project, each of which offers what is
    bound at its end; the first is file [k]. *)
Fixpoint meaning (W : world) (k : nat) (files : list (list ast)) : world :=
  match files with
  | [] => W
  | file :: files' =>
      meaning (provide W k (map (fun '(x, t) => (x, stand t)) (bound W file))) (S k) files'
  end.

(** What file [k] of a project means by its names. *)
Definition means (W : world) (files : list (list ast)) (k : nat) : list use :=
  match nth_error files k with
  | Some file => uses (meaning W 0 (firstn k files)) file
  | None => []
  end.

(** The definition under its new name. *)
Definition renamed (d : decl) (new : nat) : decl :=
  match d with DVar s _ => DVar s new | DFunc s _ => DFunc s new | d => d end.

Definition tgt_eqb (t : tgt) (d : decl) : bool :=
  match t with TDef d' => if decl_eq_dec d' d then true else false | _ => false end.

(** A use after the definition was given its new name. *)
Definition use_renamed (d : decl) (new : nat) (u : use) : use :=
  let '(b, s, t) := u in (b, s, if tgt_eqb t d then TDef (renamed d new) else t).

(** The names that imports of whole files bind. *)
Fixpoint stems (e : ast) : list nat :=
  let all := fix all (l : list ast) : list nat :=
    match l with [] => [] | e :: l' => stems e ++ all l' end in
  let opt (o : option ast) : list nat := match o with Some e => stems e | None => [] end in
  match e with
  | Lit | Id _ _ | MathId _ _ | Include _ => []
  | Group es | Blk es | Item es => all es
  | Keyed _ key val => stems key ++ stems val
  | Let _ i => opt i
  | Fun _ _ ps body =>
      (fix go (l : list (param * ast)) : list nat :=
         match l with [] => [] | (_, d) :: l' => stems d ++ go l' end) ps
      ++ stems body
  | Import _ c _ _ => match c with SFile _ _ stem => [stem] | _ => [] end
  | For _ it body => stems it ++ stems body
  | While c body => stems c ++ stems body
  | If c t e => stems c ++ stems t ++ opt e
  | Assign _ v => stems v
  | SetR target args cond => stems target ++ all args ++ opt cond
  | Show sel tr => opt sel ++ stems tr
  | Context body => stems body
  | Field t _ _ => stems t
  end.

Fixpoint stems_all (l : list ast) : list nat :=
  match l with [] => [] | e :: l' => stems e ++ stems_all l' end.

(** A name that occurs nowhere: in no file, not as the name of a file, not
    in a module of the library, not in what other files export.  Names are
    not empty. *)
Definition fresh (W : world) (files : list (list ast)) (new : nat) : Prop :=
  new <> 0
  /\ (forall f, find new (w_exports W f) = None)
  /\ (forall v, find new (members W v) = None)
  /\ (forall file, In file files ->
        (forall x, In x (idents_all file) -> x <> new /\ x <> 0)
        /\ (forall x, In x (stems_all file) -> x <> new)).

(** No import takes what it imports from the definition, and the span of
    the source of an import is no other name's. *)
Definition no_source (W : world) (files : list (list ast)) (d : decl) : Prop :=
  forall k s t, In (true, s, t) (means W files k) -> t <> TDef d /\ ~ In (false, s, TDef d) (means W files k).
