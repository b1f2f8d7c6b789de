(** What is expected of the lexical hierarchy and of document symbols (C46). *)
From Coq Require Import List Arith Bool.
From Verif Require Import LexModel.
Import ListNotations.

(** The infos of a hierarchy, parents before children. *)
Fixpoint infos (h : hier) : list info := match h with Hier i cs => i :: flat_map infos cs end.
(** The symbols the client gets, in the same order. *)
Fixpoint dinfos (d : dsym) : list info := match d with DSym n k r cs => mkInfo n k r :: flat_map dinfos cs end.

(** What the analysis finds, in order, without hierarchy. *)
Definition found := (node * (ctx -> list info))%type.
Definition found_opt (x : option found) (c : ctx) : list info := match x with Some (_, f) => f c | None => [] end.
Definition found_first (l : list found) (after : option nat) : list info :=
  match find (fun x => is_expr (fst x)) l with
  | Some (n, f) => if match after with Some o => fst (range_of n) <=? o | None => false end then [] else f CRef
  | None => []
  end.
(** Of a list of nodes: what is found in those that are no tokens, and a comment for every group of
    comments that something follows.  A group goes on over blanks of fewer than two newlines. *)
Inductive sort := Blank (newlines : nat) | Remark | Thing.
Definition sort_of (n : node) : sort :=
  match n with Node (KSpace b) _ _ _ _ => Blank (if b then 1 else 0) | Node KParbreak _ _ _ _ => Blank 2 | Node (KLineComment | KBlockComment) _ _ _ _ => Remark | _ => Thing end.
Definition group (cr : option (nat * nat)) : list info := match cr with Some r => [mkInfo 0 LComment r] | None => [] end.
Fixpoint found_nodes (l : list (node * list info)) (nl : nat) (cr : option (nat * nat)) : list info :=
  match l with
  | [] => []
  | (n, f) :: l =>
      match sort_of n with
      | Blank k => if 2 <=? nl + k then group cr ++ found_nodes l (nl + k) None else found_nodes l (nl + k) cr
      | Remark => found_nodes l 0 (Some (match cr with Some r => (fst r, snd (range_of n)) | None => range_of n end))
      | Thing => group cr ++ (if is_plain n then [] else f) ++ found_nodes l 0 None
      end
  end.
Fixpoint finds (m : mode) (par : option skind) (n : node) (c : ctx) {struct n} : list info :=
  match n with
  | Ident _ _ => match get_ident m par c n with Some i => [i] | None => [] end
  | Node k r _ _ cs =>
      let rs := map (fun x => (x, finds m (Some k) x)) cs in
      let c' := enter k c in
      let nodes := found_nodes (map (fun x => (fst x, snd x c')) rs) 0 None in
      match get_ident m par c n with
      | Some i => i :: match k with KImport => [] | _ => nodes end
      | None =>
          match k with
          | KLet =>
              let pattern := find (fun x => is_pat (fst x)) rs in
              if match pattern with Some x => is_closure (fst x) | None => false end then found_opt pattern CRef
              else found_opt pattern CVar ++ found_first (rev rs) (option_map (fun x => fst (range_of (fst x))) pattern)
          | KFor =>
              let pattern := find (fun x => is_pat (fst x)) rs in
              let iterable := find (fun x => is_expr (fst x)) (skip_while (fun x => negb (is_in (fst x))) rs) in
              found_opt iterable CRef ++ found_opt pattern CVar ++ found_first (rev rs) (option_map (fun x => fst (range_of (fst x))) iterable)
          | KClosure =>
              let named := match cs with Ident name r' :: _ => match m with Symbol => Some (name, r') | Braced => None end | _ => None end in
              match find (fun x => is_expr (fst x)) (rev rs) with
              | None => match named with Some (name, r') => [mkInfo name LFunction r'] | None => [] end
              | Some (_, f) => mkInfo (match named with Some (name, _) => name | None => 1 end) LFunction r :: f CRef
              end
          | KField => found_first rs None
          | KNamed => found_first (rev rs) None ++ match c' with CParams => found_opt (find (fun x => is_ident (fst x)) rs) CVar | _ => [] end
          | _ => if is_plain n then [] else nodes
          end
      end
  end.
(** Headings are below the root, blocks, or headings of lower level. *)
Definition may_hold (p c : lkind) : Prop :=
  match c with LHeading l => match p with LRoot | LBlock => True | LHeading l' => l' < l | _ => False end | _ => True end.
Fixpoint well_placed (h : hier) : Prop :=
  match h with Hier i cs => (fix go l := match l with [] => True | Hier j _ as x :: r => may_hold (i_kind i) (i_kind j) /\ well_placed x /\ go r end) cs end.
(** What a node defines, from its syntax alone: variables, functions, headings and labels. *)
Inductive defines : option skind -> node -> info -> Prop :=
| D_var par r0 e p cs x r : find is_pat cs = Some (Ident x r) -> defines par (Node KLet r0 e p cs) (mkInfo x LVariable r)
| D_fun par r0 e p cs f r' r e' p' ccs : find is_pat cs = Some (Node KClosure r e' p' (Ident f r' :: ccs)) -> defines par (Node KLet r0 e p cs) (mkInfo f LFunction r)
| D_head d t r e p cs : defines (Some (KHeading d)) (Node (KMarkup (Some t)) r e p cs) (mkInfo t (LHeading d) r)
| D_label par name r e p cs : defines par (Node (KLabel name false) r e p cs) (mkInfo name LLabel r).
(** Nodes inside others through markup, headings, items and expressions of no kind of their own (such
    as blocks, calls and sets), at any depth. *)
Definition transparent (k : skind) : bool := match k with KMarkup _ | KHeading _ | KItem | KOther | KBraced => true | _ => false end.
Inductive inside : option skind -> node -> option skind -> node -> Prop :=
| In_self par n : inside par n par n
| In_child par k r e p cs x par' y : transparent k = true -> In x cs -> is_plain x = false -> inside (Some k) x par' y -> inside par (Node k r e p cs) par' y.
(** [subseq a b]: [a] is [b] with some elements left out. *)
Inductive subseq {A} : list A -> list A -> Prop :=
| Sub_nil : subseq [] []
| Sub_keep x a b : subseq a b -> subseq (x :: a) (x :: b)
| Sub_skip x a b : subseq a b -> subseq a (x :: b).
(** Headings in the result are below headings of lower level, or at the top. *)
Fixpoint levels_ok (d : dsym) : Prop :=
  match d with
  | DSym _ k _ cs => (fix go l := match l with [] => True | DSym _ k' _ _ as x :: r => match k', k with LHeading b, LHeading a => a < b | LHeading _, _ => False | _, _ => True end /\ levels_ok x /\ go r end) cs
  end.
(** The kinds shown as symbols. *)
Definition shown (k : lkind) : Prop := match k with LHeading _ | LLabel | LVariable | LFunction => True | LRoot | LBlock | LComment => False end.
(** [sub h g]: [h] is [g] or somewhere below it. *)
Inductive sub (h : hier) : hier -> Prop :=
| Sub_self : sub h h
| Sub_below i cs g : In g cs -> sub h g -> sub h (Hier i cs).
