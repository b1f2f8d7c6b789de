(** What a client makes of semantic tokens (C34, C35, C69). *)
From Coq Require Import List NArith Arith Bool.
From Verif Require Import TextModel TextSpec TokModel.
Import ListNotations.

(** A token with its absolute position. *)
Record abs := mkAbs { b_line : nat; b_char : nat; b_len : nat; b_ty : nat; b_md : nat }.
(** How the protocol reads relative positions: the start is relative to the last
    token on the same line, otherwise to the start of the line. *)
Fixpoint decode_from (l c : nat) (ts : list stok) : list abs :=
  match ts with
  | [] => []
  | t :: r =>
      let l' := l + d_line t in
      let c' := if d_line t =? 0 then c + d_start t else d_start t in
      mkAbs l' c' (d_len t) (d_ty t) (d_md t) :: decode_from l' c' r
  end.
Definition decode (ts : list stok) : list abs := decode_from 0 0 ts.

(** Columns and lengths as the server counts them: in UTF-8 it counts characters
    for the one and bytes for the other. *)
Definition col (e : encoding) (r : text) : nat := match e with Utf8 => length r | Utf16 => len16 r end.
Definition wid (e : encoding) (r : text) : nat := match e with Utf8 => len8 r | Utf16 => len16 r end.

(** A label is a type and a set of modifiers. *)
Definition label : Type := nat * nat.
Definition labels (ps : list (text * label)) : list label := flat_map (fun x => repeat (snd x) (length (fst x))) ps.

(** [a] is the token for the non-empty fragment [f] after [before], on one line. *)
Definition on_line (e : encoding) (t before f : text) (lab : label) (a : abs) : Prop :=
  f <> [] /\
  exists pre l post r rest,
    split_lines is_newline t = pre ++ l :: post /\ l = r ++ f ++ rest /\ before = concat pre ++ r /\
    a = mkAbs (length pre) (col e r) (wid e f) (fst lab) (snd lab).
(** The tokens are those of consecutive fragments. *)
Fixpoint fragments (e : encoding) (t before : text) (fs : list (text * label)) (ts : list abs) : Prop :=
  match fs, ts with
  | [], [] => True
  | (f, lab) :: fs, a :: ts => on_line e t before f lab a /\ fragments e t (before ++ f) fs ts
  | _, _ => False
  end.
(** The tokens cut the text into fragments of one line each, and every character
    gets the label of its piece. *)
Definition covers (e : encoding) (t : text) (ps : list (text * label)) (ts : list abs) : Prop :=
  exists fs, fragments e t [] fs ts /\ concat (map fst fs) = t /\ labels fs = labels ps.

(** Tokens come in order and do not overlap. *)
Fixpoint disjoint (ts : list abs) : Prop :=
  match ts with
  | a :: ((b :: _) as r) => (b_line a < b_line b \/ b_line a = b_line b /\ b_char a + b_len a <= b_char b) /\ disjoint r
  | _ => True
  end.

(** Consecutive pieces of a text as tokens from an offset on. *)
Fixpoint toks (o : nat) (ps : list (text * label)) : list tok :=
  match ps with
  | [] => []
  | (f, (ty, md)) :: r => mkTok ty md o (o + len8 f) :: toks (o + len8 f) r
  end.
(** All tokens pushed in order. *)
Fixpoint push_all (e : encoding) (t : text) (multi : bool) (ks : list tok) (s : pst) : option pst :=
  match ks with
  | [] => Some s
  | k :: r => match push e t multi k s with None => None | Some s1 => push_all e t multi r s1 end
  end.

(** The leaves of a tree with their labels. *)
Fixpoint leaves (mods : nat) (n : node) : list (text * label) :=
  match n with
  | Leaf ty md s => [(s, (match ty with Some y => y | None => TEXT end, Nat.lor mods md))]
  | Inner _ md ch => flat_map (leaves (Nat.lor mods md)) ch
  end.
Definition nonempty (ps : list (text * label)) : list (text * label) :=
  filter (fun x => match fst x with [] => false | _ => true end) ps.
Definition is_leaf (n : node) : Prop := match n with Leaf _ _ _ => True | _ => False end.
(** No child with a single non-empty leaf below a node with a type of its own. *)
Fixpoint regular (n : node) : Prop :=
  match n with
  | Leaf _ _ _ => True
  | Inner ty _ ch =>
      (fix all (l : list node) : Prop :=
         match l with
         | [] => True
         | c :: r => (ty = None \/ is_leaf c \/ length (nonempty (leaves 0 c)) <> 1) /\ regular c /\ all r
         end) ch
  end.

(** The data of the protocol: five numbers per token. *)
Definition flat (ts : list stok) : list nat := flat_map (fun t => [d_line t; d_start t; d_len t; d_ty t; d_md t]) ts.
(** How a client applies an edit of the token data. *)
Definition apply_edit (d : list nat) (x : edit) : list nat :=
  firstn (e_start x) d ++ flat (e_data x) ++ skipn (e_start x + e_delete x) d.
Definition apply_edits (d : list nat) (xs : list edit) : list nat := fold_left apply_edit xs d.

(** Multi-line tokens: [a] is the token for [f] after [before], wherever [f] ends. *)
Definition placed (e : encoding) (t before f : text) (lab : label) (a : abs) : Prop :=
  exists pre l post r rest,
    split_lines is_newline t = pre ++ l :: post /\ l = r ++ rest /\ before = concat pre ++ r /\ (rest <> [] \/ post = []) /\
    a = mkAbs (length pre) (col e r) (wid e f) (fst lab) (snd lab).
(** Tokens for the second components, in order, with gaps in between. *)
Fixpoint places (e : encoding) (t before : text) (gs : list (text * text * label)) (ts : list abs) : Prop :=
  match gs, ts with
  | [], [] => True
  | (g, f, lab) :: gs, a :: ts => placed e t (before ++ g) f lab a /\ places e t (before ++ g ++ f) gs ts
  | _, _ => False
  end.
Definition gap_text (gs : list (text * text * label)) : text := flat_map (fun x => fst (fst x) ++ snd (fst x)) gs.
Fixpoint gap_toks (o : nat) (gs : list (text * text * label)) : list tok :=
  match gs with
  | [] => []
  | (g, f, (ty, md)) :: r => mkTok ty md (o + len8 g) (o + len8 g + len8 f) :: gap_toks (o + len8 g + len8 f) r
  end.
