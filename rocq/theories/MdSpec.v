(** What the conversion to Markdown should do, stated without the model's helpers. *)
From Coq Require Import String.
From Coq Require Import List Arith NArith ZArith Bool.
From Verif Require Import MdModel.
Import ListNotations.
Local Open Scope nat_scope.

(** A run of [k] backticks in a text. *)
Definition has_run (k : nat) (s : text) : Prop := exists a b, s = a ++ repeat 96%N k ++ b.

(** The lines of a text: ended by a newline, or a carriage return and a newline; the last may have no end. *)
Inductive is_lines : text -> list text -> Prop :=
| lines_none : is_lines [] []
| lines_last l : l <> [] -> ~ In 10%N l -> is_lines l [l]
| lines_nl l s ls : ~ In 10%N l -> (forall x, l <> x ++ [13%N]) -> is_lines s ls -> is_lines (l ++ [10%N] ++ s) (l :: ls)
| lines_crnl l s ls : ~ In 10%N l -> is_lines s ls -> is_lines (l ++ [13; 10]%N ++ s) (l :: ls).

(** Rows of [n] cells but for the last. *)
Inductive in_rows {A} (n : nat) : list A -> list (list A) -> Prop :=
| rows_none : in_rows n [] []
| rows_last r : r <> [] -> length r <= n -> in_rows n r [r]
| rows_more r l rs : length r = n -> l <> [] -> in_rows n l rs -> in_rows n (r ++ l) (r :: rs).

(** The steps one after the other, with what they give as text. *)
Inductive evals : list (step value) -> state -> list text -> state -> Prop :=
| evals_nil s : evals [] s [] s
| evals_cons m ms s v s1 ts s2 : m s = Done v s1 -> evals ms s1 ts s2 -> evals (m :: ms) s (show v :: ts) s2.

(** The columns that are given, if any, are as many as they are to be. *)
Definition columns_ok (args : list (option text * node)) : Prop :=
  forall k x, find (fun p => match fst p with Some k => text_eqb k (lit "columns") | None => false end) args = Some (k, x) ->
    match x with ArrayLit n => n <> 0 | IntLit z => (0 < z)%Z | _ => True end.

(** A property of all nodes of a tree. *)
Fixpoint everywhere (P : node -> Prop) (n : node) : Prop :=
  P n /\
  match n with
  | Seq l => (fix all l := match l with [] => True | x :: l' => everywhere P x /\ all l' end) l
  | Block b | Paren _ b | Strong b | Emph b | Heading _ b | ListItem b | EnumItem _ b | Closure _ b => everywhere P b
  | Call _ _ args => (fix all l := match l with [] => True | (_, x) :: l' => everywhere P x /\ all l' end) args
  | _ => True
  end.

Definition no_include (n : node) : Prop := match n with Include _ _ => False | _ => True end.
Definition good_tables (n : node) : Prop :=
  match n with Call _ (Name x) args => x = lit "table" \/ x = lit "grid" -> columns_ok args | _ => True end.
Definition includes_below (rank : text -> nat) (k : nat) (n : node) : Prop :=
  match n with Include _ p => rank p < k | _ => True end.

Definition number_of (f : file) : nat := match f with Svg n _ | Typ n => n end.

(** Lists chosen from lists. *)
Inductive chosen {A B} (R : A -> B -> Prop) (Q : A -> Prop) : list A -> list B -> Prop :=
| chosen_nil : chosen R Q [] []
| chosen_yes x y l l' : R x y -> chosen R Q l l' -> chosen R Q (x :: l) (y :: l')
| chosen_no x l l' : Q x -> chosen R Q l l' -> chosen R Q (x :: l) l'.
Definition begins (p s : text) : Prop := exists t, s = p ++ t.

(** Text and code of a document: code is a hash and a statement. *)
Inductive part := Words (t : text) | Code (t : text) | Remark (t : text).
Definition nodes_of (p : part) : list node :=
  match p with Words t => [Verbatim t] | Code t => [HashMark; Silent t] | Remark t => [Silent t] end.
Definition code_of (p : part) : text :=
  match p with Words _ => [] | Code t => lit "#" ++ t ++ [10%N] | Remark t => t ++ [10%N] end.

(** Lines of an example: shown unless they begin with [>>>], compiled unless they begin with [<<< ]. *)
Definition shown_as (l d : text) : Prop := ~ begins (lit ">>>") l /\ (l = lit "<<< " ++ d \/ ~ begins (lit "<<< ") l /\ d = l).
Definition compiled_as (l c : text) : Prop := l = lit ">>>" ++ c \/ ~ begins (lit ">>>") l /\ ~ begins (lit "<<< ") l /\ c = l.
Definition each_line (ls : list text) : text := concat (map (fun l => l ++ [10%N]) ls).

(** The cells of a table. *)
Definition special (kind : text) (n : node) : Prop :=
  match n with Call _ (Field x y) _ => x = kind /\ (y = lit "header" \/ y = lit "footer") | _ => False end.
Inductive gathers (ev : node -> step value) (kind : text) : list node -> state -> list text -> list text -> state -> Prop :=
| gathers_nil s : gathers ev kind [] s [] [] s
| gathers_cell n ns s v s1 hs cs s2 :
    ~ special kind n -> ev n s = Done v s1 -> gathers ev kind ns s1 hs cs s2 -> gathers ev kind (n :: ns) s hs (show v :: cs) s2
| gathers_header t l ns s hs1 s1 hs cs s2 :
    evals (map ev l) s hs1 s1 -> gathers ev kind ns s1 hs cs s2 ->
    gathers ev kind (Call t (Field kind (lit "header")) (map (pair None) l) :: ns) s (hs1 ++ hs) cs s2.

Definition cell (tag c : text) : text := lit "      <" ++ tag ++ lit ">" ++ c ++ lit "</" ++ tag ++ lit ">" ++ [10%N].
Definition row (tag : text) (cs : list text) : text := lit "    <tr>" ++ [10%N] ++ concat (map (cell tag) cs) ++ lit "    </tr>" ++ [10%N].
Definition html (hs : list text) (rows : list (list text)) : text :=
  lit "<table>" ++ [10%N] ++ match hs with [] => [] | _ => lit "  <thead>" ++ [10%N] ++ row (lit "th") hs ++ lit "  </thead>" ++ [10%N] end ++
  lit "  <tbody>" ++ [10%N] ++ concat (map (row (lit "td")) rows) ++ lit "  </tbody>" ++ [10%N] ++ lit "</table>".

(** The boxes and their titles. *)
Definition boxes : list (text * text) :=
  [(lit "note-box", lit "NOTE"); (lit "tip-box", lit "TIP"); (lit "important-box", lit "IMPORTANT");
   (lit "warning-box", lit "WARNING"); (lit "caution-box", lit "CAUTION")].
