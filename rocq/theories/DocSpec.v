(** What the documentation of definitions and modules is to be, and what is to
    be read off it, stated without the functions of the model. *)
From Coq Require Import List Arith NArith Bool.
From Verif Require Import DocModel.
Import ListNotations.

(** * Texts *)

(** White space. *)
Definition blank (c : N) : Prop :=
  (9 <= c <= 13 \/ c = 32 \/ c = 133 \/ c = 160 \/ c = 5760 \/ 8192 <= c <= 8202 \/ c = 8232 \/ c = 8233 \/ c = 8239 \/ c = 8287 \/ c = 12288)%N.

Definition starts_ink (t : text) : Prop := forall c u, t = c :: u -> ~ blank c.
Definition ends_ink (t : text) : Prop := forall c u, t = u ++ [c] -> ~ blank c.

(** [t] is [s] without white space at its start, its end, and at both. *)
Definition left_trimmed (s t : text) : Prop := exists a, s = a ++ t /\ Forall blank a /\ starts_ink t.
Definition right_trimmed (s t : text) : Prop := exists b, s = t ++ b /\ Forall blank b /\ ends_ink t.
Definition trimmed (s t : text) : Prop :=
  exists a b, s = a ++ t ++ b /\ Forall blank a /\ Forall blank b /\ starts_ink t /\ ends_ink t.

(** Texts as lines of one. *)
Inductive lined : list text -> text -> Prop :=
| lined_none : lined [] []
| lined_one s : lined [s] s
| lined_more s s' l t : lined (s' :: l) t -> lined (s :: s' :: l) (s ++ NL :: t).

(** * The text of comments *)

(** What a comment says. *)
Inductive says : raw -> text -> Prop :=
| says_line n t : (forall u, t <> SLASH :: u) -> says (RLine (repeat SLASH n ++ t)) t
| says_block inner t : trimmed inner t -> (forall u, t <> STAR :: u) -> says (RBlock ([SLASH; STAR] ++ inner ++ [STAR; SLASH])) t
| says_starred inner u t : trimmed inner (STAR :: u) -> trimmed u t -> says (RBlock ([SLASH; STAR] ++ inner ++ [STAR; SLASH])) t
| says_open s : (forall inner, s <> [SLASH; STAR] ++ inner ++ [STAR; SLASH]) -> says (RBlock s) s.

(** [k] is the number of white characters a text starts with. *)
Definition indented (k : nat) (t : text) : Prop :=
  exists w r, t = w ++ r /\ length w = k /\ Forall blank w /\ starts_ink r.

(** The text of a group of comments: what they say, without the least
    indentation among them, as lines; empty ones at the start are left out. *)
Definition doc_text (cs : list raw) (t : text) : Prop :=
  exists ts k rs es rs',
    Forall2 says cs ts /\
    (forall x, In x ts -> exists n, indented n x /\ k <= n) /\ (exists x, In x ts /\ indented k x) /\
    Forall2 (fun x r => exists w, x = w ++ r /\ length w = k) ts rs /\
    rs = es ++ rs' /\ Forall (fun e => e = []) es /\ (forall l, rs' <> [] :: l) /\ lined rs' t.

(** * Groups *)

Definition spacing (t : tok) : Prop := exists s, t = TSpace s.
Definition breaking (t : tok) : Prop := t = TPar \/ exists b, t = TElse b.

(** A group goes on: no paragraph break, nothing else, and no two line breaks
    with only space between. *)
Definition goes_on (l : list tok) : Prop :=
  (forall t, In t l -> ~ breaking t) /\
  forall a s1 m s2 c, l = a ++ TSpace s1 :: m ++ TSpace s2 :: c -> In NL s1 -> In NL s2 -> exists t, In t m /\ ~ spacing t.

(** The comments among tokens; only those that start with three slashes. *)
Inductive notes : list tok -> list raw -> Prop :=
| notes_nil : notes [] []
| notes_line s l cs : notes l cs -> notes (TLine s :: l) (RLine s :: cs)
| notes_block s l cs : notes l cs -> notes (TBlock s :: l) (RBlock s :: cs)
| notes_no t l cs : (forall s, t <> TLine s) -> (forall s, t <> TBlock s) -> notes l cs -> notes (t :: l) cs.
Inductive doc_notes : list tok -> list raw -> Prop :=
| doc_nil : doc_notes [] []
| doc_line s l cs : doc_notes l cs -> doc_notes (TLine (SLASH :: SLASH :: SLASH :: s) :: l) (RLine (SLASH :: SLASH :: SLASH :: s) :: cs)
| doc_no t l cs : (forall s, t <> TLine (SLASH :: SLASH :: SLASH :: s)) -> doc_notes l cs -> doc_notes (t :: l) cs.

(** The comments of the group right at the end of a sequence. *)
Definition kept (l : list (tok + ex)) (cs : list raw) : Prop :=
  exists a g, l = a ++ map inl g /\ goes_on g /\ notes g cs /\
    (a = [] \/ exists a' i, a = a' ++ [i] /\ match i with inr _ => True | inl t => ~ goes_on (t :: g) end).

(** * Which definition gets them *)

(** Nothing in the expression takes comments or has a sequence. *)
Inductive idle : ex -> Prop := idle_other l : Forall idle l -> idle (XOther l).

(** The first definition in an expression, with no sequence before it. *)
Inductive taker : ex -> nat -> Prop :=
| taker_let d o : taker (XLet d o) d
| taker_fun d l : taker (XFun d l) d
| taker_other l1 x l2 d : Forall idle l1 -> taker x d -> taker (XOther (l1 ++ x :: l2)) d.

(** The sequence that ends last in an expression, with no definition after it. *)
Inductive last_seq : ex -> list (tok + ex) -> Prop :=
| last_here l : last_seq (XSeq l) l
| last_let d x l : last_seq x l -> last_seq (XLet d (Some x)) l
| last_fun d l1 x l2 l : last_seq x l -> Forall idle l2 -> last_seq (XFun d (l1 ++ x :: l2)) l
| last_other l1 x l2 l : last_seq x l -> Forall idle l2 -> last_seq (XOther (l1 ++ x :: l2)) l.

(** The comments at the end of a sequence are followed, in the same list of
    expressions, by a definition. *)
Definition leaks (l : list ex) (d : nat) (cs : list raw) : Prop :=
  exists l1 x m y l2 q, l = l1 ++ x :: m ++ y :: l2 /\ last_seq x q /\ kept q cs /\ Forall idle m /\ taker y d.

(** [has_docs x d t]: in [x] the definition [d] gets the documentation [t]. *)
Inductive has_docs : ex -> nat -> text -> Prop :=
| docs_seq pre x post cs d t : kept pre cs -> cs <> [] -> taker x d -> doc_text cs t -> has_docs (XSeq (pre ++ inr x :: post)) d t
| docs_other l cs d t : leaks l d cs -> cs <> [] -> doc_text cs t -> has_docs (XOther l) d t
| docs_fun d' l cs d t : leaks l d cs -> cs <> [] -> doc_text cs t -> has_docs (XFun d' l) d t
| docs_in_seq x l d t : In (inr x) l -> has_docs x d t -> has_docs (XSeq l) d t
| docs_in_other x l d t : In x l -> has_docs x d t -> has_docs (XOther l) d t
| docs_in_fun x d' l d t : In x l -> has_docs x d t -> has_docs (XFun d' l) d t
| docs_in_let x d' d t : has_docs x d t -> has_docs (XLet d' (Some x)) d t.

(** The same, but only from the comments right before in the same sequence. *)
Inductive due : ex -> nat -> text -> Prop :=
| due_seq pre x post cs d t : kept pre cs -> cs <> [] -> taker x d -> doc_text cs t -> due (XSeq (pre ++ inr x :: post)) d t
| due_in_seq x l d t : In (inr x) l -> due x d t -> due (XSeq l) d t
| due_in_other x l d t : In x l -> due x d t -> due (XOther l) d t
| due_in_fun x d' l d t : In x l -> due x d t -> due (XFun d' l) d t
| due_in_let x d' d t : due x d t -> due (XLet d' (Some x)) d t.

(** * Modules *)

Definition is_trivia (i : tok + ex) : Prop :=
  match i with inl THash => False | inl (TElse b) => b = true | inl _ => True | inr _ => False end.

(** The group at the very start of a file: up to what breaks it, or is no
    trivia. *)
Definition top_group (l : list (tok + ex)) (g : list tok) : Prop :=
  exists rest, l = map inl g ++ rest /\ goes_on g /\ Forall (fun t => is_trivia (inl t)) g /\
    (rest = [] \/ exists i rest', rest = i :: rest' /\
       (~ is_trivia i \/ exists t, i = inl t /\ ~ goes_on (g ++ [t]))).

(** * Parameters *)

(** The lines of a text. *)
Inductive in_lines : text -> list text -> Prop :=
| in_lines_none : in_lines [] []
| in_lines_last s : s <> [] -> ~ In NL s -> in_lines s [s]
| in_lines_lf s t l : ~ In NL s -> (forall u, s <> u ++ [CR]) -> in_lines t l -> in_lines (s ++ NL :: t) (s :: l)
| in_lines_crlf s t l : ~ In NL s -> in_lines t l -> in_lines (s ++ CR :: NL :: t) (s :: l).

(** A bracket that closes after [s]: each one opened in [s] is closed in it. *)
Inductive even : text -> Prop :=
| even_nil : even []
| even_char c s : c <> OPEN -> c <> CLOSE -> even s -> even (c :: s)
| even_pair a b : even a -> even b -> even (OPEN :: a ++ CLOSE :: b).

(** A line is the begin of an item with this content. *)
Definition opens (k : marks) (s t : text) : Prop :=
  exists u, left_trimmed s ([MINUS; SP] ++ u) /\ trimmed u (begin_ k ++ t).
(** A line is the end of an item, with this before it. *)
Definition closes (k : marks) (s t : text) : Prop := right_trimmed s (t ++ end_ k).

(** The first line of an item: the name, the types in brackets, and after a
    colon what is said. *)
Definition heads (s name types docs : text) : Prop :=
  exists s' rest w rest' gap tail,
    trimmed s s' /\ s' = name ++ SP :: rest /\ ~ In SP name /\
    rest = w ++ OPEN :: rest' /\ Forall blank w /\
    rest' = types ++ CLOSE :: gap ++ COLON :: tail /\ even types /\ ~ In COLON gap /\ trimmed tail docs.

(** [item k ls p]: these lines are an item that describes the parameter [p]. *)
Inductive item (k : marks) : list text -> param -> Prop :=
| item_one l l' t name types docs :
    closes k l l' -> opens k l' t -> heads t name types docs ->
    item k [l] {| p_name := name; p_types := types; p_docs := docs |}
| item_more l t mid e e' name types docs all :
    opens k l t -> (forall x u, In x mid -> ~ opens k x u) -> closes k e e' -> (forall u, ~ opens k e' u) ->
    heads t name types docs -> lined (docs :: mid ++ [e']) all ->
    item k (l :: mid ++ [e]) {| p_name := name; p_types := types; p_docs := all |}.

(** Items and empty lines. *)
Inductive items (k : marks) : list text -> list param -> Prop :=
| items_nil : items k [] []
| items_empty l ps : items k l ps -> items k ([] :: l) ps
| items_item b p l ps : item k b p -> items k l ps -> items k (b ++ l) (p :: ps).

Definition empties (l : list text) : Prop := Forall (fun s => s = []) l.
(** A line that tells the type of the result. *)
Definition returns (s ty : text) : Prop := exists u, left_trimmed s ([MINUS; GT] ++ u) /\ trimmed u ty.

(** [reads k ls docs body ret ps]: the lines are the documentation, then the
    parameters, then the type of the result; there are no items right at the
    end of the documentation. *)
Definition reads (k : marks) (ls docs body : list text) (ret : option (text * text)) (ps : list param) : Prop :=
  exists tail,
    ls = docs ++ body ++ match ret with Some (l, _) => [l] | None => [] end ++ tail /\
    items k body ps /\ empties tail /\
    match ret with
    | Some (l, ty) => returns l ty
    | None => forall a l m, ls = a ++ l :: m -> empties m -> l <> [] -> forall ty, ~ returns l ty
    end /\
    (forall a b p, docs = a ++ b -> ~ item k b p) /\ (forall a, docs <> a ++ [[]]).

(** * Fences *)

Definition occurs (a s : text) : Prop := exists u v, s = u ++ a ++ v.

(** The same text with a backslash before each backtick. *)
Inductive escaped : text -> text -> Prop :=
| escaped_nil : escaped [] []
| escaped_tick s t : escaped s t -> escaped (TICK :: s) (BACKSLASH :: TICK :: t)
| escaped_char c s t : c <> TICK -> escaped s t -> escaped (c :: s) (c :: t).
