(** What completions should do, stated without the model's helpers. *)
From Coq Require Import List Arith NArith ZArith Bool Permutation Sorted.
From Verif Require Import CompModel.
Import ListNotations.
Local Open Scope nat_scope.

(** ** Placeholders *)

Definition inner (a : text) : Prop := forall c, In c a -> c <> 125%N /\ c <> 10%N.
Definition held (a : text) : text := [36; 123]%N ++ a ++ [125%N].
Definition opens (t : text) : Prop := exists a r, inner a /\ t = held a ++ r.

(** A text as its placeholders, each with the text before it, and the rest. *)
Inductive marked : text -> list (text * text) -> text -> Prop :=
| marked_end e : (forall x y, e = x ++ y -> ~ opens y) -> marked e [] e
| marked_one b a r ps e : inner a -> (forall x y, b = x ++ y -> y <> [] -> ~ opens (y ++ held a ++ r)) -> marked r ps e ->
    marked (b ++ held a ++ r) ((b, a) :: ps) e.

(** The decimal digits of a number. *)
Definition decimal (k : N) (d : text) : Prop :=
  d <> [] /\ Forall (fun c => 48 <= c <= 57)%N d /\ fold_left (fun v c => v * 10 + (c - 48))%N d 0%N = k.

Inductive renders : N -> list (text * text) -> text -> text -> Prop :=
| renders_end k e : renders k [] e e
| renders_one k b a ps e d o : decimal k d -> renders (k + 1) ps e o -> renders k ((b, a) :: ps) e (b ++ [36; 123]%N ++ d ++ [58%N] ++ a ++ [125%N] ++ o).

(** ** Edits *)

Definition replaced (src : text) (e : nat * nat * text) : text := firstn (fst (fst e)) src ++ snd e ++ skipn (snd (fst e)) src.

(** Edits in ascending order; [k] characters of the source are before [src]. *)
Fixpoint edited (k : nat) (src : text) (es : list (nat * nat * text)) : text :=
  match es with
  | [] => src
  | (a, b, t) :: es' => firstn (a - k) src ++ t ++ edited b (skipn (b - k) src) es'
  end.

(** White space is dropped before the end is looked at. *)
Definition ends_in_comma (t : text) : Prop := exists x w, t = x ++ [44%N] ++ w /\ forall c, In c w -> PageModel.is_white c = true.

(** ** Order and matches *)

Inductive subsequence : text -> text -> Prop :=
| sub_nil t : subsequence [] t
| sub_take c p t : subsequence p t -> subsequence (c :: p) (c :: t)
| sub_skip p c t : subsequence p t -> subsequence p (c :: t).

(** Lexicographic order. *)
Inductive text_lt : text -> text -> Prop :=
| lt_nil c t : text_lt [] (c :: t)
| lt_head c d s t : (c < d)%N -> text_lt (c :: s) (d :: t)
| lt_tail c s t : text_lt s t -> text_lt (c :: s) (c :: t).
Inductive opt_lt : option text -> option text -> Prop :=
| lt_none t : opt_lt None (Some t)
| lt_some s t : text_lt s t -> opt_lt (Some s) (Some t).
Definition item_lt (a b : item) : Prop := opt_lt (sort_text a) (sort_text b) \/ (sort_text a = sort_text b /\ text_lt (label a) (label b)).
Definition same_rank (a b : item) : Prop := sort_text a = sort_text b /\ label a = label b.

(** A list sorted, those of the same rank in their order. *)
Definition stably_sorted (l l' : list item) : Prop :=
  Permutation l l' /\ StronglySorted (fun a b => ~ item_lt b a) l' /\
  forall x y a b, same_rank x y -> forall c, l' = a ++ x :: b ++ y :: c -> exists a' b' c', l = a' ++ x :: b' ++ y :: c'.

(** The same but for the sort text. *)
Definition same_item (a b : item) : Prop := label a = label b /\ range a = range b /\ new_text a = new_text b /\ extra a = extra b.

(** ** Slices: the bytes of characters *)

Definition cont (b : N) : Prop := (128 <= b < 192)%N.
Definition char_bytes (c : list N) : Prop := exists x r, c = x :: r /\ ~ cont x /\ Forall cont r.
(** The characters that are within the range, [k] the offset of the first. *)
Fixpoint within (k a b : nat) (cs : list (list N)) : list (list N) :=
  match cs with
  | [] => []
  | c :: cs' => (if (a <=? k) && (k + length c <=? b) then [c] else []) ++ within (k + length c) a b cs'
  end.

(** ** Prefix snippets *)

Definition allows {A} (s : selector A) (x : option A) : Prop :=
  match s with
  | Positive None => True
  | Positive (Some y) => x = Some y
  | Negative l => exists y, x = Some y /\ ~ In y l
  end.

(** ** Lists chosen from lists *)

(** [l'] are what [R] makes of the members of [l] in their order but for those that [Q] leaves out. *)
Inductive chosen {A B} (R : A -> B -> Prop) (Q : A -> Prop) : list A -> list B -> Prop :=
| chosen_nil : chosen R Q [] []
| chosen_yes x y l l' : R x y -> chosen R Q l l' -> chosen R Q (x :: l) (y :: l')
| chosen_no x l l' : Q x -> chosen R Q l l' -> chosen R Q (x :: l) l'.

(** The same item with its placeholders numbered. *)
Definition numbered_item (x y : item) : Prop :=
  label x = label y /\ sort_text x = sort_text y /\ range x = range y /\ extra x = extra y /\
  exists ps e, marked (new_text x) ps e /\ renders 1 ps e (new_text y).

(** ** The node under the cursor *)

Definition on_ident (c : cursor) : Prop := (class_ c = Some Callee \/ class_ c = Some VarAccess) /\ ident_like c = true /\ leaf_offset c = from c.
Definition on_label (c : cursor) : Prop := class_ c = Some LabelClass /\ leaf_offset c + 1 = from c.
Definition on_ref (c : cursor) : Prop := class_ c = Some RefClass /\ leaf_offset c + 1 = from c.
Definition leaf_in (c : cursor) (src pre post : text) : Prop :=
  src = pre ++ leaf_text c ++ post /\ leaf_offset c = length pre /\ length pre <= at_ c <= length pre + length (leaf_text c).
Definition in_arguments (c : cursor) : Prop := exists a b, parents c = a ++ Arguments :: b /\ forall p, In p a -> p = OtherParent.
Definition starts (x : N) (t : text) : Prop := exists t', t = x :: t'.
Definition ends (x : N) (t : text) : Prop := exists t', t = t' ++ [x].

(** The cursor is at the end of a word (or of nothing). *)
Definition on_word (c : cursor) (word : text) : Prop :=
  at_ c = from c + length word /\
  ((class_ c = None \/ class_ c = Some OtherClass) \/ (class_ c = Some VarAccess /\ ident_like c = true /\ leaf_offset c = from c /\ leaf_text c = word)).

(** ** Postfix snippets *)

Definition names_node (a : text) : Prop := exists x y, a = x ++ [110; 111; 100; 101]%N ++ y.
(** The text a snippet makes of a node. *)
Inductive wraps (s node : text) : text -> Prop :=
| wraps_node b a r ps e : marked s ((b, a) :: ps) e -> length ps <= 1 -> names_node a -> s = b ++ held a ++ r -> wraps s node (b ++ node ++ r)
| wraps_second b a b1 a1 e : marked s [(b, a); (b1, a1)] e -> ~ names_node a -> wraps s node (b ++ held a ++ b1 ++ node ++ e).
Definition usable (m : mode) (content : bool) (s : postfix) : Prop := In m (modes s) /\ (content_only s = true -> content = true).
(** The text after all edits of an item. *)
Definition result (src : text) (i : item) : text := edited 0 src (extra i ++ [(range i, new_text i)]).

(** ** Calls *)

Definition calls (u l r : bool) (node : text) (block : bool) (f : func) : list text :=
  if (match name f with [] => false | _ => true end) && is_function f && (1 <=? min_pos f) && next_content f then
    (if u && (min_pos f =? 1) then [name f ++ if block then node else [40%N] ++ node ++ [41%N]] else []) ++
    (if (1 <? min_pos f) || (0 <? min_named f) then
       (if l then [name f ++ if block then [40; 36; 123; 125; 41]%N ++ node else [40; 36; 123; 125; 44; 32]%N ++ node ++ [41%N]] else []) ++
       (if r then [name f ++ [40%N] ++ node ++ [36; 123; 125; 41]%N] else [])
     else [])
  else [].

(** ** Parentheses *)

Definition opening (c : child) : bool := match c with Open | ErrorNode [40%N] => true | _ => false end.
Definition closing (c : child) : bool := match c with Close | ErrorNode [41%N] => true | _ => false end.
Definition left_open (args : option (list child)) : Prop :=
  exists cs, args = Some cs /\ length (filter closing cs) < length (filter opening cs).
