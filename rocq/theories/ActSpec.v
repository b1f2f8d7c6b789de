(** What edits do to a text, and what the actions are for. *)
From Coq Require Import List Arith Bool.
From Verif Require Import ActModel.
Import ListNotations.

(** The text after edits, which refer to the text before and come in order;
    [None] if they do not, or overlap, or reach beyond the text. *)
Fixpoint apply (pos : nat) (es : list edit) (t : list nat) : option (list nat) :=
  match es with
  | [] => Some (skipn pos t)
  | e :: es' =>
      if (pos <=? e_from e) && (e_from e <=? e_to e) && (e_to e <=? length t) then
        option_map (fun r => firstn (e_from e - pos) (skipn pos t) ++ e_new e ++ r) (apply (e_to e) es' t)
      else None
  end.

(** An equation as the parser makes it: a dollar sign, white space and
    comments [f], the body [m], white space and comments [b], a dollar sign. *)
Definition equation (f : list child) (m : list nat) (b : list child) : list child :=
  (KDollar, [c_dollar]) :: f ++ (KMath, m) :: b ++ [(KDollar, [c_dollar])].

(** Children that are not a body. *)
Definition no_math (l : list child) : Prop := forall c, In c l -> is_math (fst c) = false.

(** Children that are white space. *)
Definition only_space (blank : nat -> bool) (l : list child) : Prop :=
  forall k t, In (k, t) l -> k = KSpace /\ forall c, In c t -> blank c = true.

(** The equation is displayed as a block: white space comes after the first
    dollar sign and before the last. *)
Definition spaced (f b : list child) : Prop :=
  (exists t f', f = (KSpace, t) :: f') /\ (exists t b', b = b' ++ [(KSpace, t)]).

(** The punctuation of ASCII. *)
Definition ascii_marks : list nat :=
  [33; 34; 35; 36; 37; 38; 39; 40; 41; 42; 43; 44; 45; 46; 47; 58; 59; 60; 61; 62; 63; 64;
   91; 92; 93; 94; 95; 96; 123; 124; 125; 126].

(** The mark that belongs to an equation: punctuation right after it; if it is
    of ASCII, no other of ASCII follows. *)
Definition mark_of (upunct : nat -> bool) (post : list nat) (c : nat) : Prop :=
  exists rest, post = c :: rest /\
    ((In c ascii_marks /\ forall d rest', rest = d :: rest' -> ~ In d ascii_marks) \/ (~ In c ascii_marks /\ upunct c = true)).

(** The marks that end a sentence or a part of it. *)
Definition sentence_mark (c : nat) : bool := existsb (Nat.eqb c) [33; 44; 46; 58; 59; 63].

(** The column of an offset: the number of characters after the last line
    feed before it. *)
Definition column (before : list nat) (n : nat) : Prop :=
  exists a l, (before = l /\ a = [] \/ before = a ++ c_lf :: l) /\ ~ In c_lf l /\ n = length l.

(** White space, line breaks and line comments. *)
Definition gap (k : kind) : Prop := k = KSpace \/ k = KLinebreak \/ k = KLineComment.

(** A run of white space and comments in a list of siblings that cannot be
    made longer. *)
Definition maximal_run (ks x run y : list kind) : Prop :=
  ks = x ++ run ++ y /\ (forall k, In k run -> gap k) /\
  (forall x' k, x = x' ++ [k] -> ~ gap k) /\ (forall y' k, y = k :: y' -> ~ gap k).
