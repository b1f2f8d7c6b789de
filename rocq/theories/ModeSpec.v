(** What modes are and what is completed in them (C189). *)
From Coq Require Import String Ascii List Arith Bool.
From Verif Require Import ModeModel.
Import ListNotations.

(** Kinds of syntax that have a mode of their own. *)
Definition kinds_of (m : mode) : list kind :=
  match m with
  | Comment => [KLineComment; KBlockComment; KShebang]
  | RawText => [KRaw]
  | Quoted => [KStr]
  | Code => [KCodeBlock; KCode; KHash; KLet; KSet; KShow; KContext; KIf; KElse; KFor; KIn; KWhile; KBreak; KContinue; KReturn; KImport; KInclude; KClosure; KParams;
      KLetBinding; KSetRule; KShowRule; KContextual; KConditional; KWhileLoop; KForLoop; KLoopBreak; KModuleImport; KImportItems; KImportItemPath; KRenamedImportItem;
      KModuleInclude; KLoopContinue; KFuncReturn; KUnary; KBinary; KParenthesized; KDict; KArray; KDestructuring; KDestructAssignment]
  | Markup => [KContentBlock; KMarkup; KStrong; KEmph; KLink; KRef; KRefMarker; KHeading; KHeadingMarker; KListItem; KListMarker; KEnumItem; KEnumMarker; KTermItem; KTermMarker]
  | Math => [KEquation; KMath; KMathIdent; KMathAlignPoint; KMathDelimited; KMathAttach; KMathPrimes; KMathFrac; KMathRoot; KMathShorthand; KMathText]
  end.
Definition own (k : kind) (m : mode) : Prop := In k (kinds_of m).
Definition blank (k : kind) : Prop := In k [KSpace; KParbreak].
(** A node settles the mode: by its kind, or by a hash before it. *)
Definition settles (n : node) (m : mode) : Prop := own (n_kind n) m \/ ((forall m', ~ own (n_kind n) m') /\ ~ blank (n_kind n) /\ n_hash n = true /\ m = Code).
(** [settled chain m]: the first node that settles the mode, and markup if there is none. *)
Definition settled (chain : list node) (m : mode) : Prop :=
  (exists p n q, chain = p ++ n :: q /\ settles n m /\ forall x, In x p -> forall m', ~ settles x m')
  \/ ((forall x, In x chain -> forall m', ~ settles x m') /\ m = Markup).
(** The places to stop in a snippet, and its text without them. *)
Definition stops (l : list piece) : list nat := flat_map (fun p => match p with Stop i => [i] | _ => [] end) l.
Definition plain (names : nat -> string) (l : list piece) : string :=
  fold_right (fun p s => ((match p with Text t => t | Name n => names n | Stop _ => EmptyString end) ++ s)%string) EmptyString l.
Definition line (s : string) : string := (String (ascii_of_nat 10) EmptyString ++ s)%string.
(** How a parameter is named in documentation. *)
Definition called (names : nat -> string) (p : param) : string :=
  match p with PName n => names n | PNamed n => names n | PPattern _ => "_"%string | PSink (Some n) => names n | PSink None => EmptyString end.
(** A parameter binds a name. *)
Definition binds (p : param) (n : nat) : Prop := p = PName n \/ p = PNamed n \/ (exists ns, p = PPattern ns /\ In n ns) \/ p = PSink (Some n).
(** [longest f l a b]: the longest beginning of a text of some characters. *)
Definition longest (f : nat -> bool) (l a b : list nat) : Prop := l = a ++ b /\ (forall c, In c a -> f c = true) /\ forall c b', b = c :: b' -> f c = false.
(** [tagged text a b]: a text starts with at least three backticks, of which there are a, and a tag, which ends at b. *)
Definition tagged (id_start id_continue : nat -> bool) (text : list nat) (a b : nat) : Prop :=
  exists ticks rest, longest (Nat.eqb 96) text ticks rest /\ 3 <= length ticks /\ a = length ticks
  /\ ((b = a /\ forall c r, rest = c :: r -> id_start c = false)
      \/ exists c r t u, rest = c :: r /\ id_start c = true /\ longest id_continue r t u /\ b = a + S (length t)).
(** Signs and blanks of English. *)
Definition sign (c : nat) : Prop := In c (List.map nat_of_ascii (list_ascii_of_string "!""#$%&'()*+,-./:;<=>?@[\]^_`{|}~ ")) \/ c = 9 \/ c = 10 \/ c = 12 \/ c = 13.
(** A name with fields. *)
Inductive path : target -> Prop := P_ident : path TIdent | P_field t : path t -> path (TField t).
