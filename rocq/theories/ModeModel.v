(** Model of the modes of text and of what is completed in them: crates/tinymist-analysis/src/syntax/matcher.rs ("m.rs"), crates/tinymist-query/src/code_context.rs ("cc.rs"), and crates/tinymist-query/src/analysis/completion/ mode.rs, param.rs and field_access.rs. *)
From Coq Require Import String Ascii List Arith Bool.
Import ListNotations.

(** The kinds of syntax (typst, [SyntaxKind]), in the order of m.rs:358-383. *)
Inductive kind :=
  | KLineComment | KBlockComment | KShebang | KRaw | KStr | KCodeBlock | KCode | KContentBlock | KMarkup | KEquation | KMath | KHash | KLabel | KText | KIdent | KArgs
  | KFuncCall | KFieldAccess | KBool | KInt | KFloat | KNumeric | KSpace | KLinebreak | KParbreak | KEscape | KShorthand | KSmartQuote | KRawLang | KRawDelim
  | KRawTrimmed | KLeftBrace | KRightBrace | KLeftBracket | KRightBracket | KLeftParen | KRightParen | KComma | KSemicolon | KColon | KStar | KUnderscore | KDollar
  | KPlus | KMinus | KSlash | KHat | KPrime | KDot | KEq | KEqEq | KExclEq | KLt | KLtEq | KGt | KGtEq | KPlusEq | KHyphEq | KStarEq | KSlashEq | KDots | KArrow | KRoot
  | KNot | KAnd | KOr | KNone | KAuto | KAs | KNamed | KKeyed | KSpread | KError | KEnd | KStrong | KEmph | KLink | KRef | KRefMarker | KHeading | KHeadingMarker
  | KListItem | KListMarker | KEnumItem | KEnumMarker | KTermItem | KTermMarker | KMathIdent | KMathAlignPoint | KMathDelimited | KMathAttach | KMathPrimes | KMathFrac
  | KMathRoot | KMathShorthand | KMathText | KLet | KSet | KShow | KContext | KIf | KElse | KFor | KIn | KWhile | KBreak | KContinue | KReturn | KImport | KInclude
  | KClosure | KParams | KLetBinding | KSetRule | KShowRule | KContextual | KConditional | KWhileLoop | KForLoop | KLoopBreak | KModuleImport | KImportItems
  | KImportItemPath | KRenamedImportItem | KModuleInclude | KLoopContinue | KFuncReturn | KUnary | KBinary | KParenthesized | KDict | KArray | KDestructuring
  | KDestructAssignment.

(** m.rs:312-328 [InterpretMode]. *)
Inductive mode := Comment | Quoted | RawText | Markup | Code | Math.
(** m.rs:354-384 [interpret_mode_at_kind]. *)
Definition mode_of_kind (k : kind) : option mode :=
  match k with
  | KLineComment | KBlockComment | KShebang => Some Comment
  | KRaw => Some RawText
  | KStr => Some Quoted
  | KCodeBlock | KCode | KHash | KLet | KSet | KShow | KContext | KIf | KElse | KFor | KIn | KWhile | KBreak | KContinue | KReturn | KImport | KInclude | KClosure
  | KParams | KLetBinding | KSetRule | KShowRule | KContextual | KConditional | KWhileLoop | KForLoop | KLoopBreak | KModuleImport | KImportItems | KImportItemPath
  | KRenamedImportItem | KModuleInclude | KLoopContinue | KFuncReturn | KUnary | KBinary | KParenthesized | KDict | KArray | KDestructuring | KDestructAssignment => Some Code
  | KContentBlock | KMarkup | KStrong | KEmph | KLink | KRef | KRefMarker | KHeading | KHeadingMarker | KListItem | KListMarker | KEnumItem | KEnumMarker | KTermItem
  | KTermMarker => Some Markup
  | KEquation | KMath | KMathIdent | KMathAlignPoint | KMathDelimited | KMathAttach | KMathPrimes | KMathFrac | KMathRoot | KMathShorthand | KMathText => Some Math
  | KLabel | KText | KIdent | KArgs | KFuncCall | KFieldAccess | KBool | KInt | KFloat | KNumeric | KSpace | KLinebreak | KParbreak | KEscape | KShorthand | KSmartQuote
  | KRawLang | KRawDelim | KRawTrimmed | KLeftBrace | KRightBrace | KLeftBracket | KRightBracket | KLeftParen | KRightParen | KComma | KSemicolon | KColon | KStar
  | KUnderscore | KDollar | KPlus | KMinus | KSlash | KHat | KPrime | KDot | KEq | KEqEq | KExclEq | KLt | KLtEq | KGt | KGtEq | KPlusEq | KHyphEq | KStarEq | KSlashEq
  | KDots | KArrow | KRoot | KNot | KAnd | KOr | KNone | KAuto | KAs | KNamed | KKeyed | KSpread | KError | KEnd => None
  end.
(** [SyntaxKind::is_trivia] of typst, as used in m.rs:340. *)
Definition is_trivia (k : kind) : bool := match k with KShebang | KLineComment | KBlockComment | KSpace | KParbreak => true | _ => false end.
(** A node: its kind, and whether the leaf before it is a hash (m.rs:342). *)
Record node := mkNode { n_kind : kind; n_hash : bool }.
(** m.rs:331-352 [interpret_mode_at], from a leaf up. *)
Fixpoint interpret_mode_at (chain : list node) : mode :=
  match chain with
  | [] => Markup
  | n :: r => match mode_of_kind (n_kind n) with
              | Some m => m
              | None => if negb (is_trivia (n_kind n)) && n_hash n then Code else interpret_mode_at r
              end
  end.
(** cc.rs:141-151 [mode_at]: of a position in a text of a length, with the nodes there. *)
Definition mode_at (len pos : nat) (chain : list node) : mode :=
  if (pos =? 0) || (len <=? pos) then Markup else interpret_mode_at chain.

(** Whether two kinds are the same, for the [matches!] of mode.rs. *)
Definition kind_is (k : kind) (o : option kind) : bool :=
  match o with
  | None => false
  | Some k' => match k, k' with
               | KContext, KContext | KEq, KEq | KArrow, KArrow | KLetBinding, KLetBinding | KClosure, KClosure | KShowRule, KShowRule | KFieldAccess, KFieldAccess | KHash, KHash => true
               | _, _ => false
               end
  end.
(** What is offered, and from where (mode.rs:62-199): names of code (after a hash or not), names of math, languages, and snippets. *)
Inductive offer := Names (from : nat) (hash : bool) | MathNames (from : nat) | Languages (from : nat) | Snippets (from : nat) (m : mode).
(** The place of a cursor: the kind of the leaf and of its parent, its start, and the leaf before with its parent (mode.rs:67-87,144-197). *)
Record place := mkPlace { p_leaf : kind; p_parent : option kind; p_start : nat; p_cursor : nat; p_prev : option kind; p_prev_parent : option kind }.
(** mode.rs:143-199 [complete_code]; [None] is false; is_hash_expr is in completion.rs:925-941. *)
Definition complete_code (p : place) : option offer :=
  match p_leaf p with
  | KHash => Some (Names (p_cursor p) true)
  | KIdent => Some (Names (p_start p) (kind_is KHash (p_prev p)))
  | _ =>
      if kind_is KContext (p_prev p) then Some (Names (p_cursor p) false)
      else if is_trivia (p_leaf p)
              || match p_leaf p with KLeftParen | KLeftBrace => true | KColon => kind_is KShowRule (p_parent p) | _ => false end
      then Some (Names (p_cursor p) false) else None
  end.
(** mode.rs:117-141 [complete_math]. *)
Definition complete_math (punc explicit : bool) (p : place) : list offer :=
  if negb punc && match p_leaf p with KText | KMathIdent | KMathText => true | _ => false end then [MathNames (p_start p); Snippets (p_start p) Math]
  else if negb punc && explicit then [MathNames (p_cursor p); Snippets (p_cursor p) Math]
  else [].

Section Texts.
(** [is_id_start] and [is_id_continue] of typst, mode.rs:96-97. *)
Variables (id_start id_continue : nat -> bool).
(** [eat_while] of unscanny: how many characters of the beginning there are, mode.rs:94,97. *)
Fixpoint run (f : nat -> bool) (l : list nat) : nat := match l with [] => 0 | c :: r => if f c then S (run f r) else 0 end.
(** mode.rs:90-105, for a text from the start of the raw text at some offset: [None] if there are no three backticks, and otherwise where the tag starts and ends. *)
Definition raw_tag (offset : nat) (text : list nat) : option (nat * nat) :=
  if 3 <=? run (Nat.eqb 96) text then
    let ticks := run (Nat.eqb 96) text in
    let rest := skipn ticks text in
    let tag := match rest with c :: r => if id_start c then S (run id_continue r) else 0 | [] => 0 end in
    Some (offset + ticks, offset + ticks + tag)
  else None.
(** mode.rs:61-115 [complete_markup], with the offset and the text of the raw text around. *)
Definition complete_markup (punc explicit : bool) (p : place) (raw : option (nat * list nat)) : list offer :=
  if (kind_is KEq (p_prev p) || kind_is KArrow (p_prev p)) && (kind_is KLetBinding (p_prev_parent p) || kind_is KClosure (p_prev_parent p)) then [Names (p_cursor p) false]
  else if kind_is KContext (p_prev p) then [Names (p_cursor p) false]
  else match (match raw with Some (o, t) => raw_tag o t | None => None end) with
       | Some (a, b) => if b =? p_cursor p then [Languages a] else []
       | None => if negb punc && explicit then [Snippets (p_cursor p) Markup] else []
       end.
End Texts.

(** Pieces of a snippet (mode.rs:21-49): text and places to stop. *)
Inductive piece := Text (s : string) | Name (n : nat) | Stop (i : nat).
(** A parameter (mode.rs:27-44): a name, a pattern or placeholder, a named one, or a sink with its name if any. *)
Inductive param := PName (n : nat) | PPattern (ns : list nat) | PNamed (n : nat) | PSink (n : option nat).
(** mode.rs:29-44. *)
Definition shown (p : param) : list piece := match p with PName n | PNamed n => [Name n] | PPattern _ => [Text "_"] | PSink (Some n) => [Name n] | PSink None => [] end.
(** The end of a line, for mode.rs:21-49. *)
Definition nl : string := String (ascii_of_nat 10) EmptyString.
(** mode.rs:26-48. *)
Fixpoint lines (i : nat) (ps : list param) : list piece * nat :=
  match ps with
  | [] => ([], i)
  | p :: r => let (l, j) := lines (i + 2) r in
              ([Text (nl ++ "/// - ")%string] ++ shown p ++ [Text " ("; Stop (i + 1); Text "): "; Stop (i + 2)] ++ l, j)
  end.
(** mode.rs:21-49: the snippet after three slashes, or three slashes and a space. *)
Definition doc_snippet (space : bool) (ps : list param) : list piece :=
  let (l, i) := lines 0 ps in
  (if space then [] else [Text " "]) ++ [Stop 0; Text (nl ++ "///")%string] ++ l ++ [Text (nl ++ "/// -> ")%string; Stop (i + 1)].
(** param.rs:20-45: the names that a function binds. *)
Definition bound (name : option nat) (ps : list param) : list nat :=
  (match name with Some n => [n] | None => [] end) ++ flat_map (fun p => match p with PName n | PNamed n => [n] | PPattern ns => ns | PSink (Some n) => [n] | PSink None => [] end) ps.
(** param.rs:11-59 [complete_params]: the names offered, of those that the body captures. *)
Definition complete_params (name : option nat) (ps : list param) (captures : list nat) : list nat :=
  filter (fun c => negb (existsb (Nat.eqb c) (bound name ps))) captures.

(** What stands before a dot in math (field_access.rs:183-212): a field of something, a name, a character or a number of math, text, or something else. *)
Inductive target := TField (t : target) | TIdent | TChar (c : nat) | TNumber | TText (l : list nat) | TElse.
(** field_access.rs:183-192 [is_valid_math_field_access]. *)
Fixpoint math_field (t : target) : bool := match t with TField u => math_field u | TIdent => true | _ => false end.
(** field_access.rs:195-197 [bad_punc_text], [is_ascii_punctuation] and [is_ascii_whitespace] of the standard library. *)
Definition bad (c : nat) : bool :=
  ((33 <=? c) && (c <=? 47)) || ((58 <=? c) && (c <=? 64)) || ((91 <=? c) && (c <=? 96)) || ((123 <=? c) && (c <=? 126)) || (c =? 32) || (c =? 9) || (c =? 10) || (c =? 12) || (c =? 13).
(** field_access.rs:194-212 [is_valid_math_postfix]. *)
Definition math_postfix (t : target) : bool :=
  match t with
  | TChar c => negb (bad c)
  | TText l => negb (match l with [] => true | _ => false end) && forallb (fun c => negb (bad c)) l
  | _ => true
  end.
