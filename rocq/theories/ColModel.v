(** Model of the colors of a document: crates/tinymist-query/src/analysis/color_expr.rs, document_color.rs and
    color_presentation.rs (same directory as [analysis]). *)
From Coq Require Import String Ascii List Arith Bool.
Import ListNotations.
Open Scope bool_scope.

(** Texts (of tokens and labels, color_expr.rs:59,90) are lists of bytes. *)
Definition text := list nat.
(** A literal of the source, color_expr.rs:59,68-69. *)
Fixpoint lit (s : string) : text := match s with EmptyString => [] | String c r => nat_of_ascii c :: lit r end.
(** Equality of names, color_expr.rs:59,67. *)
Fixpoint same (a b : text) : bool :=
  match a, b with [], [] => true | x :: a', y :: b' => (x =? y) && same a' b' | _, _ => false end.

(** The kinds of syntax that color_expr.rs:30-40,53-76,86-96 tells apart; [KExpr] are the other expressions, [KOther] what is
    neither an expression nor one of the rest. *)
Inductive kind := KFuncCall | KIdent | KFieldAccess | KStr | KArgs | KNamed | KSpread | KTrivia | KKeyword | KError | KExpr | KOther.
(** [SyntaxNode] (typst), color_expr.rs:29: tokens with their text, and nodes with children. *)
Inductive node := Leaf (k : kind) (t : text) | Inner (k : kind) (cs : list node).
(** [LinkedNode::kind], color_expr.rs:30. *)
Definition nkind (n : node) : kind := match n with Leaf k _ => k | Inner k _ => k end.
(** [LinkedNode::range] (color_expr.rs:93,103) as a start and a length; the length is that of the text. *)
Fixpoint len (n : node) : nat := match n with Leaf _ t => length t | Inner _ cs => list_sum (map len cs) end.
(** Whether a node casts to [ast::Expr] (typst), color_expr.rs:51. *)
Definition is_expr (n : node) : bool :=
  match nkind n with KFuncCall | KIdent | KFieldAccess | KStr | KExpr => true | _ => false end.
(** Whether a node casts to [ast::Ident] (typst), color_expr.rs:62. *)
Definition is_ident (n : node) : bool := match n with Leaf KIdent _ => true | _ => false end.
(** The children, color_expr.rs:42. *)
Definition children (n : node) : list node := match n with Leaf _ _ => [] | Inner _ cs => cs end.
(** [FuncCall::callee] and [FieldAccess::target] (typst): the first expression, color_expr.rs:51,55. *)
Definition first_expr (n : node) : option node := find is_expr (children n).
(** [FieldAccess::field] (typst): the last identifier, color_expr.rs:62. *)
Definition last_ident (n : node) : option node := find is_ident (rev (children n)).
(** [FuncCall::args] (typst): the last list of arguments, color_expr.rs:84. *)
Definition args (n : node) : list node :=
  match find (fun m => match nkind m with KArgs => true | _ => false end) (rev (children n)) with Some a => children a | None => [] end.
(** [Args::items] (typst): the named, the spread and the other arguments, color_expr.rs:84. *)
Definition items (n : node) : list node :=
  filter (fun m => match nkind m with KNamed | KSpread => true | _ => is_expr m end) (args n).

(** A color as the answer has it ([lsp_types::Color]), color_expr.rs:110-120; the parts are those of 32-bit floats, uninterpreted. *)
Record rgba := mkColor { red : nat; green : nat; blue : nat; alpha : nat }.
(** [ColorInformation], color_expr.rs:112-120, with the range in the source (color_expr.rs:109; the conversion is in [TextModel]). *)
Record info := mkInfo { i_start : nat; i_end : nat; i_color : rgba }.

Section Work.
(** [Color::from_str] of the value of a string token (typst), color_expr.rs:90. *)
Variable parse_hex : text -> option rgba.
(** [mini_eval] of a call, if the value is a color, color_expr.rs:102 (global.rs:433-436: in a fresh machine, without the scope of
    the document). *)
Variable eval : node -> option rgba.

(** color_expr.rs:101-105 [on_const_call]. *)
Definition on_const_call (o : nat) (n : node) : list info :=
  match eval n with Some c => [mkInfo o (o + len n) c] | None => [] end.
(** color_expr.rs:83-99 [on_rgb]; [find(call.span())] at color_expr.rs:93 is the call itself. *)
Definition on_rgb (o : nat) (n : node) : list info :=
  match items n with
  | [] => []
  | [Leaf KStr t] => match parse_hex t with Some c => [mkInfo o (o + len n) c] | None => [] end
  | [_] => []
  | _ => on_const_call o n
  end.
(** color_expr.rs:65-74: by the name of the function. *)
Definition on_name (o : nat) (n : node) (name : text) : list info :=
  if same name (lit "rgb") then on_rgb o n
  else if existsb (same name) [lit "luma"; lit "oklab"; lit "oklch"; lit "linear-rgb"; lit "cmyk"; lit "hsl"; lit "hsv"] then on_const_call o n
  else [].
(** color_expr.rs:49-81 [on_call]: what is pushed; it returns [None] in any case (color_expr.rs:79). *)
Definition on_call (o : nat) (n : node) : list info :=
  match first_expr n with
  | Some (Leaf KIdent name) => on_name o n name
  | Some (Inner KFieldAccess cs) =>
      match first_expr (Inner KFieldAccess cs) with
      | Some (Leaf KIdent target) =>
          if same target (lit "color") then match last_ident (Inner KFieldAccess cs) with Some (Leaf _ name) => on_name o n name | _ => [] end else []
      | _ => []
      end
  | _ => []
  end.
(** color_expr.rs:36: the kinds that are not entered. *)
Definition skipped (n : node) : bool := match nkind n with KTrivia | KKeyword | KError => true | _ => false end.
(** color_expr.rs:29-47 [work] on a node at an offset. *)
Fixpoint work (o : nat) (n : node) : list info :=
  if skipped n then [] else
  (match nkind n with KFuncCall => on_call o n | _ => [] end) ++
  match n with
  | Leaf _ _ => []
  | Inner _ cs => (fix go o cs := match cs with [] => [] | c :: r => work o c ++ go (o + len c) r end) o cs
  end.
(** document_color.rs:28-34: the request; [None] without a source. *)
Definition document_color (source : option node) : option (list info) :=
  match source with Some root => Some (work 0 root) | None => None end.
End Work.

(** The notations of colors, color_presentation.rs:45-54. *)
Inductive space := Rgb | Luma | Oklab | Oklch | LinearRgb | Cmyk | Hsl | Hsv.
Section Present.
(** The hexadecimal digits with their hash (typst [to_hex]), color_presentation.rs:44. *)
Variable to_hex : rgba -> text.
(** [repr] after a conversion (typst), color_presentation.rs:45-54. *)
Variable repr : space -> rgba -> text.
(** color_presentation.rs:36-56: the labels; [{:?}] puts the digits in quotes (there is nothing to escape among them). *)
Definition presentations (c : rgba) : list text :=
  [[34] ++ to_hex c ++ [34]; repr Rgb c; repr Luma c; repr Oklab c; repr Oklch c; repr Rgb c; repr LinearRgb c; repr Cmyk c; repr Hsl c; repr Hsv c].
End Present.
