(** What is offered for a type (C193). *)
From Coq Require Import String.
From Coq Require Import List Arith Bool.
From Verif Require Import InfModel.
Import ListNotations.
Open Scope string_scope.

(** Snippets. *)
Definition sn (l : list (string * string)) : list item := map (fun x => ISnip (fst x) (snd x)) l.
Definition autos := sn [("auto", "auto")].
Definition nones := sn [("none", "none")].
Definition bools := sn [("false", "false"); ("true", "true")].
Definition parens := sn [("()", "(${})")].
Definition lengths := sn [("pt", "${1}pt"); ("mm", "${1}mm"); ("cm", "${1}cm"); ("in", "${1}in"); ("em", "${1}em"); ("auto", "auto")].
Definition colors := sn [("luma()", "luma(${v})"); ("rgb()", "rgb(${r}, ${g}, ${b}, ${a})"); ("cmyk()", "cmyk(${c}, ${m}, ${y}, ${k})"); ("oklab()", "oklab(${l}, ${a}, ${b}, ${alpha})");
  ("oklch()", "oklch(${l}, ${chroma}, ${hue}, ${alpha})"); ("color.linear-rgb()", "color.linear-rgb(${r}, ${g}, ${b}, ${a})"); ("color.hsv()", "color.hsv(${h}, ${s}, ${v}, ${a})"); ("color.hsl()", "color.hsl(${h}, ${s}, ${l}, ${a})")].
(** What types of typst offer. *)
Definition of_tt (t : tt) : list item :=
  match t with
  | TtNone => nones | TtAuto => autos | TtBool => bools | TtColor => colors | TtLabel => [ILabels false] | TtFunc => sn [("function", "(${params}) => ${output}")]
  | TtCons n => [ICons n] | TtScope n => [IScope n] | TtBare _ => []
  end.
(** What builtin types offer outside strings. *)
Definition of_bt (b : bt) : list item :=
  match b with
  | BNone => nones | BAuto => autos | BPath n => [IPath n] | BStroke => sn [("stroke()", "stroke(${})")] ++ parens ++ colors ++ lengths | BColor => colors
  | BLang => [ILangs] | BRegion => [IRegions] | BFont => [IFonts] | BFeature => [IFeatures] | BMargin | BInset | BOutset | BRadius => parens ++ lengths | BLength => lengths
  | BFloat => sn [("exponential notation", "${1}e${0}")] | BLabel => [ILabels false] | BCite => [ILabels true] | BRef => [IRefs] | BType t => of_tt t | BElement n => [IElement n] | BOther _ => []
  end.
(** [gives in_string mark t i]: a type gives an item, in a string or elsewhere; [mark] if a label or reference is being written. *)
Inductive gives (in_string mark : bool) : ty -> item -> Prop :=
  | G_union l t i : In t l -> gives in_string mark t i -> gives in_string mark (TUnion l) i
  | G_upper u l t i : In t u -> gives in_string mark t i -> gives in_string mark (TLet u l) i
  | G_lower u l t i : In t l -> gives in_string mark t i -> gives in_string mark (TLet u l) i
  | G_array n i : in_string = false -> In i parens -> gives in_string mark (TArray n) i
  | G_dict n i : in_string = false -> In i parens -> gives in_string mark (TDict n) i
  | G_bool n i : in_string = false -> In i bools -> gives in_string mark (TBool n) i
  | G_builtin b i : in_string = false -> In i (of_bt b) -> gives in_string mark (TBuiltin b) i
  | G_path n : in_string = true -> gives in_string mark (TBuiltin (BPath n)) (IPath n)
  | G_font : in_string = true -> gives in_string mark (TBuiltin BFont) IFonts
  | G_feature : in_string = true -> gives in_string mark (TBuiltin BFeature) IFeatures
  | G_str n : gives in_string mark (TValue (VStr n)) (IValue (VStr n))
  | G_other n : in_string = false -> gives in_string mark (TValue (VOther n)) (IValue (VOther n))
  | G_type t i : in_string = false -> In i (of_tt t) -> gives in_string mark (TValue (VType t)) i
  | G_none i : in_string = false -> In i nones -> gives in_string mark (TValue VNone) i
  | G_auto i : in_string = false -> In i autos -> gives in_string mark (TValue VAuto) i
  | G_positional n named t i : gives in_string mark t i -> gives in_string mark (TParam n true named t) i
  | G_named n positional t : in_string = false -> mark = false -> gives in_string mark (TParam n positional true t) (IField n).
