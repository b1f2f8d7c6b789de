(** Model of completion by types: crates/tinymist-query/src/analysis/completion/type.rs ("ty.rs") and the filter that crates/tinymist-query/src/analysis/completion.rs ("co.rs") gives it. *)
From Coq Require Import String.
From Coq Require Import List Arith Bool.
Import ListNotations.
Open Scope string_scope.

(** [Type] as far as it is told apart, ty.rs:271-327: none, auto, booleans, colors, labels, functions, those with a constructor, those with something else to name, and others. *)
Inductive tt := TtNone | TtAuto | TtBool | TtColor | TtLabel | TtFunc | TtCons (n : nat) | TtScope (n : nat) | TtBare (n : nat).
(** [BuiltinTy], ty.rs:138-341; [BOther] are those nothing is done for (ty.rs:143-152,160,197,224). *)
Inductive bt :=
  | BNone | BAuto | BPath (n : nat) | BStroke | BColor | BLang | BRegion | BFont | BFeature | BMargin | BInset | BOutset | BRadius | BLength | BFloat
  | BLabel | BCite | BRef | BType (t : tt) | BElement (n : nat) | BOther (n : nat).
(** [Value], ty.rs:80-88 and co.rs:700: types, none, auto, strings and others. *)
Inductive vl := VType (t : tt) | VNone | VAuto | VStr (n : nat) | VOther (n : nat).
(** [Ty], ty.rs:27-101; [TNo] are those nothing is done for (ty.rs:28-37). *)
Inductive ty :=
  | TNo (n : nat) | TUnion (l : list ty) | TLet (ubs lbs : list ty) | TArray (n : nat) | TDict (n : nat) | TBool (n : nat)
  | TBuiltin (b : bt) | TValue (v : vl) | TParam (name : nat) (positional named : bool) (t : ty).
(** [Eq] of [Ty], which [seen_types] is by (ty.rs:21). *)
Fixpoint ty_eq (a b : ty) {struct a} : {a = b} + {a <> b}.
Proof.
  destruct a as [n|l|u l|n|n|n|c|v|n p q t], b as [n'|l'|u' l'|n'|n'|n'|c'|v'|n' p' q' t']; try (right; discriminate).
  - destruct (Nat.eq_dec n n') as [->|N]; [now left|right; congruence].
  - destruct (list_eq_dec ty_eq l l') as [->|N]; [now left|right; congruence].
  - destruct (list_eq_dec ty_eq u u') as [->|N]; [|right; congruence]. destruct (list_eq_dec ty_eq l l') as [->|N]; [now left|right; congruence].
  - destruct (Nat.eq_dec n n') as [->|N]; [now left|right; congruence].
  - destruct (Nat.eq_dec n n') as [->|N]; [now left|right; congruence].
  - destruct (Nat.eq_dec n n') as [->|N]; [now left|right; congruence].
  - assert (D : {c = c'} + {c <> c'}) by (repeat decide equality). destruct D as [->|N]; [now left|right; congruence].
  - assert (D : {v = v'} + {v <> v'}) by (repeat decide equality). destruct D as [->|N]; [now left|right; congruence].
  - destruct (Nat.eq_dec n n') as [->|N]; [|right; congruence]. destruct (bool_dec p p') as [->|N]; [|right; congruence]. destruct (bool_dec q q') as [->|N]; [|right; congruence]. destruct (ty_eq t t') as [->|N]; [now left|right; congruence].
Defined.
(** What is offered: a snippet by its label and text, lists made elsewhere (fonts, features, languages, regions, labels, references, paths; ty.rs:154-158,198-230,264-270), values (ty.rs:87), constructors and types (ty.rs:293-323), elements (ty.rs:332-339), and named parameters (ty.rs:119). *)
Inductive item :=
  | ISnip (label apply : string) | IFonts | IFeatures | ILangs | IRegions | ILabels (bib : bool) | IRefs | IPath (n : nat)
  | IValue (v : vl) | ICons (n : nat) | IScope (n : nat) | IElement (n : nat) | IField (n : nat).
(** co.rs:695-704: the filter, in the text of strings and elsewhere. *)
Definition filter (in_string : bool) (t : ty) : bool :=
  if in_string then match t with TBuiltin (BPath _) | TBuiltin BFont | TBuiltin BFeature | TValue (VStr _) => true | _ => false end else true.
(** What is done for a type, in order (ty.rs:27-133): an item is offered, another type is completed, or a parameter is named. *)
Inductive action := Emit (i : item) | Go (t : ty) | Name (n : nat).
(** ty.rs:10-17 [snippet_completion]: not if the filter does not take any type. *)
Definition snips (in_string : bool) (l : list (string * string)) : list action :=
  if filter in_string (TNo 0) then map (fun x => Emit (ISnip (fst x) (snd x))) l else [].
(** ty.rs:138-344 [builtin_type_completion]. *)
Definition builtin (in_string : bool) (b : bt) : list action :=
  let snips := snips in_string in
  match b with
  | BNone => snips [("none", "none")]
  | BAuto => snips [("auto", "auto")]
  | BPath n => [Emit (IPath n)]
  | BStroke => snips [("stroke()", "stroke(${})"); ("()", "(${})")] ++ [Go (TBuiltin BColor); Go (TBuiltin BLength)]
  | BColor => snips [("luma()", "luma(${v})"); ("rgb()", "rgb(${r}, ${g}, ${b}, ${a})"); ("cmyk()", "cmyk(${c}, ${m}, ${y}, ${k})"); ("oklab()", "oklab(${l}, ${a}, ${b}, ${alpha})");
      ("oklch()", "oklch(${l}, ${chroma}, ${hue}, ${alpha})"); ("color.linear-rgb()", "color.linear-rgb(${r}, ${g}, ${b}, ${a})"); ("color.hsv()", "color.hsv(${h}, ${s}, ${v}, ${a})"); ("color.hsl()", "color.hsl(${h}, ${s}, ${l}, ${a})")]
  | BLang => [Emit ILangs]
  | BRegion => [Emit IRegions]
  | BFont => [Emit IFonts]
  | BFeature => [Emit IFeatures]
  | BMargin | BInset | BOutset | BRadius => snips [("()", "(${})")] ++ [Go (TBuiltin BLength)]
  | BLength => snips [("pt", "${1}pt"); ("mm", "${1}mm"); ("cm", "${1}cm"); ("in", "${1}in"); ("em", "${1}em")] ++ [Go (TBuiltin BAuto)]
  | BFloat => snips [("exponential notation", "${1}e${0}")]
  | BLabel => [Emit (ILabels false)]
  | BCite => [Emit (ILabels true)]
  | BRef => [Emit IRefs]
  | BType TtNone => [Go (TBuiltin BNone)]
  | BType TtAuto => [Go (TBuiltin BAuto)]
  | BType TtBool => snips [("false", "false"); ("true", "true")]
  | BType TtColor => [Go (TBuiltin BColor)]
  | BType TtLabel => [Emit (ILabels false)]
  | BType TtFunc => snips [("function", "(${params}) => ${output}")]
  | BType (TtCons n) => [Emit (ICons n)]
  | BType (TtScope n) => [Emit (IScope n)]
  | BType (TtBare _) => []
  | BElement n => [Emit (IElement n)]
  | BOther _ => []
  end.
(** ty.rs:27-133: what is done for a type. *)
Definition plan (in_string : bool) (t : ty) : list action :=
  match t with
  | TNo _ => []
  | TUnion l => map Go l
  | TLet ubs lbs => map Go ubs ++ map Go lbs
  | TArray _ | TDict _ => if filter in_string t then snips in_string [("()", "(${})")] else []
  | TBool _ => if filter in_string t then snips in_string [("false", "false"); ("true", "true")] else []
  | TBuiltin b => if filter in_string t then builtin in_string b else []
  | TValue v =>
      if filter in_string t then
        match v with VType k => [Go (TBuiltin (BType k))] | VNone => [Go (TBuiltin BNone)] | VAuto => [Go (TBuiltin BAuto)] | _ => [Emit (IValue v)] end
      else []
  | TParam n positional named u => (if positional then [Go u] else []) ++ (if named then [Name n] else [])
  end.
(** The sets of types and parameters seen (ty.rs:21,99), and what is offered. *)
Record state := { seen : list ty; fields : list nat; out : list item }.
(** Ranks of types, for the recursion of ty.rs:19 to be total. *)
Fixpoint size (t : ty) : nat :=
  match t with
  | TUnion l => S (list_sum (map size l))
  | TLet ubs lbs => S (list_sum (map size ubs) + list_sum (map size lbs))
  | TBuiltin b => match b with BLength => 2 | BStroke | BMargin | BInset | BOutset | BRadius => 3 | BType _ => 4 | _ => 1 end
  | TValue _ => 5
  | TParam _ _ _ u => S (size u)
  | _ => 1
  end.
(** ty.rs:19-136 [type_completion]; [mark] is whether the text before is that of a label or reference (ty.rs:106-112). *)
Fixpoint go (fuel : nat) (in_string mark : bool) (t : ty) (s : state) : state :=
  match fuel with
  | 0 => s
  | S k =>
      if in_dec ty_eq t (seen s) then s
      else fold_left (fun s a =>
             match a with
             | Emit i => {| seen := seen s; fields := fields s; out := out s ++ [i] |}
             | Go u => go k in_string mark u s
             | Name n =>
                 if in_dec Nat.eq_dec n (fields s) then s
                 else {| seen := seen s; fields := n :: fields s; out := if filter in_string t && negb mark then out s ++ [IField n] else out s |}
             end) (plan in_string t) {| seen := t :: seen s; fields := fields s; out := out s |}
  end.
(** co.rs:705-709: the items by the type at the cursor; as many steps as its rank are enough. *)
Definition type_completion (in_string mark : bool) (t : ty) : list item := out (go (size t) in_string mark t {| seen := []; fields := []; out := [] |}).
