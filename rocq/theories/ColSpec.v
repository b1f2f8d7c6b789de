(** What the colors of a document are, without the definitions of the model that find them. *)
From Coq Require Import String List Arith.
From Verif Require Import ColModel.
Import ListNotations.

(** A node at an offset, below another. *)
Inductive below : nat -> node -> nat -> node -> Prop :=
| Self : forall o n, below o n o n
| Child : forall o k pre c post o' m, k <> KTrivia -> k <> KKeyword -> k <> KError ->
    below (o + list_sum (map len pre)) c o' m -> below o (Inner k (pre ++ c :: post)) o' m.
(** Expressions. *)
Inductive expression : node -> Prop :=
| E_call : forall cs, expression (Inner KFuncCall cs)
| E_field : forall cs, expression (Inner KFieldAccess cs)
| E_ident : forall t, expression (Leaf KIdent t)
| E_str : forall t, expression (Leaf KStr t)
| E_leaf : forall t, expression (Leaf KExpr t)
| E_inner : forall cs, expression (Inner KExpr cs).
(** Trees of the parser: identifiers and strings are tokens, calls and accesses are not. *)
Inductive regular : node -> Prop :=
| R_leaf : forall k t, k <> KFuncCall -> k <> KFieldAccess -> k <> KArgs -> regular (Leaf k t)
| R_inner : forall k cs, k <> KIdent -> k <> KStr -> Forall regular cs -> regular (Inner k cs).
(** The first expression among nodes. *)
Definition leads (cs : list node) (e : node) : Prop :=
  exists pre post, cs = pre ++ e :: post /\ expression e /\ Forall (fun m => ~ expression m) pre.
(** The name of the function that is called: an identifier, or a field of what is called [color]. *)
Definition called (cs : list node) (name : text) : Prop :=
  leads cs (Leaf KIdent name) \/
  exists fs, leads cs (Inner KFieldAccess fs) /\ leads fs (Leaf KIdent (lit "color")) /\
    exists pre post, fs = pre ++ Leaf KIdent name :: post /\ forall t, ~ In (Leaf KIdent t) post.
(** The arguments, without the punctuation. *)
Definition argument (m : node) : Prop := expression m \/ nkind m = KNamed \/ nkind m = KSpread.
Inductive kept : list node -> list node -> Prop :=
| K_nil : kept [] []
| K_arg : forall m l r, argument m -> kept l r -> kept (m :: l) (m :: r)
| K_other : forall m l r, ~ argument m -> kept l r -> kept (m :: l) r.
Definition arguments (cs : list node) (l : list node) : Prop :=
  (exists pre a post, cs = pre ++ Inner KArgs a :: post /\ (forall b, ~ In (Inner KArgs b) post) /\ kept a l) \/
  ((forall b, ~ In (Inner KArgs b) cs) /\ l = []).
(** A call that stands for a color: [rgb] of one string of digits, [rgb] of more arguments than one that evaluates to a color, and a call of
    another function of colors that evaluates to one. *)
Definition stands (hex : text -> option rgba) (eval : node -> option rgba) (n : node) (c : rgba) : Prop :=
  exists cs name l, n = Inner KFuncCall cs /\ called cs name /\ arguments cs l /\
    ((name = lit "rgb" /\ exists t, l = [Leaf KStr t] /\ hex t = Some c) \/
     (name = lit "rgb" /\ 2 <= length l /\ eval n = Some c) \/
     (In name [lit "luma"; lit "oklab"; lit "oklch"; lit "linear-rgb"; lit "cmyk"; lit "hsl"; lit "hsv"] /\ eval n = Some c)).
(** The order of the answer: one ends before the other begins, or is around it. *)
Definition precedes (x y : info) : Prop :=
  i_end x <= i_start y \/ (i_start x <= i_start y /\ i_end y <= i_end x /\ (i_start x < i_start y \/ i_end y < i_end x)).
