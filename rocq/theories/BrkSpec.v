(** * What the text the debugger runs should be *)

From Coq Require Import String Ascii List Arith Bool.
From Verif Require Import CovModel CovSpec.
Import ListNotations.
Local Open Scope nat_scope.
Local Open Scope list_scope.

(** Trees of a parser: what has children has no text of its own, and the
    constructs with bodies are no leaves. *)
Inductive parsed : node -> Prop :=
| parsed_leaf k sp t : ~ In k [KWhile; KFor; KIf; KClosure; KShow] -> parsed (Node k sp t [])
| parsed_inner k sp cs : (forall c, In c cs -> parsed c) -> parsed (Node k sp [] cs).

(** The test for breakpoint [i] of a kind. *)
Definition test (kind : string) (i : nat) (t : list nat) : Prop :=
  exists d, numeral i d /\
    t = codes ("if __breakpoint_" ++ kind ++ "(") ++ d ++ codes (") {__breakpoint_" ++ kind ++ "_handle(") ++ d
        ++ codes ", (:)); };" ++ [10].

(** Text of a node with tests woven in, the first of number [i], and the places
    of the tests.  The tests come in whole frames around what belongs to a
    node: a block with a test at its start, at the place of the first child,
    and one at its end, at the place of the last of the other children; or a
    function with a test, at the place of the node. *)
Inductive woven : node -> nat -> list part -> list nat -> Prop :=
| w_leaf k sp t i : woven (Node k sp t []) i [Kept t] []
| w_inner k sp cs i ps ms : wovens cs i ps ms -> woven (Node k sp [] cs) i ps ms
| w_block n i a ps ms b : test "block_start" i a -> woven n (S i) ps ms -> test "block_end" (S i + length ms) b ->
    woven n i ([New (codes "{" ++ [10]); New a] ++ ps ++ [New [10]; New b; New (codes "}" ++ [10])])
      (hd 0 (map nspan (children n)) :: ms ++ [last (map nspan (tl (children n))) 0])
| w_show n i ps ms a : woven n i ps ms -> test "show_start" (i + length ms) a ->
    woven n i ([New (codes "{" ++ [10] ++ codes "let __bp_functor = ")] ++ ps
               ++ [New ([10] ++ codes "__it => {"); New a; New (codes "__bp_functor(__it); } }" ++ [10])])
      (ms ++ [nspan n])
with wovens : list node -> nat -> list part -> list nat -> Prop :=
| ws_nil i : wovens [] i [] []
| ws_cons c cs i ps ms ps' ms' : woven c i ps ms -> wovens cs (i + length ms) ps' ms' ->
    wovens (c :: cs) i (ps ++ ps') (ms ++ ms').

(** [inside p n]: [p] is [n] or deep inside of it. *)
Inductive inside : node -> node -> Prop :=
| inside_self n : inside n n
| inside_child p k sp t cs c : In c cs -> inside p c -> inside p (Node k sp t cs).

(** A node has a frame of tests: in the new text [b] is in a block, with tests
    before and after it that have the places of its first and last child. *)
Definition stops (b : node) (text places : list nat) : Prop :=
  exists i before after s e ps ms,
    text = before ++ codes "{" ++ [10] ++ s ++ flat_map part_text ps ++ [10] ++ e ++ codes "}" ++ [10] ++ after /\
    woven b (S i) ps ms /\
    test "block_start" i s /\ test "block_end" (S i + length ms) e /\
    nth_error places i = Some (hd 0 (map nspan (children b))) /\
    nth_error places (S i + length ms) = Some (last (map nspan (tl (children b))) 0).
