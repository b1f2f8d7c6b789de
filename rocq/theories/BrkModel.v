(** * Model of the text the debugger runs

    crates/tinymist-debug/src/debugger/instr.rs 7-207: the tests for
    breakpoints that are put into a file, and the places they stand for.

    Syntax nodes, the spans of the bodies of loops, conditionals and closures
    and the numerals are those of [CovModel.v].  The session and the functions
    the tests call are in [CovModel.v] too (C118).  Simplification: the text is
    built from pieces that remember where they come from. *)

From Coq Require Import String Ascii List Arith Bool.
From Verif Require Import CovModel.
Import ListNotations.
Local Open Scope nat_scope.
Local Open Scope list_scope.

(** The kinds of breakpoints that are put into texts
    (crates/tinymist-debug/src/debugger.rs 24-55; used at
    crates/tinymist-debug/src/debugger/instr.rs 192, 195 and 204). *)
Inductive bkind := BlockStart | BlockEnd | ShowStart.

(** [to_str] (crates/tinymist-debug/src/debugger.rs 57-77). *)
Definition to_str (k : bkind) : string :=
  match k with
  | BlockStart => "block_start"
  | BlockEnd => "block_end"
  | ShowStart => "show_start"
  end.

(** What is pushed to the new text: text of the program, text that is added,
    a test (crates/tinymist-debug/src/debugger/instr.rs 36-39). *)
Inductive piece := Orig (t : list nat) | Added (t : list nat) | Test (k : bkind) (i : nat).

(** What is done with a child: [visit_node], [instrument_block],
    [instrument_functor] (crates/tinymist-debug/src/debugger/instr.rs 42-50
    and 79-90). *)
Inductive mode := Visit | Block | Functor.

(** How the children of a node that is visited are treated
    (crates/tinymist-debug/src/debugger/instr.rs 42-92).  The default of a
    missing branch is detached. *)
Definition child_mode (k : kind) (cs : list node) (c : node) : mode :=
  match k with
  | KWhile | KFor | KClosure =>
      if (span_opt (last_expr cs) =? nspan c) || (0 =? nspan c) then Block else Visit
  | KIf =>
      if (span_opt (nth_error (exprs cs) 1) =? nspan c) || (span_opt (nth_error (exprs cs) 2) =? nspan c)
      then Block else Visit
  | KShow => if span_opt (last_expr cs) =? nspan c then Functor else Visit
  | _ => Visit
  end.

(** The children one after the other; a test gets the number of places there
    are (crates/tinymist-debug/src/debugger/instr.rs 43, 82, 156 and 162). *)
Definition seq_with {A} (f : A -> nat -> list piece * list nat) :=
  fix go (l : list A) (i : nat) : list piece * list nat :=
    match l with
    | [] => ([], [])
    | c :: l' =>
        let '(p1, m1) := f c i in
        let '(p2, m2) := go l' (i + length m1) in
        (p1 ++ p2, m1 ++ m2)
    end.

(** The text of a node itself (crates/tinymist-debug/src/debugger/instr.rs 151-154). *)
Definition own (n : node) : list piece := match ntext n with [] => [] | t => [Orig t] end.

(** The walk: the pieces pushed and the places pushed, the first of which gets
    the number [i] (crates/tinymist-debug/src/debugger/instr.rs 42-206). *)
Fixpoint visit (md : mode) (n : node) (i : nat) {struct n} : list piece * list nat :=
  (* visit_node_fallback, lines 150-159 *)
  let fallback (i : nat) :=
    let '(p, m) := seq_with (visit Visit) (children n) i in (own n ++ p, m) in
  (* instrument_block, lines 177-197 *)
  let block (i : nat) :=
    let '(p, m) := fallback (S i) in
    ([Added (codes "{" ++ [10]); Test BlockStart i] ++ p
       ++ [Added [10]; Test BlockEnd (S i + length m); Added (codes "}" ++ [10])],
     first_span (children n) :: m ++ [last_span (children n)]) in
  match md with
  | Visit =>
      match n with
      | Node KBlock _ _ _ => block i
      | Node ((KWhile | KFor | KIf | KClosure | KShow) as k) _ _ cs =>
          seq_with (fun c i => visit (child_mode k cs c) c i) cs i
      | _ => fallback i
      end
  | Block => block i
  | Functor =>
      (* instrument_functor, lines 199-206 *)
      let '(p, m) := fallback i in
      ([Added (codes "{" ++ 10 :: codes "let __bp_functor = ")] ++ p
         ++ [Added (10 :: codes "__it => {"); Test ShowStart (i + length m);
             Added (codes "__bp_functor(__it); } }" ++ [10])],
       m ++ [nspan n])
  end.

(** The characters of a piece ([make_cov];
    crates/tinymist-debug/src/debugger/instr.rs 161-175). *)
Definition text_of_piece (p : piece) : list nat :=
  match p with
  | Orig t | Added t => t
  | Test k i =>
      codes "if __breakpoint_" ++ codes (to_str k) ++ codes "(" ++ dec (S i) i ++ codes ") {"
      ++ codes "__breakpoint_" ++ codes (to_str k) ++ codes "_handle(" ++ dec (S i) i ++ codes ", (:)); "
      ++ codes "};" ++ [10]
  end.

(** [instrument_breakpoints]: the new text and the places
    (crates/tinymist-debug/src/debugger/instr.rs 22-34). *)
Definition instrument (root : node) : list nat * list nat :=
  let '(p, m) := visit Visit root 0 in (flat_map text_of_piece p, m).
