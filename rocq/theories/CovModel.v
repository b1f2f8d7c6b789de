(** The coverage of a run: the text with the calls that count
    (crates/tinymist-debug/src/cov.rs:240-440), the counts
    (crates/tinymist-debug/src/cov.rs:168-233), the report
    (crates/tinymist-debug/src/cov.rs:29-75,116-155), the world that hands the
    texts to the compiler (crates/tinymist-debug/src/instrument.rs:46-55), and
    the session of the debugger (crates/tinymist-debug/src/debugger.rs:119-138).

    A character is its code; a span a number, [0] the detached one. *)
From Coq Require Import String Ascii List Arith Bool.
Import ListNotations.
Local Open Scope nat_scope.
Local Open Scope list_scope.

(** The characters of a string constant of crates/tinymist-debug/src/cov.rs:319-437. *)
Fixpoint codes (s : string) : list nat :=
  match s with
  | EmptyString => []
  | String a s' => nat_of_ascii a :: codes s'
  end.

(** The kinds of nodes that crates/tinymist-debug/src/cov.rs:275-377 tells
    apart: code blocks, loops, conditionals, closures, show rules, [context],
    set rules; other expressions; what is not an expression (keywords,
    punctuation, white space, comments). *)
Inductive kind :=
| KBlock | KWhile | KFor | KIf | KClosure | KShow | KContext | KSet | KExpr | KToken.

(** A syntax node: kind, span, text if it is a leaf, children.
    [SyntaxNode] as used at crates/tinymist-debug/src/cov.rs:382-391. *)
Inductive node := Node (k : kind) (sp : nat) (txt : list nat) (cs : list node).

(** crates/tinymist-debug/src/cov.rs:275 *)
Definition nkind (n : node) : kind := match n with Node k _ _ _ => k end.
(** crates/tinymist-debug/src/cov.rs:266 *)
Definition nspan (n : node) : nat := match n with Node _ s _ _ => s end.
(** crates/tinymist-debug/src/cov.rs:383 *)
Definition ntext (n : node) : list nat := match n with Node _ _ t _ => t end.
(** crates/tinymist-debug/src/cov.rs:388 *)
Definition children (n : node) : list node := match n with Node _ _ _ cs => cs end.

(** A node that is an expression, [cast::<ast::Expr>],
    crates/tinymist-debug/src/cov.rs:275. *)
Definition is_expr (n : node) : bool := match nkind n with KToken => false | _ => true end.

(** The expressions among the children.  Typst takes the body of a loop or a
    closure and the transform of a show rule to be the last of them, the
    branches of a conditional the second and the third, the body of [context]
    the first; used at crates/tinymist-debug/src/cov.rs:282-318. *)
Definition exprs (cs : list node) : list node := filter is_expr cs.

(** The span of an expression that may be missing; the default is detached,
    crates/tinymist-debug/src/cov.rs:293. *)
Definition span_opt (o : option node) : nat := match o with Some n => nspan n | None => 0 end.

(** The last expression, as used at crates/tinymist-debug/src/cov.rs:282,286,298,302. *)
Definition last_expr (cs : list node) : option node := nth_error (rev (exprs cs)) 0.

(** What is pushed to the new text: text of the program, text that is added,
    the number of a call that counts.  The tags are not in the code, which
    has one string, crates/tinymist-debug/src/cov.rs:260. *)
Inductive piece := Orig (t : list nat) | Added (t : list nat) | Pc (i : nat).

(** The kinds of marks, crates/tinymist-debug/src/cov.rs:232-237. *)
Inductive mkind := OpenBrace | CloseBrace | Show.

(** What is done with a child: it is visited, made a block, or wrapped as the
    transform of a show rule.
    crates/tinymist-debug/src/cov.rs:264-316. *)
Inductive mode := Visit | Block | ShowSet | ShowFn.

(** How the children of a node that is visited are treated,
    crates/tinymist-debug/src/cov.rs:264-316.  The spans compared with are
    computed from all the children. *)
Definition child_mode (k : kind) (cs : list node) (c : node) : mode :=
  match k with
  | KWhile | KFor | KClosure =>
      if (span_opt (last_expr cs) =? nspan c) || (0 =? nspan c) then Block else Visit
  | KIf =>
      if (span_opt (nth_error (exprs cs) 1) =? nspan c) || (span_opt (nth_error (exprs cs) 2) =? nspan c)
      then Block else Visit
  | KShow =>
      if span_opt (last_expr cs) =? nspan c then
        match last_expr cs with
        | Some (Node KSet _ _ _) => ShowSet
        | _ => ShowFn
        end
      else Visit
  | _ => Visit
  end.

(** The children one after the other, the marks numbered on,
    crates/tinymist-debug/src/cov.rs:265,304,388. *)
Definition seq_with {A} (f : A -> nat -> list piece * list (nat * mkind)) :=
  fix go (l : list A) (i : nat) : list piece * list (nat * mkind) :=
    match l with
    | [] => ([], [])
    | c :: l' =>
        let '(p1, m1) := f c i in
        let '(p2, m2) := go l' (i + length m1) in
        (p1 ++ p2, m1 ++ m2)
    end.

(** The text of a node itself, empty for inner nodes,
    crates/tinymist-debug/src/cov.rs:383-386. *)
Definition own (n : node) : list piece := match ntext n with [] => [] | t => [Orig t] end.

(** The spans of the first child and of the last of the others,
    crates/tinymist-debug/src/cov.rs:403-415. *)
Definition first_span (cs : list node) : nat := match cs with [] => 0 | c :: _ => nspan c end.
(** crates/tinymist-debug/src/cov.rs:409-412 *)
Definition last_span (cs : list node) : nat :=
  match cs with [] => 0 | _ :: cs' => span_opt (nth_error (rev cs') 0) end.

(** The walk: the pieces pushed and the marks made, the first mark getting the
    number [i].  crates/tinymist-debug/src/cov.rs:274-439. *)
Fixpoint visit (md : mode) (n : node) (i : nat) {struct n} : list piece * list (nat * mkind) :=
  let all := seq_with (visit Visit) in
  (* instrument_block, lines 401-421 *)
  let block (i : nat) :=
    let '(p, m) := all (children n) (S i) in
    let j := S i + length m in
    ([Added (codes "{" ++ [10]); Pc i] ++ own n ++ p ++ [Added [10]; Pc j; Added (codes "}")],
     (first_span (children n), OpenBrace) :: m ++ [(last_span (children n), CloseBrace)]) in
  (* visit_node, lines 274-380 *)
  let plain (i : nat) :=
    match n with
    | Node KBlock _ _ _ => block i
    | Node KContext _ _ cs =>
        let fix first (l : list node) (i : nat) : list piece * list (nat * mkind) :=
          match l with
          | [] => ([], [])
          | c :: l' => if is_expr c then visit Visit c i else first l' i
          end in
        let '(p, m) := first cs i in
        ([Orig (codes "context"); Added (codes " (")] ++ p ++ [Added (codes ")")], m)
    | Node k _ _ cs =>
        let '(p, m) := seq_with (fun c i => visit (child_mode k cs c) c i) cs i in
        (own n ++ p, m)
    end in
  match md with
  | Visit => plain i
  | Block => block i
  | ShowSet =>
      let '(p, m) := plain (S i) in
      ([Added (codes "__it => {"); Pc i] ++ p ++ [Added (10 :: codes "__it; }" ++ [10])], (nspan n, Show) :: m)
  | ShowFn =>
      let '(p, m) := plain i in
      ([Added (codes "{" ++ 10 :: codes "let __cov_show_body = ")] ++ p
       ++ [Added (10 :: codes "__it => {"); Pc (i + length m);
           Added (codes "if type(__cov_show_body) == function { __cov_show_body(__it); } else { __cov_show_body } } }" ++ [10])],
       m ++ [(nspan n, Show)])
  end.

(** The decimal digits of a number, [to_string] at
    crates/tinymist-debug/src/cov.rs:397; the fuel is the number. *)
Fixpoint dec (fuel n : nat) : list nat :=
  match fuel with
  | 0 => []
  | S fuel' => (if n <? 10 then [] else dec fuel' (n / 10)) ++ [48 + n mod 10]
  end.

(** The characters of a piece, crates/tinymist-debug/src/cov.rs:393-399. *)
Definition text_of_piece (p : piece) : list nat :=
  match p with
  | Orig t | Added t => t
  | Pc i => codes "__cov_pc(" ++ dec (S i) i ++ codes ");" ++ [10]
  end.

(** The new text and the marks, crates/tinymist-debug/src/cov.rs:245-256. *)
Definition instrument (root : node) : list nat * list (nat * mkind) :=
  let '(p, m) := visit Visit root 0 in (flat_map text_of_piece p, m).

(** ** The counts *)

(** A map from numbers, newest entry first; used for the maps of
    crates/tinymist-debug/src/cov.rs:168-171,191-196. *)
Fixpoint get {A} (k : nat) (l : list (nat * A)) : option A :=
  match l with
  | [] => None
  | (x, v) :: l' => if k =? x then Some v else get k l'
  end.

(** The counters of a file are shared ([Arc]), so they live in a heap and the
    maps hold their place in it.  crates/tinymist-debug/src/cov.rs:166-203. *)
Record state := {
  heap : list (list nat);                     (* the counters *)
  regions : list (nat * nat);                 (* file, place: crates/tinymist-debug/src/cov.rs:195 *)
  last_hit : option (nat * nat);              (* crates/tinymist-debug/src/cov.rs:193 *)
  metas : list (nat * list (nat * mkind))     (* file, marks: crates/tinymist-debug/src/cov.rs:170 *)
}.

(** Nothing counted, crates/tinymist-debug/src/cov.rs:207 and crates/tinymist-debug/src/lib.rs:50-56. *)
Definition state0 : state := {| heap := []; regions := []; last_hit := None; metas := [] |}.

(** A file is given a fresh region, crates/tinymist-debug/src/cov.rs:174-187. *)
Definition add_file (f : nat) (m : list (nat * mkind)) (s : state) : state :=
  {| heap := heap s ++ [repeat 0 (length m)]; regions := (f, length (heap s)) :: regions s;
     last_hit := last_hit s; metas := (f, m) :: metas s |}.

(** One more, for a counter of eight bits; [saturating_add],
    crates/tinymist-debug/src/cov.rs:218,227. *)
Definition incr (c : nat) : nat := Nat.min 255 (c + 1).

(** Changing an element; [None]: the index is out of bounds, a panic.
    crates/tinymist-debug/src/cov.rs:217,226. *)
Fixpoint bump (i : nat) (l : list nat) : option (list nat) :=
  match i, l with
  | _, [] => None
  | 0, c :: l' => Some (incr c :: l')
  | S i', c :: l' => option_map (cons c) (bump i' l')
  end.

(** Changing a region of the heap, crates/tinymist-debug/src/cov.rs:216-218. *)
Fixpoint bump_heap (p i : nat) (h : list (list nat)) : option (list (list nat)) :=
  match p, h with
  | _, [] => None
  | 0, r :: h' => option_map (fun r' => r' :: h') (bump i r)
  | S p', r :: h' => option_map (cons r) (bump_heap p' i h')
  end.

(** [__cov_pc] called in a file, crates/tinymist-debug/src/cov.rs:209-230:
    [None] is a panic.  A negative argument becomes a huge one. *)
Definition cov_pc (f i : nat) (s : state) : option state :=
  match last_hit s with
  | Some (g, p) =>
      if g =? f then option_map (fun h => {| heap := h; regions := regions s; last_hit := last_hit s; metas := metas s |})
                       (bump_heap p i (heap s))
      else
        match get f (regions s) with
        | Some p => option_map (fun h => {| heap := h; regions := regions s; last_hit := Some (f, p); metas := metas s |})
                      (bump_heap p i (heap s))
        | None => None
        end
  | None =>
      match get f (regions s) with
      | Some p => option_map (fun h => {| heap := h; regions := regions s; last_hit := Some (f, p); metas := metas s |})
                    (bump_heap p i (heap s))
      | None => None
      end
  end.

(** ** The world *)

(** The files already given to the compiler, and the state of the counts.
    crates/tinymist-debug/src/instrument.rs:21-26. *)
Record world := { given : list (nat * option (list nat)); counts : state }.

(** [source], crates/tinymist-debug/src/instrument.rs:46-55: the text of a
    file, [base] giving the parsed file or failing. *)
Definition source (base : nat -> option node) (f : nat) (w : world) : world * option (list nat) :=
  match get f (given w) with
  | Some r => (w, r)
  | None =>
      match base f with
      | None => ({| given := (f, None) :: given w; counts := counts w |}, None)
      | Some root =>
          let '(t, m) := instrument root in
          ({| given := (f, Some t) :: given w; counts := add_file f m (counts w) |}, Some t)
      end
  end.

(** What the compiler does: it reads files and runs the calls.
    crates/tinymist-debug/src/lib.rs:28-42. *)
Inductive op := Read (f : nat) | Call (f i : nat).

(** One operation, crates/tinymist-debug/src/instrument.rs:46 and crates/tinymist-debug/src/cov.rs:209. *)
Definition step (base : nat -> option node) (o : op) (w : world) : option world :=
  match o with
  | Read f => Some (fst (source base f w))
  | Call f i => option_map (fun s => {| given := given w; counts := s |}) (cov_pc f i (counts w))
  end.

(** A run, crates/tinymist-debug/src/lib.rs:46-66. *)
Fixpoint run (base : nat -> option node) (l : list op) (w : world) : option world :=
  match l with
  | [] => Some w
  | o :: l' => match step base o w with Some w' => run base l' w' | None => None end
  end.

(** A new world, crates/tinymist-debug/src/lib.rs:50-55; the counts have been
    taken by the run before, line 64. *)
Definition world0 : world := {| given := []; counts := state0 |}.

(** ** The report *)

(** The counters of a file, as read at crates/tinymist-debug/src/cov.rs:52,133. *)
Definition hits (s : state) (f : nat) : option (list nat) :=
  match get f (regions s) with Some p => nth_error (heap s) p | None => None end.

(** The entries of a file: for each mark with a range whether it was executed.
    [None]: a panic (indexing, line 66).  crates/tinymist-debug/src/cov.rs:52-69. *)
Fixpoint details (range : nat -> option (nat * nat)) (h : list nat) (i : nat) (m : list (nat * mkind)) : option (list (bool * (nat * nat))) :=
  match m with
  | [] => Some []
  | (sp, _) :: m' =>
      match range sp with
      | None => details range h (S i) m'
      | Some r =>
          match nth_error h i with
          | None => None
          | Some c => option_map (cons (0 <? c, r)) (details range h (S i) m')
          end
      end
  end.

(** The numbers of covered marks and of all marks of a file,
    crates/tinymist-debug/src/cov.rs:128-138. *)
Definition summary (s : state) (f : nat) : option (nat * nat) :=
  match hits s f, get f (metas s) with
  | Some h, Some m => Some (length (filter (fun c => 0 <? c) h), length m)
  | _, _ => None
  end.

(** ** The session of the debugger *)

(** [set_debug_session]: the new state of the session and the answer,
    crates/tinymist-debug/src/debugger.rs:132-142. *)
Definition set_session (now new : option nat) : option nat * bool :=
  match new with
  | Some _ => (now, false)
  | None => (None, true)
  end.

(** [start_session]: the events of the adaptor, whether the compilation is
    run, crates/tinymist-dap/src/lib.rs:62-93. *)
Inductive dap := BeforeCompile | Compiled | Terminated.

(** crates/tinymist-dap/src/lib.rs:62-93; the state of the session afterwards *)
Definition start_session (now : option nat) (id : nat) : option nat * list dap :=
  let '(now1, ok) := set_session now (Some id) in
  if negb ok then (now1, [Terminated])
  else let '(now2, _) := set_session now1 None in (now2, [BeforeCompile; Compiled; Terminated]).
