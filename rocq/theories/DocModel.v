(** The documentation of definitions and modules: which comments belong to
    which definition, what their text is, and what is read off it.
    crates/tinymist-analysis/src/syntax/comment.rs,
    crates/tinymist-query/src/syntax/expr.rs, docs.rs in the same directory and
    crates/tinymist-analysis/src/docs/tidy.rs.  A text is a list of code points. *)
From Coq Require Import List Arith NArith Bool.
Import ListNotations.

(** crates/tinymist-analysis/src/syntax/comment.rs:129-132 *)
Definition text := list N.

(** Named characters, crates/tinymist-analysis/src/syntax/comment.rs:91,205. *)
Definition NL : N := 10%N.
(** crates/tinymist-analysis/src/docs/tidy.rs (through [str::lines]) *)
Definition CR : N := 13%N.
(** crates/tinymist-analysis/src/docs/tidy.rs:104 *)
Definition SP : N := 32%N.
(** crates/tinymist-analysis/src/docs/tidy.rs:105,148 *)
Definition OPEN : N := 40%N.
(** crates/tinymist-analysis/src/docs/tidy.rs:149 *)
Definition CLOSE : N := 41%N.
(** crates/tinymist-analysis/src/syntax/comment.rs:182 *)
Definition STAR : N := 42%N.
(** crates/tinymist-analysis/src/docs/tidy.rs:50,73 *)
Definition MINUS : N := 45%N.
(** crates/tinymist-analysis/src/syntax/comment.rs:175 *)
Definition SLASH : N := 47%N.
(** crates/tinymist-analysis/src/docs/tidy.rs:106 *)
Definition COLON : N := 58%N.
(** crates/tinymist-analysis/src/docs/tidy.rs:50 *)
Definition GT : N := 62%N.
(** crates/tinymist-query/src/syntax/docs.rs:115 *)
Definition TICK : N := 96%N.
(** crates/tinymist-query/src/syntax/docs.rs:111 *)
Definition BACKSLASH : N := 92%N.

(** [char::is_whitespace]: the property White_Space of Unicode,
    crates/tinymist-analysis/src/syntax/comment.rs:194. *)
Definition white (c : N) : bool :=
  (((9 <=? c) && (c <=? 13)) || (c =? 32) || (c =? 133) || (c =? 160) || (c =? 5760) ||
  ((8192 <=? c) && (c <=? 8202)) || (c =? 8232) || (c =? 8233) || (c =? 8239) || (c =? 8287) || (c =? 12288))%N.

(** [str::trim_start_matches] and the like: without the longest prefix of such
    characters.  crates/tinymist-analysis/src/syntax/comment.rs:175. *)
Fixpoint drop_while (p : N -> bool) (s : text) : text :=
  match s with [] => [] | c :: s' => if p c then drop_while p s' else s end.
(** [trim_start], crates/tinymist-analysis/src/docs/tidy.rs:50,72. *)
Definition trim_start (s : text) : text := drop_while white s.
(** [trim_end], crates/tinymist-analysis/src/docs/tidy.rs:61. *)
Definition trim_end (s : text) : text := rev (drop_while white (rev s)).
(** [trim], crates/tinymist-analysis/src/syntax/comment.rs:180. *)
Definition trim (s : text) : text := trim_end (trim_start s).

(** [strip_prefix], crates/tinymist-analysis/src/syntax/comment.rs:180. *)
Fixpoint strip_prefix (p s : text) : option text :=
  match p, s with
  | [], _ => Some s
  | a :: p', b :: s' => if N.eqb a b then strip_prefix p' s' else None
  | _ :: _, [] => None
  end.
(** [strip_suffix], crates/tinymist-analysis/src/syntax/comment.rs:180. *)
Definition strip_suffix (p s : text) : option text := option_map (@rev N) (strip_prefix (rev p) (rev s)).

(** * Groups of comments *)

(** A child that is no expression, as the matcher tells them apart,
    crates/tinymist-analysis/src/syntax/comment.rs:84-117. *)
Inductive tok := THash | TSpace (s : text) | TPar | TLine (s : text) | TBlock (s : text) | TElse (trivia : bool).

(** A comment kept, crates/tinymist-analysis/src/syntax/comment.rs:120-123. *)
Inductive raw := RLine (s : text) | RBlock (s : text).

(** The matcher: the comments (in order), the newlines counted, and whether
    only [///] counts.  crates/tinymist-analysis/src/syntax/comment.rs:127-132. *)
Record matcher := { comments : list raw; newlines : nat; strict : bool }.

(** crates/tinymist-analysis/src/syntax/comment.rs:75-77,136-139 *)
Definition reset (m : matcher) : matcher := {| comments := []; newlines := 0; strict := strict m |}.

(** [process]: whether the group is broken.
    crates/tinymist-analysis/src/syntax/comment.rs:84-117,142-163. *)
Definition process (t : tok) (m : matcher) : matcher * bool :=
  match t with
  | THash => ({| comments := comments m; newlines := 0; strict := strict m |}, false)
  | TSpace s =>
      let n := if existsb (N.eqb NL) s then S (newlines m) else newlines m in
      ({| comments := comments m; newlines := n; strict := strict m |}, 1 <? n)
  | TPar => ({| comments := comments m; newlines := 2; strict := strict m |}, true)
  | TLine s =>
      ({| comments := if negb (strict m) || (match strip_prefix [SLASH; SLASH; SLASH] s with Some _ => true | None => false end)
                      then comments m ++ [RLine s] else comments m;
          newlines := 0; strict := strict m |}, false)
  | TBlock s =>
      ({| comments := if negb (strict m) then comments m ++ [RBlock s] else comments m; newlines := 0; strict := strict m |}, false)
  | TElse _ => ({| comments := comments m; newlines := 0; strict := strict m |}, true)
  end.

(** The inner text of a block comment, crates/tinymist-analysis/src/syntax/comment.rs:179-186. *)
Definition remove_comment (s : text) : option text :=
  match strip_prefix [SLASH; STAR] s with
  | None => None
  | Some s1 =>
      match strip_suffix [STAR; SLASH] s1 with
      | None => None
      | Some s2 =>
          let t := trim s2 in
          match strip_prefix [STAR] t with Some t' => Some (trim t') | None => Some t end
      end
  end.

(** crates/tinymist-analysis/src/syntax/comment.rs:172-190 *)
Definition content (r : raw) : text :=
  match r with
  | RLine s => drop_while (N.eqb SLASH) s
  | RBlock s => match remove_comment s with Some t => t | None => s end
  end.

(** [take_while(..).count()], crates/tinymist-analysis/src/syntax/comment.rs:194. *)
Fixpoint indent (s : text) : nat :=
  match s with [] => 0 | c :: s' => if white c then S (indent s') else 0 end.

(** The least indentation; of no comments none is asked for (the code starts
    with [usize::MAX]).  crates/tinymist-analysis/src/syntax/comment.rs:193-196. *)
Fixpoint dedent (l : list text) : nat :=
  match l with [] => 0 | [s] => indent s | s :: l' => Nat.min (indent s) (dedent l') end.

(** The comments one after the other, crates/tinymist-analysis/src/syntax/comment.rs:199-210. *)
Definition glue (l : list text) : text :=
  fold_left (fun acc s => match acc with [] => s | _ => acc ++ NL :: s end) l [].

(** [collect]: the text, and the matcher without comments.
    crates/tinymist-analysis/src/syntax/comment.rs:166-214. *)
Definition collect (m : matcher) : option text * matcher :=
  match comments m with
  | [] => (None, m)
  | _ =>
      let cs := map content (comments m) in
      (Some (glue (map (skipn (dedent cs)) cs)), {| comments := []; newlines := newlines m; strict := strict m |})
  end.

(** * The documentation of definitions *)

(** What is walked of an expression: [XLet d init]: a [let] of a pattern;
    [XFun d l]: a closure (named by a [let] or not) with the expressions in its
    parameters and its body; [XSeq l]: code, markup or math; [XOther l]: any
    other expression with the expressions checked in it, in that order.
    crates/tinymist-query/src/syntax/expr.rs:237-420,1002-1023.  A parbreak is
    an expression without parts. *)
Inductive ex :=
| XLet (d : nat) (init : option ex)
| XFun (d : nat) (l : list ex)
| XSeq (l : list (tok + ex))
| XOther (l : list ex).

(** The definitions with their documentation, the newest first, and the
    matcher.  crates/tinymist-query/src/syntax/expr.rs:170-176. *)
Definition st : Type := matcher * list (nat * text).

(** crates/tinymist-query/src/syntax/expr.rs:220-229,396,414; what is made of
    the text is [compute_docstring], which never fails for these kinds
    (crates/tinymist-query/src/syntax/docs.rs:30-35,56-89). *)
Definition take (d : nat) (s : st) : st :=
  let '(o, m) := collect (fst s) in
  (m, match o with Some t => (d, t) :: snd s | None => snd s end).

(** crates/tinymist-query/src/syntax/expr.rs:1002-1023,385-420 *)
Fixpoint walk (x : ex) (s : st) {struct x} : st :=
  match x with
  | XLet d init => let s1 := take d s in match init with Some y => walk y s1 | None => s1 end
  | XFun d l => (fix each (l : list ex) (s : st) {struct l} : st := match l with [] => s | y :: l' => each l' (walk y s) end) l (take d s)
  | XOther l => (fix each (l : list ex) (s : st) {struct l} : st := match l with [] => s | y :: l' => each l' (walk y s) end) l s
  | XSeq l =>
      (fix seq (l : list (tok + ex)) (s : st) {struct l} : st :=
         match l with
         | [] => s
         | inr y :: l' => let '(m, o) := walk y s in seq l' (reset m, o)
         | inl t :: l' => let '(m, b) := process t (fst s) in seq l' (if b then reset m else m, snd s)
         end) l (reset (fst s), snd s)
  end.

(** The documented definitions of a file, in the order they are met,
    crates/tinymist-query/src/syntax/expr.rs:93-118. *)
Definition documented (l : list (tok + ex)) : list (nat * text) :=
  rev (snd (walk (XSeq l) ({| comments := []; newlines := 0; strict := false |}, []))).

(** * The documentation of modules *)

(** The length of a child in the text; only which child comes first matters
    (crates/tinymist-analysis/src/syntax/comment.rs:9-18,32-41), so the walk
    goes over the children before the first that is no trivia. *)
Definition trivia (t : tok) : bool :=
  match t with THash => false | TSpace _ | TPar | TLine _ | TBlock _ => true | TElse b => b end.

(** [is_trivia] and the range up to the first other child,
    crates/tinymist-analysis/src/syntax/comment.rs:9-16. *)
Fixpoint head_trivia (l : list (tok + ex)) : list tok :=
  match l with
  | inl t :: l' => if trivia t then t :: head_trivia l' else []
  | _ => []
  end.

(** [extract_mod_docs_between] with [first_group],
    crates/tinymist-analysis/src/syntax/comment.rs:21-50. *)
Fixpoint first_group (l : list tok) (m : matcher) : matcher :=
  match l with
  | [] => m
  | t :: l' => let '(m', b) := process t m in if b then m' else first_group l' m'
  end.

(** crates/tinymist-analysis/src/syntax/comment.rs:6-19 *)
Definition module_docs (l : list (tok + ex)) : option text :=
  fst (collect (first_group (head_trivia l) {| comments := []; newlines := 0; strict := true |})).

(** * Reading off parameters *)

(** [str::lines], crates/tinymist-analysis/src/docs/tidy.rs:27. *)
Fixpoint lines_acc (cur : text) (s : text) : list text :=
  match s with
  | [] => match cur with [] => [] | _ => [rev cur] end
  | c :: s' =>
      if N.eqb c NL then rev (match cur with x :: cur' => if N.eqb x CR then cur' else cur | [] => cur end) :: lines_acc [] s'
      else lines_acc (c :: cur) s'
  end.
(** crates/tinymist-analysis/src/docs/tidy.rs:27 *)
Definition lines (s : text) : list text := lines_acc [] s.

(** [join] with newlines, crates/tinymist-analysis/src/docs/tidy.rs:119,127. *)
Fixpoint join (l : list text) : text :=
  match l with [] => [] | [s] => s | s :: l' => s ++ NL :: join l' end.

(** [split_once] at a character, crates/tinymist-analysis/src/docs/tidy.rs:104,106. *)
Fixpoint split_once (c : N) (s : text) : option (text * text) :=
  match s with
  | [] => None
  | x :: s' => if N.eqb x c then Some ([], s') else
               match split_once c s' with Some (a, b) => Some (x :: a, b) | None => None end
  end.

(** [match_brace]: what is before the bracket that closes, and the rest with
    it.  crates/tinymist-analysis/src/docs/tidy.rs:143-165; [n] is the count,
    which starts with 1. *)
Fixpoint match_brace (n : nat) (s : text) : option (text * text) :=
  match s with
  | [] => None
  | c :: s' =>
      let n' := if N.eqb c OPEN then S n else if N.eqb c CLOSE then pred n else n in
      if n' =? 0 then Some ([], s)
      else match match_brace n' s' with Some (a, b) => Some (c :: a, b) | None => None end
  end.

(** The marks that typlite writes at the begin and the end of an item of a
    list, crates/tinymist-analysis/src/docs/tidy.rs:62,74; they are parameters,
    only their being different texts matters. *)
Record marks := { begin_ : text; end_ : text }.

(** crates/tinymist-analysis/src/docs/tidy.rs:6-12; the default is never set. *)
Record param := { p_name : text; p_types : text; p_docs : text }.

(** The content of a line that begins an item,
    crates/tinymist-analysis/src/docs/tidy.rs:71-74. *)
Definition begins (k : marks) (s : text) : option text :=
  match strip_prefix [MINUS; SP] (trim_start s) with
  | Some t => strip_prefix (begin_ k) (trim t)
  | None => None
  end.

(** Upwards to the line that begins the item: its lines from the first to the
    last, and the lines above it (the last first).
    crates/tinymist-analysis/src/docs/tidy.rs:66-92. *)
Fixpoint find_begin (k : marks) (line : text) (above : list text) (buf : list text) : option (list text * list text) :=
  match begins k line with
  | Some t => Some (t :: buf, above)
  | None => match above with [] => None | l :: above' => find_begin k l above' (line :: buf) end
  end.

(** crates/tinymist-analysis/src/docs/tidy.rs:94-121 *)
Definition read_param (buf : list text) : option param :=
  match buf with
  | [] => None
  | first :: more =>
      match split_once SP (trim first) with
      | None => None
      | Some (name, rest) =>
          match strip_prefix [OPEN] (trim_start rest) with
          | None => None
          | Some rest =>
              match match_brace 1 rest with
              | None => None
              | Some (types, rest) =>
                  match split_once COLON rest with
                  | None => None
                  | Some (_, rest) => Some {| p_name := name; p_types := types; p_docs := join (trim rest :: more) |}
                  end
              end
          end
      end
  end.

(** The search from the last line upwards.  [up] are the lines not looked at,
    the last first; [brk] the number of lines the documentation has, if that is
    known; the parameters are in order.  crates/tinymist-analysis/src/docs/tidy.rs:29-124. *)
Fixpoint search (fuel : nat) (k : marks) (up : list text) (ret_first : bool) (ps : list param) (ret : option text) (brk : option nat)
  : list param * option text * option nat :=
  match fuel with
  | 0 => (ps, ret, brk)
  | S f =>
      match up with
      | [] => (ps, ret, brk)
      | [] :: up' => search f k up' ret_first ps ret brk
      | line :: up' =>
          match (if ret_first then strip_prefix [MINUS; GT] (trim_start line) else None) with
          | Some w => search f k up' false ps (Some (trim w)) (Some (length up'))
          | None =>
              match strip_suffix (end_ k) (trim_end line) with
              | None => (ps, ret, Some (S (length up')))
              | Some line' =>
                  match find_begin k line' up' [] with
                  | None => (ps, ret, Some (S (length up')))
                  | Some (buf, above) =>
                      match read_param buf with
                      | None => (ps, ret, Some (S (length up')))
                      | Some p => search f k above false (p :: ps) ret brk
                      end
                  end
              end
          end
      end
  end.

(** [identify_pat_docs]: the documentation, the type of the result and the
    parameters.  crates/tinymist-analysis/src/docs/tidy.rs:26-137. *)
Definition identify (k : marks) (s : text) : text * option text * list param :=
  let ls := lines s in
  let '(ps, ret, brk) := search (length ls) k (rev ls) true [] None None in
  (match brk with Some n => join (firstn n ls) | None => s end, ret, ps).

(** * What is shown if the documentation cannot be converted *)

(** The longest run of backticks, crates/tinymist-query/src/syntax/docs.rs:112-121. *)
Definition max_ticks (s : text) : nat :=
  fst (fold_left (fun mc c => let '(m, n) := mc in if N.eqb c TICK then (Nat.max m (S n), S n) else (m, 0)) s (0, 0)).

(** crates/tinymist-query/src/syntax/docs.rs:122 *)
Definition fence (s : text) : text := repeat TICK (Nat.max (max_ticks s + 1) 3).

(** [replace] of backticks, crates/tinymist-query/src/syntax/docs.rs:111. *)
Definition escape (s : text) : text := flat_map (fun c => if N.eqb c TICK then [BACKSLASH; TICK] else [c]) s.

(** [fallback_docs]: [failed] is the text "failed to parse docs: " and [typ] is
    "typ".  crates/tinymist-query/src/syntax/docs.rs:107-134. *)
Definition fallback (failed typ err docs : text) : text :=
  let three := repeat TICK 3 in
  three ++ [NL] ++ failed ++ escape err ++ [NL] ++ three ++ [NL; NL] ++ fence docs ++ typ ++ [NL] ++ docs ++ [NL] ++ fence docs ++ [NL].
