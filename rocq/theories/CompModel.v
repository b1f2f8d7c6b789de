(** Completions: the edit of an item, filtering and order, snippets, and
    postfix completions.  crates/tinymist-query/src/analysis/completion.rs,
    crates/tinymist-query/src/analysis/completion/snippet.rs,
    crates/tinymist-query/src/completion/snippet.rs. *)
From Coq Require Import List Arith NArith ZArith Bool.
From Verif Require Import DigModel PageModel.
Import ListNotations.
Local Open Scope nat_scope.

(** Texts are lists of characters and offsets count characters,
    crates/tinymist-query/src/analysis/completion.rs:153-160. *)
Definition text := list N.

(** * Placeholders *)

(** Dollar, braces, colon and newline,
    crates/tinymist-query/src/analysis/completion.rs:911,917. *)
Definition DOLLAR : N := 36.
(** crates/tinymist-query/src/analysis/completion.rs:911 *)
Definition LBRACE : N := 123.
(** crates/tinymist-query/src/analysis/completion.rs:911 *)
Definition RBRACE : N := 125.
(** crates/tinymist-query/src/analysis/completion.rs:917 *)
Definition COLON : N := 58.
(** crates/tinymist-query/src/analysis/completion.rs:911; [.] is not a newline. *)
Definition NEWLINE : N := 10.

(** [(.*?)\}]: up to the first closing brace on the line,
    crates/tinymist-query/src/analysis/completion.rs:911. *)
Fixpoint capture (t : text) : option (text * text) :=
  match t with
  | [] => None
  | c :: t' =>
      if N.eqb c RBRACE then Some ([], t')
      else if N.eqb c NEWLINE then None
      else match capture t' with Some (a, r) => Some (c :: a, r) | None => None end
  end.

(** A match at the start, crates/tinymist-query/src/analysis/completion.rs:911. *)
Definition hit (t : text) : option (text * text) :=
  match t with
  | a :: b :: t' => if N.eqb a DOLLAR && N.eqb b LBRACE then capture t' else None
  | _ => None
  end.

(** The matches from left to right: for each the text before it and what it
    captures, and the text after the last.  [n] is at least the length.
    crates/tinymist-query/src/analysis/completion.rs:916,
    crates/tinymist-query/src/analysis/completion/snippet.rs:107-110. *)
Fixpoint pieces (n : nat) (t : text) : list (text * text) * text :=
  match n, t with
  | S n', c :: t' =>
      match hit t with
      | Some (a, r) => let '(ps, e) := pieces n' r in (([], a) :: ps, e)
      | None =>
          match pieces n' t' with
          | ((b, a) :: ps, e) => ((c :: b, a) :: ps, e)
          | ([], e) => ([], c :: e)
          end
      end
  | _, _ => ([], t)
  end.

(** [to_lsp_snippet], crates/tinymist-query/src/analysis/completion.rs:914-923. *)
Fixpoint numbered (k : N) (ps : list (text * text)) : text :=
  match ps with
  | [] => []
  | (b, a) :: ps' => b ++ [DOLLAR; LBRACE] ++ print_num 10 k ++ [COLON] ++ a ++ [RBRACE] ++ numbered (k + 1) ps'
  end.
(** crates/tinymist-query/src/analysis/completion.rs:914-923 *)
Definition to_lsp_snippet (t : text) : text :=
  let '(ps, e) := pieces (length t) t in numbered 1 ps ++ e.

(** * The edit of an item *)

(** The classes of syntax told apart,
    crates/tinymist-query/src/analysis/completion.rs:235-268. *)
Inductive class := Callee | VarAccess | LabelClass | RefClass | OtherClass.
(** The kinds of parents told apart,
    crates/tinymist-query/src/analysis/completion.rs:948-963. *)
Inductive parent := Contents | Arguments | OtherParent.

(** The cursor: the leaf with its offset and text, the kinds of the parents of
    the leaf from inside.  crates/tinymist-query/src/analysis/completion.rs:150-183. *)
Record cursor := {
  from : nat; at_ : nat; leaf_offset : nat; leaf_text : text; ident_like : bool; class_ : option class; parents : list parent }.

(** [SelectedNode], crates/tinymist-query/src/analysis/completion.rs:378-385. *)
Inductive selected := Ident | LabelNode | RefNode.

(** [selected_node], crates/tinymist-query/src/analysis/completion.rs:235-268. *)
Definition selected_node (c : cursor) : option selected :=
  if (match class_ c with Some Callee | Some VarAccess => true | _ => false end) && ident_like c && (leaf_offset c =? from c) then Some Ident
  else if (match class_ c with Some LabelClass => true | _ => false end) && (leaf_offset c + 1 =? from c) then Some LabelNode
  else if (match class_ c with Some RefClass => true | _ => false end) && (leaf_offset c + 1 =? from c) then Some RefNode
  else None.

(** [is_arg_like_context], crates/tinymist-query/src/analysis/completion.rs:948-963. *)
Fixpoint arg_like (ps : list parent) : bool :=
  match ps with
  | [] => false
  | Contents :: _ => false
  | Arguments :: _ => true
  | OtherParent :: ps' => arg_like ps'
  end.

(** [trim_end], crates/tinymist-query/src/analysis/completion.rs:326. *)
Fixpoint drop_white (t : text) : text :=
  match t with c :: t' => if is_white c then drop_white t' else t | [] => [] end.
(** [ends_with], crates/tinymist-query/src/analysis/completion.rs:326,340. *)
Definition last_is (c : N) (t : text) : bool := match rev t with x :: _ => N.eqb x c | [] => false end.
(** [starts_with], crates/tinymist-query/src/analysis/completion.rs:337,349. *)
Definition first_is (c : N) (t : text) : bool := match t with x :: _ => N.eqb x c | [] => false end.

(** [lsp_item_of]: the range that is replaced and the text put there.
    crates/tinymist-query/src/analysis/completion.rs:314-358. *)
Definition item_of (c : cursor) (snippet : text) : nat * nat * text :=
  let start := leaf_offset c in
  let stop := leaf_offset c + length (leaf_text c) in
  match selected_node c with
  | Some Ident =>
      if negb (match class_ c with Some Callee => true | _ => false end) && negb (at_ c =? stop) && arg_like (parents c)
      then (start, at_ c, if last_is 44 (rev (drop_white (rev snippet))) then snippet else snippet ++ [44; 32]%N)
      else (start, stop, snippet)
  | Some LabelNode =>
      (if first_is 60 (leaf_text c) && negb (first_is 60 snippet) then start + 1 else start,
       if last_is 62 (leaf_text c) && negb (last_is 62 snippet) then stop - 1 else stop, snippet)
  | Some RefNode => (if first_is 64 (leaf_text c) && negb (first_is 64 snippet) then start + 1 else start, stop, snippet)
  | None => (from c, at_ c, snippet)
  end.

(** * The list of items *)

(** An item; [extra] are its additional edits.
    crates/tinymist-query/src/analysis/completion.rs:360-372. *)
Record item := { label : text; sort_text : option text; range : nat * nat; new_text : text; extra : list (nat * nat * text) }.

(** Order of strings, crates/tinymist-query/src/analysis/completion.rs:788-799. *)
Fixpoint text_cmp (a b : text) : comparison :=
  match a, b with
  | [], [] => Eq
  | [], _ => Lt
  | _, [] => Gt
  | x :: a', y :: b' => match N.compare x y with Eq => text_cmp a' b' | r => r end
  end.
(** Order of [Option], crates/tinymist-query/src/analysis/completion.rs:788-797. *)
Definition opt_cmp (a b : option text) : comparison :=
  match a, b with None, None => Eq | None, _ => Lt | _, None => Gt | Some x, Some y => text_cmp x y end.
(** crates/tinymist-query/src/analysis/completion.rs:788-793 *)
Definition item_cmp (a b : item) : comparison :=
  match opt_cmp (sort_text a) (sort_text b) with Eq => text_cmp (label a) (label b) | r => r end.

(** [sort_by], which is stable; crates/tinymist-query/src/analysis/completion.rs:788-799. *)
Fixpoint insert (x : item) (l : list item) : list item :=
  match l with [] => [x] | y :: l' => match item_cmp x y with Gt => y :: insert x l' | _ => x :: l end end.
(** crates/tinymist-query/src/analysis/completion.rs:788-799 *)
Definition sort (l : list item) : list item := fold_right insert [] l.

(** [{idx:03}], crates/tinymist-query/src/analysis/completion.rs:806. *)
Definition three (n : N) : text := let d := print_num 10 n in repeat 48%N (3 - length d) ++ d.
(** crates/tinymist-query/src/analysis/completion.rs:801-807 *)
Fixpoint number (k : N) (l : list item) : list item :=
  match l with
  | [] => []
  | x :: l' => {| label := label x; sort_text := Some (three k); range := range x; new_text := new_text x; extra := extra x |} :: number (k + 1) l'
  end.

(** Types first in the numbers, last in the list.
    crates/tinymist-query/src/analysis/completion.rs:787-809. *)
Definition arrange (types others : list item) : list item :=
  let ts := sort types in
  number (N.of_nat (length ts)) (sort others) ++ number 0 ts.

(** [enrich], crates/tinymist-query/src/analysis/completion.rs:451-460. *)
Definition enrich (prefix suffix : text) (l : list item) : list item :=
  map (fun x => {| label := label x; sort_text := sort_text x; range := range x; new_text := prefix ++ new_text x ++ suffix; extra := extra x |}) l.

(** The children of arguments that are counted,
    crates/tinymist-query/src/analysis/completion.rs:815-822. *)
Inductive child := Open | Close | ErrorNode (t : text) | OtherChild.
(** crates/tinymist-query/src/analysis/completion.rs:815-822 *)
Definition count1 (a : Z) (c : child) : Z :=
  match c with
  | Open => a + 1
  | Close => a - 1
  | ErrorNode [40%N] => a + 1
  | ErrorNode [41%N] => a - 1
  | _ => a
  end%Z.
(** Arguments ([None]: the node at hand is none),
    crates/tinymist-query/src/analysis/completion.rs:813-823. *)
Definition unclosed (args : option (list child)) : bool :=
  match args with Some cs => Z.ltb 0 (fold_left count1 cs 0%Z) | None => false end.

(** The end of [complete_cursor]; [before] is the text before the cursor,
    [selector] whether the cursor is on the selector of a show rule.
    crates/tinymist-query/src/analysis/completion.rs:787-838. *)
Definition finish (args : option (list child)) (before : text) (selector : bool) (types others : list item) : list item :=
  let l := arrange types others in
  let l := if unclosed args then enrich [] [41%N] l else l in
  let l := if last_is 44 before || last_is 58 before then enrich [32%N] [] l else l in
  if selector then enrich [] [58; 32; 36; 123; 125]%N l else l.

(** The matching of an identifier to a label,
    crates/tinymist-query/src/analysis/completion.rs:527-541. *)
Fixpoint seek (c : N) (t : text) : option text :=
  match t with [] => None | x :: t' => if N.eqb x c then Some t' else seek c t' end.
(** crates/tinymist-query/src/analysis/completion.rs:527-541 *)
Fixpoint matching (p t : text) : bool :=
  match p with [] => true | c :: p' => match seek c t with Some t' => matching p' t' | None => false end end.

(** The end of [work]; [src] is the whole text.
    crates/tinymist-query/src/analysis/completion.rs:524-553. *)
Definition conclude (c : cursor) (src : text) (l : list item) : list item :=
  let l :=
    match selected_node c with
    | Some Ident => let p := firstn (at_ c - leaf_offset c) (skipn (leaf_offset c) src) in filter (fun x => matching p (label x)) l
    | _ => l
    end in
  map (fun x => {| label := label x; sort_text := sort_text x; range := range x; new_text := to_lsp_snippet (new_text x); extra := extra x |}) l.

(** * Slices *)

(** [str::is_char_boundary] of bytes,
    crates/tinymist-query/src/analysis/completion.rs:896,899. *)
Definition boundary (s : list N) (i : nat) : bool :=
  if i =? 0 then true
  else match nth_error s i with
       | Some b => negb (N.leb 128 b && N.ltb b 192)
       | None => i =? length s
       end.
(** crates/tinymist-query/src/analysis/completion.rs:896-898; [n] bounds the steps. *)
Fixpoint up (n : nat) (s : list N) (a b : nat) : nat :=
  match n with 0 => a | S n' => if (a <? b) && negb (boundary s a) then up n' s (a + 1) b else a end.
(** crates/tinymist-query/src/analysis/completion.rs:899-901 *)
Fixpoint down (n : nat) (s : list N) (a b : nat) : nat :=
  match n with 0 => b | S n' => if (a <? b) && negb (boundary s b) then down n' s a (b - 1) else b end.
(** [slice_at]; [None] is the panic of slicing.
    crates/tinymist-query/src/analysis/completion.rs:895-908. *)
Definition slice_at (s : list N) (a b : nat) : option (list N) :=
  let a' := up (b - a) s a b in
  let b' := down (b - a') s a' b in
  if a' <? b' then
    if boundary s a' && boundary s b' then Some (firstn (b' - a') (skipn a' s)) else None
  else Some [].

(** * Postfix completions *)

(** crates/tinymist-analysis/src/syntax/matcher.rs:316-329 *)
Inductive mode := Comment | String_ | Raw | Markup | Code | Math.
(** [PostfixSnippet]: the scope is whether content is needed.
    crates/tinymist-query/src/completion/snippet.rs:129-147. *)
Record postfix := { modes : list mode; content_only : bool; p_label : text; snippet : text }.

(** [ParsedSnippet], crates/tinymist-query/src/completion/snippet.rs:121-126. *)
Record parsed := { before_before : option text; node_before : text; node_after : text }.

(** [contains("node")], crates/tinymist-query/src/analysis/completion/snippet.rs:117. *)
Fixpoint has_node (t : text) : bool :=
  match t with
  | a :: t' => (match t' with b :: c :: d :: _ => N.eqb a 110 && N.eqb b 111 && N.eqb c 100 && N.eqb d 101 | _ => false end) || has_node t'
  | [] => false
  end.

(** Whether and how a snippet is parsed; [None] is the panic of [split[0]].
    crates/tinymist-query/src/analysis/completion/snippet.rs:106-132. *)
Definition parse (s : text) : option (option parsed) :=
  match pieces (length s) s with
  | ([], _) => None
  | (_ :: _ :: _ :: _, _) => Some None
  | ((b, a) :: ps, _) =>
      let s0 := length b in let e0 := s0 + 2 + length a + 1 in
      if has_node a then Some (Some {| before_before := None; node_before := firstn s0 s; node_after := skipn e0 s |})
      else match ps with
           | (b1, a1) :: _ =>
               let s1 := e0 + length b1 in let e1 := s1 + 2 + length a1 + 1 in
               Some (Some {| before_before := Some (firstn s0 s); node_before := firstn (s1 - s0) (skipn s0 s); node_after := skipn e1 s |})
           | [] => Some None
           end
  end.

(** The mode of a cursor among those of a snippet,
    crates/tinymist-query/src/analysis/completion/snippet.rs:90. *)
Definition mode_eqb (a b : mode) : bool :=
  match a, b with
  | Comment, Comment | String_, String_ | Raw, Raw | Markup, Markup | Code, Code | Math, Math => true
  | _, _ => false
  end.

(** The item of one snippet on a node with offset and text.
    crates/tinymist-query/src/analysis/completion/snippet.rs:141-178. *)
Definition postfix_item (c : cursor) (off : nat) (node : text) (s : postfix) (p : parsed) : item :=
  let mk apply edits := let '(a, b, t) := item_of c apply in {| label := p_label s; sort_text := None; range := (a, b); new_text := t; extra := edits |} in
  match before_before p with
  | Some bb => mk (bb ++ node_before p ++ node ++ node_after p) [(off, from c, [])]
  | None => mk (node_after p) [(off, off, node_before p); (off + length node, from c, [])]
  end.

(** [postfix_completions]; [regular] is the surrounding syntax.  [None] is a panic.
    crates/tinymist-query/src/analysis/completion/snippet.rs:67-182. *)
Fixpoint postfix_items (c : cursor) (m : mode) (is_content : bool) (off : nat) (node : text) (ss : list postfix) : option (list item) :=
  match ss with
  | [] => Some []
  | s :: ss' =>
      if existsb (mode_eqb m) (modes s) && (negb (content_only s) || is_content) then
        match parse (snippet s) with
        | None => None
        | Some None => postfix_items c m is_content off node ss'
        | Some (Some p) => option_map (cons (postfix_item c off node s p)) (postfix_items c m is_content off node ss')
        end
      else postfix_items c m is_content off node ss'
  end.
(** crates/tinymist-query/src/analysis/completion/snippet.rs:67-75 *)
Definition postfix_completions (enabled regular : bool) (c : cursor) (m : mode) (is_content : bool) (off : nat) (node : text) (ss : list postfix) : option (list item) :=
  if negb enabled || negb regular then Some [] else postfix_items c m is_content off node ss.

(** * Calls with the node as an argument *)

(** What is known of a function: the least number of positional and of named
    arguments, whether the next argument is content.
    crates/tinymist-query/src/analysis/completion/snippet.rs:234-244,259. *)
Record func := { name : text; is_function : bool; min_pos : nat; min_named : nat; next_content : bool }.

(** The items of one function; [block] is whether the node is a content block.
    crates/tinymist-query/src/analysis/completion/snippet.rs:205-303. *)
Definition ufcs_items (u l r : bool) (c : cursor) (off : nat) (node : text) (block : bool) (f : func) : list item :=
  let mk lab apply edits := let '(a, b, t) := item_of c apply in {| label := lab; sort_text := None; range := (a, b); new_text := t; extra := edits |} in
  let lb := if block then [] else [40%N] in
  let rb := if block then [] else [41%N] in
  let stop := off + length node in
  if (match name f with [] => true | _ => false end) || negb (is_function f) then []
  else if (min_pos f <? 1) || negb (next_content f) then []
  else
    (if u && (min_pos f =? 1) then [mk (name f) [] [(off, off, name f ++ lb); (stop, from c, rb)]] else []) ++
    (let more := (1 <? min_pos f) || (0 <? min_named f) in
     (if l && more then
        [mk (name f ++ [40%N])
            (if block then [40; 36; 123; 125; 41]%N ++ node else [36; 123; 125; 44; 32]%N ++ node ++ [41%N])
            [(off, from c, name f ++ lb)]]
      else []) ++
     (if r && more then
        [mk (name f ++ [41%N]) [36; 123; 125; 41]%N [(off, off, name f ++ [40%N]); (stop, from c, [])]]
      else [])).

(** * Prefix snippets *)

(** crates/tinymist-analysis/src/syntax/matcher.rs:892-907 *)
Inductive surrounding := Regular | StringContent | Selector | ShowTransform | ImportList | SetRule | ParamList.
(** crates/tinymist-query/src/completion/snippet.rs:193 *)
Definition surrounding_eqb (a b : surrounding) : bool :=
  match a, b with
  | Regular, Regular | StringContent, StringContent | Selector, Selector | ShowTransform, ShowTransform
  | ImportList, ImportList | SetRule, SetRule | ParamList, ParamList => true
  | _, _ => false
  end.
(** [ContextSelector], crates/tinymist-query/src/completion/snippet.rs:28-32. *)
Inductive selector (A : Type) := Positive (x : option A) | Negative (l : list A).
Arguments Positive {A}. Arguments Negative {A}.
(** What a selector stands for, crates/tinymist-query/src/completion/snippet.rs:190-205. *)
Definition stands_for {A} (eqb : A -> A -> bool) (all : list A) (s : selector A) : list (option A) :=
  match s with
  | Positive x => [x]
  | Negative l => map Some (filter (fun x => negb (existsb (fun y => eqb y x) l)) all)
  end.
(** [InterpretMode::iter], crates/tinymist-query/src/completion/snippet.rs:193. *)
Definition all_modes : list mode := [Comment; String_; Raw; Markup; Code; Math].
(** [SurroundingSyntax::iter], crates/tinymist-query/src/completion/snippet.rs:201. *)
Definition all_syntax : list surrounding := [Regular; StringContent; Selector; ShowTransform; ImportList; SetRule; ParamList].
(** The set of keys of a snippet, crates/tinymist-query/src/completion/snippet.rs:187-211. *)
Definition expanded (cs : list (selector mode * selector surrounding)) : list (option mode * option surrounding) :=
  flat_map (fun x => list_prod (stands_for mode_eqb all_modes (fst x)) (stands_for surrounding_eqb all_syntax (snd x))) cs.
(** Equality of keys, crates/tinymist-query/src/completion/snippet.rs:110,213. *)
Definition opt_eqb {A} (eqb : A -> A -> bool) (a b : option A) : bool :=
  match a, b with Some x, Some y => eqb x y | None, None => true | _, _ => false end.
(** [applies_to], crates/tinymist-query/src/completion/snippet.rs:184-215. *)
Definition applies_to (cs : list (selector mode * selector surrounding)) (k : option mode * option surrounding) : bool :=
  existsb (fun x => opt_eqb mode_eqb (fst x) (fst k) && opt_eqb surrounding_eqb (snd x) (snd k)) (expanded cs).
(** The keys of a place, crates/tinymist-query/src/analysis/completion/snippet.rs:34-43. *)
Definition keys (m : option mode) (s : option surrounding) : list (option mode * option surrounding) :=
  (m, s) :: (match m with Some _ => [(None, s)] | None => [] end) ++
  (match s with Some _ => (m, None) :: (match m with Some _ => [(None, None)] | None => [] end) | None => [] end).
(** crates/tinymist-query/src/analysis/completion/snippet.rs:44-49 *)
Definition offered (m : option mode) (s : option surrounding) (cs : list (selector mode * selector surrounding)) : bool :=
  existsb (applies_to cs) (keys m s).

(** Whether a request is answered at all: the characters of arguments only if
    asked for.  crates/tinymist-query/src/completion.rs:46-50. *)
Definition answered (trigger : option N) (on_placeholders : bool) : bool :=
  negb (match trigger with Some c => N.eqb c 40 || N.eqb c 44 || N.eqb c 58 | None => false end && negb on_placeholders).
