(** What the warnings of the linter are judged by: where a statement stands in the tree, and what the evaluation of Typst
    code does with it (external: crates typst-eval of the compiler, written down here from its documentation and sources). *)
From Coq Require Import List Bool Arith.
From Verif Require Import LintModel.
Import ListNotations.

(** ** Places.  The loops and functions around a node, the innermost first. *)
Inductive anc := ALoop (n : nat) | AFun (n : nat).
(** [has p e x]: the node [x] is in [e], with [p] between them, at a place the linter looks at. *)
Inductive has : list anc -> expr -> expr -> Prop :=
| has_self e : has [] e e
| has_seq p es e x : In e es -> has p e x -> has p (Seq es) x
| has_all p es e x : In e es -> has p e x -> has p (All es) x
| has_block p es e x : In e es -> has p e x -> has p (Block es) x
| has_equation p n es e x : In e es -> has p e x -> has p (Equation n es) x
| has_coll p n es e x : In e es -> has p e x -> has p (Coll n es) x
| has_paren p e x : has p e x -> has p (Paren e) x
| has_unary p n e x : has p e x -> has p (Unary n e) x
| has_binary_l p n a b x : has p a x -> has p (Binary n a b) x
| has_binary_r p n a b x : has p b x -> has p (Binary n a b) x
| has_store_l p a b x : has p a x -> has p (Store a b) x
| has_store_r p a b x : has p b x -> has p (Store a b) x
| has_field p n e x : has p e x -> has p (Field n e) x
| has_param p n ps b e x : In e ps -> has p e x -> has (p ++ [AFun n]) (Closure n ps b) x
| has_closure p n ps b x : has p b x -> has (p ++ [AFun n]) (Closure n ps b) x
| has_context p n b x : has p b x -> has (p ++ [AFun n]) (Context n b) x
| has_let p e x : has p e x -> has p (Let (Some e)) x
| has_assign p e x : has p e x -> has p (Assign e) x
| has_set_cond p n e args t x : has p e x -> has p (SetR n (Some e) args t) x
| has_set_arg p n c args t e x : In e args -> has p e x -> has p (SetR n c args t) x
| has_set_target p n c args t x : has p t x -> has p (SetR n c args t) x
| has_show_sel p n e t x : has p e x -> has p (Show n (Some e) t) x
| has_show_tr p n s t x : has p t x -> has p (Show n s t) x
| has_if_cond p c i e x : has p c x -> has p (If c i e) x
| has_if_then p c i e x : has p i x -> has p (If c i e) x
| has_if_else p c i e x : has p e x -> has p (If c i (Some e)) x
| has_while_cond p n c b x : has p c x -> has (p ++ [ALoop n]) (While n c b) x
| has_while_body p n c b x : has p b x -> has (p ++ [ALoop n]) (While n c b) x
| has_for_iter p n c b x : has p c x -> has (p ++ [ALoop n]) (For n c b) x
| has_for_body p n c b x : has p b x -> has (p ++ [ALoop n]) (For n c b) x.
(** No loop between the node and the function (or file) it belongs to. *)
Definition no_loop (p : list anc) : Prop := match p with ALoop _ :: _ => False | _ => True end.
(** The function, if it stands directly in a loop, and that loop. *)
Definition across (p : list anc) : option (nat * nat) := match p with AFun f :: ALoop l :: _ => Some (l, f) | _ => None end.
(** No function around the node. *)
Definition no_fun (p : list anc) : Prop := forall f, ~ In (AFun f) p.
(** A [return] at a place the linter looks at, not in a function in the expression. *)
Definition returns (e : expr) : Prop := exists p k v, has p e (Return k v) /\ no_fun p.
(** A body of a closure or of a contextual expression at a place the linter looks at. *)
Definition function (root body : expr) : Prop :=
  exists p n, has p root (Context n body) \/ exists ps, has p root (Closure n ps body).

(** ** Evaluation.  What is pending: nothing, [break], [continue], or [return] with a value or without. *)
Inductive flow := Run | Brk | Cnt | Ret (v : bool).
(** The first event stays. *)
Definition first (p q : flow) : flow := match p with Run => q | _ => p end.
(** What is joined into the value of a block: the value of a node, the rest of the block under a rule of the node, or the result
    of a function of a show rule without selector applied to the rest of the block. *)
Inductive piece := Val (n : nat) | Styled (n : nat) (o : list piece) | Applied (n : nat) (o : list piece).
(** The value of a leaf: none and white space show nothing. *)
Definition leaf (n : nat) (k : kind) : list piece := match k with KOther => [Val n] | _ => [] end.
(** A statement of a block which is no rule. *)
Definition plain (e : expr) : Prop := is_show_set e = false.
(** [ev p e o q]: evaluating [e] with [p] pending can yield [o], with [q] pending afterwards.  Conditions, iterables and
    short-circuiting operators can go either way.  Blocks stop when something is pending; operands are all evaluated.
    Evaluations that fail are left out. *)
Inductive ev : flow -> expr -> list piece -> flow -> Prop :=
| ev_leaf p n k : ev p (Leaf n k) (leaf n k) p
| ev_ident p n : ev p (Ident n) [Val n] p
| ev_import p : ev p Import [] p
| ev_seq p es o q : blk p es o q -> ev p (Seq es) o q
| ev_all p es o q : ops p es o q -> ev p (All es) o q
| ev_paren p e o q : ev p e o q -> ev p (Paren e) o q
| ev_block p es o q : blk p es o q -> ev p (Block es) o q
| ev_equation p n es o q : ops p es o q -> ev p (Equation n es) [Val n] q
| ev_coll p n es o q : ops p es o q -> ev p (Coll n es) [Val n] q
| ev_item p e o q : ev p e o q -> ev p (Item e) [] q
| ev_unary p n e o q : ev p e o q -> ev p (Unary n e) [Val n] q
| ev_binary p n l r o q : ops p [l; r] o q -> ev p (Binary n l r) [Val n] q
| ev_short p n l r o q : ev p l o q -> ev p (Binary n l r) [Val n] q
| ev_store p t v o q : ops p [v; t] o q -> ev p (Store t v) [] q
| ev_field p n e o q : ev p e o q -> ev p (Field n e) [Val n] q
| ev_call p n c args o q : ops p (c :: args) o q -> ev p (Call n c args) [Val n] q
| ev_closure p n ps b o q : ops p ps o q -> ev p (Closure n ps b) [Val n] q
| ev_let0 p : ev p (Let None) [] p
| ev_let p e o q : ev p e o q -> ev p (Let (Some e)) [] q
| ev_assign p e o q : ev p e o q -> ev p (Assign e) [] q
| ev_set p n args t o q : ops p (t :: args) o q -> ev p (SetR n None args t) [] q
| ev_set_off p n c args t o q : ev p c o q -> ev p (SetR n (Some c) args t) [] q
| ev_set_on p n c args t o q : ops p (c :: t :: args) o q -> ev p (SetR n (Some c) args t) [] q
| ev_show p n t o q : ev p t o q -> ev p (Show n None t) [] q
| ev_show_sel p n s t o q : ops p [s; t] o q -> ev p (Show n (Some s) t) [] q
| ev_context p n b : ev p (Context n b) [Val n] p
| ev_then p c i e o1 q1 o2 q2 : ev p c o1 q1 -> ev q1 i o2 q2 -> ev p (If c i e) o2 q2
| ev_else p c i e o1 q1 o2 q2 : ev p c o1 q1 -> ev q1 e o2 q2 -> ev p (If c i (Some e)) o2 q2
| ev_skip p c i o1 q1 : ev p c o1 q1 -> ev p (If c i None) [] q1
| ev_while p n c b o q : whl c b o q -> ev p (While n c b) o (first p q)
| ev_for p n it b o1 q1 o2 q2 : ev Run it o1 q1 -> itr q1 b o2 q2 -> ev p (For n it b) o2 (first p q2)
| ev_include p n e o q : ev p e o q -> ev p (Include n e) [Val n] q
| ev_break p n : ev p (Break n) [] (first p Brk)
| ev_continue p n : ev p (Continue n) [] (first p Cnt)
| ev_return0 p n : ev p (Return n None) [] (first p (Ret false))
| ev_return p n e o q : ev p e o q -> ev p (Return n (Some e)) [] (first q (Ret true))
(** The statements of a block. *)
with blk : flow -> list expr -> list piece -> flow -> Prop :=
| blk_nil p : blk p [] [] p
| blk_stop p e es o q : ev p e o q -> q <> Run -> blk p (e :: es) o q
| blk_plain p e es o1 o2 q : plain e -> ev p e o1 Run -> blk Run es o2 q -> blk p (e :: es) (o1 ++ o2) q
| blk_set p n c args t es o1 o2 q : ev p (SetR n c args t) o1 Run -> blk Run es o2 q -> blk p (SetR n c args t :: es) [Styled n o2] q
| blk_set_off p n c args t es o1 o2 q : ev p (SetR n (Some c) args t) o1 Run -> blk Run es o2 q -> blk p (SetR n (Some c) args t :: es) o2 q
| blk_show p n t es o1 o2 q : ev p (Show n None t) o1 Run -> blk Run es o2 q -> blk p (Show n None t :: es) [Applied n o2] q
| blk_show_sel p n s t es o1 o2 q : ev p (Show n (Some s) t) o1 Run -> blk Run es o2 q -> blk p (Show n (Some s) t :: es) [Styled n o2] q
(** Operands. *)
with ops : flow -> list expr -> list piece -> flow -> Prop :=
| ops_nil p : ops p [] [] p
| ops_cons p e es o1 q1 o2 q2 : ev p e o1 q1 -> ops q1 es o2 q2 -> ops p (e :: es) (o1 ++ o2) q2
(** A [while] loop, nothing pending at its start. *)
with whl : expr -> expr -> list piece -> flow -> Prop :=
| whl_end c b o q : ev Run c o q -> whl c b [] q
| whl_break c b o1 q1 o2 : ev Run c o1 q1 -> ev q1 b o2 Brk -> whl c b o2 Run
| whl_return c b o1 q1 o2 v : ev Run c o1 q1 -> ev q1 b o2 (Ret v) -> whl c b o2 (Ret v)
| whl_next c b o1 q1 o2 q2 o3 q3 : ev Run c o1 q1 -> ev q1 b o2 q2 -> q2 = Run \/ q2 = Cnt -> whl c b o3 q3 -> whl c b (o2 ++ o3) q3
(** The iterations of a [for] loop. *)
with itr : flow -> expr -> list piece -> flow -> Prop :=
| itr_end p b : itr p b [] p
| itr_break p b o : ev p b o Brk -> itr p b o Run
| itr_return p b o v : ev p b o (Ret v) -> itr p b o (Ret v)
| itr_next p b o1 q1 o2 q2 : ev p b o1 q1 -> q1 = Run \/ q1 = Cnt -> itr Run b o2 q2 -> itr p b (o1 ++ o2) q2.

(** A node is among what was joined: as a value, or as a rule. *)
Inductive joined (n : nat) : list piece -> Prop :=
| joined_val o : In (Val n) o -> joined n o
| joined_styled m o o' : In (Styled m o) o' -> joined n o -> joined n o'
| joined_applied m o o' : In (Applied m o) o' -> joined n o -> joined n o'.
(** A rule was evaluated for what was joined. *)
Inductive ruled (n : nat) : list piece -> Prop :=
| ruled_styled o o' : In (Styled n o) o' -> ruled n o'
| ruled_applied o o' : In (Applied n o) o' -> ruled n o'
| ruled_in_styled m o o' : In (Styled m o) o' -> ruled n o -> ruled n o'
| ruled_in_applied m o o' : In (Applied m o) o' -> ruled n o -> ruled n o'.
(** Something can be seen of what was joined. *)
Inductive visible : list piece -> Prop :=
| visible_val n o : In (Val n) o -> visible o
| visible_applied n o o' : In (Applied n o) o' -> visible o'
| visible_styled n o o' : In (Styled n o) o' -> visible o -> visible o'.
(** A rule styles something that can be seen. *)
Inductive effective (n : nat) : list piece -> Prop :=
| effective_here o o' : In (Styled n o) o' -> visible o -> effective n o'
| effective_applied o o' : In (Applied n o) o' -> effective n o'
| effective_styled m o o' : In (Styled m o) o' -> effective n o -> effective n o'
| effective_in m o o' : In (Applied m o) o' -> effective n o -> effective n o'.

(** ** Restrictions on programs.  No [break], [continue] or [return] in an expression, except in the bodies of functions; the
    parameters of functions are names, or have defaults. *)
Fixpoint calm (e : expr) : bool :=
  let calms := fix calms es := match es with [] => true | e :: es => calm e && calms es end in
  let params := fix params es := match es with [] => true | Ident _ :: es => params es | Item e :: es => calm e && params es | _ :: _ => false end in
  let calm_o := fun o => match o with Some e => calm e | None => true end in
  match e with
  | Leaf _ _ | Ident _ | Import | Context _ _ => true
  | Seq es | All es | Block es | Equation _ es | Coll _ es => calms es
  | Closure _ ps _ => params ps
  | Paren e | Item e | Unary _ e | Field _ e | Assign e | Include _ e => calm e
  | Binary _ a b | Store a b => calm a && calm b
  | Call _ c args => calm c && calms args
  | Let o => calm_o o
  | SetR _ c args t => calm_o c && calm t && calms args
  | Show _ s t => calm_o s && calm t
  | If c i e => calm c && calm i && calm_o e
  | While _ c b | For _ c b => calm c && calm b
  | Break _ | Continue _ | Return _ _ => false
  end.
(** They are only used as statements: not in conditions, arguments, initialisers and so on; and rules stand directly in blocks.
    This is about the expression itself, not about the functions in it. *)
Fixpoint tame (e : expr) : bool :=
  let tames := fix tames es := match es with [] => true | e :: es => tame e && tames es end in
  let stmts := fix stmts es := match es with [] => true | e :: es => (if is_show_set e then calm e else tame e) && stmts es end in
  match e with
  | Seq es | Block es => stmts es
  | All es => tames es && calm e
  | Paren e | Unary _ e => tame e
  | Binary _ a b => tame a && tame b
  | Store t v => calm t && tame v
  | If c i e => calm c && tame i && match e with Some e => tame e | None => true end
  | While _ c b | For _ c b => calm c && tame b
  | Break _ | Continue _ => true
  | Return _ o => match o with Some e => calm e | None => true end
  | SetR _ _ _ _ | Show _ _ _ => false
  | _ => calm e
  end.
(** No [return] among the statements ([strict]), or none in a loop among them nor in an operand of a binary operator, which may be
    passed over. *)
Fixpoint no_return (strict : bool) (e : expr) : bool :=
  let nos := fix nos es := match es with [] => true | e :: es => no_return strict e && nos es end in
  match e with
  | Seq es | All es | Block es => nos es
  | Paren e | Unary _ e => no_return strict e
  | Binary _ a b => calm a && calm b
  | Store _ v => no_return strict v
  | If _ i e => no_return strict i && match e with Some e => no_return strict e | None => true end
  | While _ _ b | For _ _ b => no_return true b
  | Return _ _ => negb strict
  | _ => true
  end.
(** The last statement, on every way through conditionals, is [return]. *)
Inductive ends : expr -> Prop :=
| ends_return n v : ends (Return n v)
| ends_block es e : ends e -> ends (Block (es ++ [e]))
| ends_if c i e : ends i -> ends e -> ends (If c i (Some e)).
(** The spans among the values and rules of an expression, except in the functions in it. *)
Fixpoint marks (e : expr) : list nat :=
  let markss := fix markss es := match es with [] => [] | e :: es => marks e ++ markss es end in
  match e with
  | Leaf n _ | Ident n | Equation n _ | Coll n _ | Unary n _ | Binary n _ _ | Field n _ | Call n _ _ | Closure n _ _ | Context n _ | Include n _
  | SetR n _ _ _ | Show n _ _ => [n]
  | Import | Item _ | Store _ _ | Let _ | Assign _ | Break _ | Continue _ | Return _ _ => []
  | Seq es | All es | Block es => markss es
  | Paren e => marks e
  | If _ i e => marks i ++ match e with Some e => marks e | None => [] end
  | While _ _ b | For _ _ b => marks b
  end.
(** A block of rules only: rules, at least one, and white space, up to the end or to the first [break] or [continue]. *)
Definition rules_only (es : list expr) : Prop :=
  exists pre post, es = pre ++ post
    /\ Forall (fun e => is_show_set e = true \/ exists n, e = Leaf n KTrivia) pre
    /\ (exists e, In e pre /\ is_show_set e = true)
    /\ (post = [] \/ exists n post', post = Break n :: post' \/ post = Continue n :: post').
(** The blocks which are looked at for rules without effect: what a show rule puts in place, and the bodies of conditionals and loops. *)
Definition body_of (x : expr) (es : list expr) : Prop :=
  match x with
  | Show _ _ (Block b) => b = es
  | If _ i e => i = Block es \/ e = Some (Block es)
  | While _ _ (Block b) | For _ _ (Block b) => b = es
  | _ => False
  end.
(** The span of a rule. *)
Definition rule_at (e : expr) (n : nat) : Prop := match e with SetR m _ _ _ | Show m _ _ => m = n | _ => False end.
(** A rule which applies a function to what follows. *)
Definition applies (e : expr) : bool := match e with Show _ None _ => true | _ => false end.
(** Statements late linting takes no notice of. *)
Definition silent (e : expr) : Prop :=
  match e with
  | Ident _ | Import | Item _ | Field _ _ | Call _ _ _ | Let _ | Assign _ | Context _ _ | Leaf _ KTrivia | Leaf _ KNone => True
  | _ => False
  end.
