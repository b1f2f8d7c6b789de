(** Model of the linter, crates/tinymist-lint/src/lib.rs (all line numbers below are of that file): the warnings about [break],
    [continue] and [return] out of place, about values discarded by [return], and about rules without effect.  The warnings
    about comparing types with strings (186-217) and about variable fonts (219-260) are not modelled: they add warnings and
    touch nothing else.  Texts of the hints are not modelled, only on which warning there is one. *)
From Coq Require Import List Bool Arith.
Import ListNotations.

(** What [value] (lib.rs:569-615) tells apart among the expressions that are values: [none], white space, and the rest; 580. *)
Inductive kind := KNone | KTrivia | KOther.
(** Expressions (external, [ast::Expr]) grouped by what the visitors do with them, lib.rs:654-721; a number is a span. *)
Inductive expr :=
| Leaf (n : nat) (k : kind)                    (* 661-684: text, literals, labels, ... *)
| Ident (n : nat)                              (* 697-698 *)
| Import                                       (* 715 *)
| Seq (es : list expr)                         (* 686-690: the body of strong, emphasised, headings, items: markup *)
| All (es : list expr)                         (* 659, 694-695: mathematics; 691-693: the two parts of a term item *)
| Paren (e : expr)                             (* 656 *)
| Block (es : list expr)                       (* 657-658: code and content blocks *)
| Equation (n : nat) (es : list expr)          (* 699 *)
| Coll (n : nat) (es : list expr)              (* 700-701: arrays and dictionaries *)
| Item (e : expr)                              (* a named, keyed or spread item: no expression, skipped by [exprs] at 855-858 *)
| Unary (n : nat) (e : expr)                   (* 702 *)
| Binary (n : nat) (l r : expr)                (* 703 *)
| Store (t v : expr)                           (* 703: an assignment; the target is a name, a field or a call *)
| Field (n : nat) (e : expr)                   (* 704 *)
| Call (n : nat) (callee : expr) (args : list expr)   (* 705 *)
| Closure (n : nat) (params : list expr) (body : expr) (* 706 *)
| Let (init : option expr)                     (* 707 *)
| Assign (v : expr)                            (* 708 *)
| SetR (n : nat) (cond : option expr) (args : list expr) (target : expr)   (* 709 *)
| Show (n : nat) (sel : option expr) (tr : expr)       (* 710 *)
| Context (n : nat) (body : expr)              (* 711 *)
| If (c i : expr) (e : option expr)            (* 712 *)
| While (n : nat) (c b : expr)                 (* 713 *)
| For (n : nat) (it b : expr)                  (* 714; the pattern is not visited *)
| Include (n : nat) (e : expr)                 (* 716 *)
| Break (n : nat)                              (* 717 *)
| Continue (n : nat)                           (* 718 *)
| Return (n : nat) (v : option expr).          (* 719 *)

(** The warnings: a branch out of a loop, with the spans of the loop and of the function in between (lib.rs:119-140); [return] out of a
    function (370-373); a value discarded by [return] (586-592, 604-610); a rule without effect, with a hint or not (156-161). *)
Inductive diag := NoLoop (n : nat) (trace : option (nat * nat)) | NoFunc (n : nat) | Discard (n : nat) | NoEffect (n : nat) (hint : bool).

(** lib.rs:871-876 [LoopInfo]. *)
Record loop_info := mkLoop { lp_span : nat; has_break : bool; has_continue : bool }.
(** lib.rs:878-885 [FuncInfo]. *)
Record func_info := mkFunc { fn_span : nat; is_contextual : bool; has_return : bool; has_return_value : bool; parent_loop : option loop_info }.
(** lib.rs:43-49 [Linter], and whether an [expect] failed (104, 110, 331). *)
Record st := mkSt { diags : list diag; loop : option loop_info; func : option func_info; panicked : bool }.
(** lib.rs:52-60 [new]. *)
Definition init : st := mkSt [] None None false.
(** lib.rs:137, 161, 370, 601, 611: a warning is added. *)
Definition warn (d : diag) (s : st) : st := mkSt (diags s ++ [d]) (loop s) (func s) (panicked s).
(** lib.rs:81, 87, 104, 328: the loop changes. *)
Definition set_loop (l : option loop_info) (s : st) : st := mkSt (diags s) l (func s) (panicked s).
(** lib.rs:96, 105: the function changes. *)
Definition set_func (f : option func_info) (s : st) : st := mkSt (diags s) (loop s) f (panicked s).
(** lib.rs:601, 611: the warnings of [LateFuncLinter] are those of its linter. *)
Definition set_diags (d : list diag) (s : st) : st := mkSt d (loop s) (func s) (panicked s).
(** A failed [expect]; lib.rs:104, 110, 331. *)
Definition crash (s : st) : st := mkSt (diags s) (loop s) (func s) true.

(** lib.rs:636-641 [ReturnBlockInfo]. *)
Record ri := mkRi { return_value : bool; return_none : bool; warned : bool }.
(** lib.rs:643-651 [merge]. *)
Definition merge (a b : ri) : ri :=
  mkRi (return_value a && return_value b) (return_none a && return_none b) (warned a && warned b).
(** lib.rs:429-445 [join]. *)
Definition join (info parent : option ri) : option ri :=
  match parent with
  | None => info
  | Some p =>
      match info with
      | Some i => if Bool.eqb (return_value i) (return_value p) then Some i else Some (merge p i)
      | None => Some p
      end
  end.
(** lib.rs:1009-1014 [ExprContext]. *)
Inductive ctx := CBlockExpr | CBlock | CExpr.
(** lib.rs:393-398 [LateFuncLinter], with the warnings of its linter. *)
Record lt := mkLt { l_diags : list diag; l_ri : option ri; l_ctx : ctx }.
(** lib.rs:461, 561: the block changes. *)
Definition set_ri (r : option ri) (s : lt) : lt := mkLt (l_diags s) r (l_ctx s).
(** lib.rs:423-425: the context changes. *)
Definition set_ctx (c : ctx) (s : lt) : lt := mkLt (l_diags s) (l_ri s) c.
(** lib.rs:419-422, what a context is inside another. *)
Definition nest (outer c : ctx) : ctx :=
  match c, outer with CBlock, CBlock => CBlock | CBlock, _ => CBlockExpr | c, _ => c end.
(** lib.rs:415-427 [expr_ctx]. *)
Definition expr_ctx (c : ctx) (f : lt -> lt) (s : lt) : lt := set_ctx (l_ctx s) (f (set_ctx (nest (l_ctx s) c) s)).
(** lib.rs:569-615 [value] of late linting; [rule]: a set or show rule. *)
Definition value (n : nat) (k : kind) (rule : bool) (s : lt) : lt :=
  match l_ctx s, l_ri s with
  | CBlock, Some r =>
      if warned r then s else
      match k with
      | KOther =>
          if return_value r || (return_none r && rule)
          then mkLt (l_diags s ++ [Discard n]) (Some (mkRi (return_value r) (return_none r) true)) (l_ctx s)
          else s
      | _ => s
      end
  | _, _ => s
  end.
(** [DataFlowVisitor for LateFuncLinter], lib.rs:448-634 with 654-721: expressions are visited from the last to the first (450). *)
Fixpoint late (e : expr) (s : lt) {struct e} : lt :=
  let lates := fix lates (es : list expr) (s : lt) : lt := match es with [] => s | e :: es => late e (lates es s) end in
  match e with
  | Leaf n k => value n k false s
  | Ident _ | Import | Item _ | Field _ _ | Call _ _ _ | Let _ | Assign _ | Context _ _ => s
  | Seq es | All es => lates es s
  | Paren e => late e s
  | Block es => expr_ctx CBlock (lates es) s
  | Equation n _ | Coll n _ | Include n _ => value n KOther false s
  | Unary _ e => expr_ctx CExpr (late e) s
  | Binary _ l r => expr_ctx CExpr (fun s => late l (late r s)) s
  | Store _ v => expr_ctx CExpr (late v) s
  | Closure _ ps _ => lates ps s
  | SetR n _ _ _ | Show n _ _ => value n KOther true s
  | If _ i e =>
      let a := late i s in
      let b := set_ri (l_ri s) a in
      let c := match e with Some e => late e b | None => b end in
      set_ri (join (l_ri c) (l_ri a)) c
  | While _ _ b | For _ _ b => late b s
  | Break _ | Continue _ => set_ri (Some (mkRi false false false)) s
  | Return _ (Some _) => set_ri (Some (mkRi true false false)) s
  | Return _ None => set_ri (Some (mkRi false true false)) s
  end.
(** lib.rs:449-454 [exprs] of late linting. *)
Fixpoint lates (es : list expr) (s : lt) : lt := match es with [] => s | e :: es => late e (lates es s) end.
(** lib.rs:109-117 [late_func_return], with 401-413. *)
Definition late_func_return (body : expr) (s : st) : st :=
  match func s with
  | Some f => if has_return f then set_diags (l_diags (late body (mkLt (diags s) None CBlock))) s else s
  | None => crash s
  end.

(** lib.rs:1016-1018 [is_show_set]. *)
Definition is_show_set (e : expr) : bool := match e with SetR _ _ _ _ | Show _ _ _ => true | _ => false end.
(** lib.rs:170-184 [only_show]. *)
Fixpoint only_show (has_set : bool) (es : list expr) : bool :=
  match es with
  | [] => has_set
  | SetR _ _ _ _ :: es | Show _ _ _ :: es => only_show true es
  | Break _ :: _ | Continue _ :: _ => has_set
  | Leaf _ KTrivia :: es => only_show has_set es
  | _ :: _ => false
  end.
(** lib.rs:150-162, the warnings of [buggy_block]. *)
Fixpoint no_effects (first : bool) (es : list expr) (s : st) : st :=
  match es with
  | [] => s
  | SetR n _ _ _ :: es | Show n _ _ :: es => no_effects false es (warn (NoEffect n first) s)
  | _ :: es => no_effects first es s
  end.
(** lib.rs:143-168 [buggy_block_expr] and [buggy_block], 893-900 [Block::from]. *)
Definition buggy_block (e : expr) (s : st) : st :=
  match e with Block es => if only_show false es then no_effects true es s else s | _ => s end.
(** lib.rs:119-140 [bad_branch_stmt]. *)
Definition bad_branch (n : nat) (s : st) : st :=
  warn (NoLoop n (match func s with
                  | Some f => match parent_loop f with Some l => Some (lp_span l, fn_span f) | None => None end
                  | None => None
                  end)) s.
(** lib.rs:76-89 [with_loop_info]. *)
Definition with_loop (n : nat) (f : st -> st) (s : st) : st :=
  set_loop (loop s) (f (set_loop (Some (mkLoop n false false)) s)).
(** lib.rs:91-107 [with_func_info]. *)
Definition with_func (n : nat) (f : st -> st) (s : st) : st :=
  let s1 := f (set_func (Some (mkFunc n false false false (loop s))) s) in
  match func s1 with
  | Some i => set_func (func s) (set_loop (parent_loop i) s1)
  | None => crash s1
  end.
(** lib.rs:329-332. *)
Definition mark_contextual (s : st) : st :=
  match func s with
  | Some f => set_func (Some (mkFunc (fn_span f) true (has_return f) (has_return_value f) (parent_loop f))) s
  | None => crash s
  end.
(** [DataFlowVisitor for Linter], lib.rs:263-391 with 654-843. *)
Fixpoint lint (e : expr) (s : st) {struct e} : st :=
  let lints := fix lints (es : list expr) (s : st) : st := match es with [] => s | e :: es => lints es (lint e s) end in
  let lint_o := fun (o : option expr) (s : st) => match o with Some e => lint e s | None => s end in
  match e with
  | Leaf _ _ | Ident _ | Import | Item _ | Call _ _ _ | Include _ _ => s
  | Seq es | All es | Block es | Equation _ es | Coll _ es => lints es s
  | Paren e | Unary _ e | Field _ e | Assign e => lint e s
  | Binary _ a b | Store a b => lint b (lint a s)
  | Closure n ps b => with_func n (fun s => late_func_return b (lint b (lints ps (set_loop None s)))) s
  | Context n b => with_func n (fun s => late_func_return b (lint b (mark_contextual (set_loop None s)))) s
  | Let i => lint_o i s
  | SetR _ c args t => lint t (lints args (lint_o c s))
  | Show _ sel t => lint t (buggy_block t (lint_o sel s))
  | If c i e =>
      let s := lint i (buggy_block i (lint c s)) in
      match e with Some e => lint e (buggy_block e s) | None => s end
  | While n c b | For n c b => with_loop n (fun s => lint b (buggy_block b (lint c s))) s
  | Break n =>
      match loop s with Some l => set_loop (Some (mkLoop (lp_span l) true (has_continue l))) s | None => bad_branch n s end
  | Continue n =>
      match loop s with Some l => set_loop (Some (mkLoop (lp_span l) (has_break l) true)) s | None => bad_branch n s end
  | Return n v =>
      match func s with
      | Some f => set_func (Some (mkFunc (fn_span f) (is_contextual f) true (match v with Some _ => true | None => false end) (parent_loop f))) s
      | None => warn (NoFunc n) s
      end
  end.
(** lib.rs:264-269 [exprs]. *)
Fixpoint lints (es : list expr) (s : st) : st := match es with [] => s | e :: es => lints es (lint e s) end.
(** lib.rs:34-41 [lint_file], 66-74 [lint]: the expressions of the markup of a file, [Seq]. *)
Definition lint_file (root : expr) : list diag := diags (lint root init).
