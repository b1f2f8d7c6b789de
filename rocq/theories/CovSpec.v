(** What the properties of coverage say, stated without the walk of
    [CovModel]: the text of a tree, a small language with the meaning Typst
    gives to blocks, branches, loops, functions and jumps, the trees of its
    programs, and the number of calls. *)
From Coq Require Import String Ascii List Arith Bool Lia.
From Verif Require Import CovModel.
Import ListNotations.
Local Open Scope nat_scope.
Local Open Scope list_scope.

(** ** Texts *)

(** The text of a tree. *)
Fixpoint src (n : node) : list nat :=
  match n with Node _ _ t cs => t ++ flat_map src cs end.

(** A tree in which [context] is followed by things that are no expressions and then its body. *)
Fixpoint contexts_ok (n : node) : Prop :=
  match n with
  | Node k _ t cs =>
      (k = KContext -> t = [] /\ exists s w b, cs = Node KToken s (codes "context") [] :: w ++ [b] /\
         (forall c, In c w -> nkind c = KToken) /\ nkind b <> KToken) /\
      (fix go l := match l with [] => True | c :: l' => contexts_ok c /\ go l' end) cs
  end.

(** A tree in which [context] occurs nowhere. *)
Fixpoint no_context (n : node) : Prop :=
  match n with
  | Node k _ _ cs => k <> KContext /\ (fix go l := match l with [] => True | c :: l' => no_context c /\ go l' end) cs
  end.

(** The text of a tree, in which what stands between [context] and its body may be left out. *)
Inductive trims : node -> list nat -> Prop :=
| trims_all k sp t cs xs : Forall2 trims cs xs -> trims (Node k sp t cs) (t ++ concat xs)
| trims_context sp s w b x : (forall c, In c w -> nkind c = KToken) -> trims b x ->
    trims (Node KContext sp [] (Node KToken s (codes "context") [] :: w ++ [b])) (codes "context" ++ x).

(** The spans that occur in a tree. *)
Fixpoint spans_of (n : node) : list nat := match n with Node _ sp _ cs => sp :: flat_map spans_of cs end.

(** A part of the new text: taken from the program, or new. *)
Inductive part := Kept (t : list nat) | New (t : list nat).
Definition part_text (p : part) : list nat := match p with Kept t | New t => t end.
Definition kept_text (p : part) : list nat := match p with Kept t => t | New _ => [] end.

(** The numeral of a number: [numeral n d] when [d] is its decimal notation. *)
Definition value_of (d : list nat) : nat := fold_left (fun a c => 10 * a + (c - 48)) d 0.
Definition numeral (n : nat) (d : list nat) : Prop :=
  Forall (fun c => 48 <= c <= 57) d /\ value_of d = n /\ d <> [] /\ (n <> 0 -> hd 0 d <> 48).

(** A call that counts. *)
Definition is_call (i : nat) (t : list nat) : Prop :=
  exists d, numeral i d /\ t = codes "__cov_pc(" ++ d ++ codes ");" ++ [10].

(** Text woven into text: what is new is whole frames around woven text, a
    block, brackets after [context], a function around the transform of a show
    rule; their calls are numbered [i], [i + 1], ... in the order of the text. *)
Inductive calls : nat -> list part -> nat -> Prop :=
| calls_nil i : calls i [] i
| calls_kept i t : calls i [Kept t] i
| calls_app i l j l' k : calls i l j -> calls j l' k -> calls i (l ++ l') k
| calls_block i c l j c' : is_call i c -> calls (S i) l j -> is_call j c' ->
    calls i ([New (codes "{" ++ [10]); New c] ++ l ++ [New [10]; New c'; New (codes "}")]) (S j)
| calls_context i l j : calls i l j ->
    calls i ([Kept (codes "context"); New (codes " (")] ++ l ++ [New (codes ")")]) j
| calls_showset i c l j : is_call i c -> calls (S i) l j ->
    calls i ([New (codes "__it => {"); New c] ++ l ++ [New (10 :: codes "__it; }" ++ [10])]) j
| calls_show i l j c : calls i l j -> is_call j c ->
    calls i ([New (codes "{" ++ 10 :: codes "let __cov_show_body = ")] ++ l ++
      [New (10 :: codes "__it => {"); New c;
       New (codes "if type(__cov_show_body) == function { __cov_show_body(__it); } else { __cov_show_body } } }" ++ [10])]) (S j).

(** ** A language *)

(** Expressions.  A body carries the two spans under which it is reported. *)
Inductive expr :=
| EAtom (t : list nat)                             (* a name or a literal *)
| EText (t : list nat)                             (* text in content *)
| ELet (x : list nat) (a : expr)
| EAssign (x : list nat) (a : expr)
| EOp (o : list nat) (a b : expr)
| EApp (f a : expr)
| EReturn0 | EReturn (a : expr) | EBreak | EContinue
| EBlock (o c : nat) (es : list expr)              (* [{ ... }] *)
| EContent (es : list expr)                        (* [[ ... ]] *)
| EIf1 (q : expr) (o c : nat) (a : expr)
| EIf2 (q : expr) (o c : nat) (a : expr) (o' c' : nat) (b : expr)
| EWhile (q : expr) (o c : nat) (b : expr)
| EFor (x : list nat) (q : expr) (o c : nat) (b : expr)
| EClo (x : list nat) (o c : nat) (b : expr)
| EPc (i : nat).                                   (* [__cov_pc(i)] *)

Inductive value :=
| VNone
| VBase (t : list nat)
| VClo (x : list nat) (o c : nat) (b : expr) (env : list (list nat * value)).

(** A jump that is under way. *)
Inductive flow := Go | Brk | Cont | Ret (v : option value).

(** What can be observed of a run: bodies entered and left at their end, and calls that count. *)
Inductive event := EvOpen (s : nat) | EvClose (s : nat) | EvPc (i : nat).

Inductive res := Fuel | Err | Ok (v : value) (env : list (list nat * value)) (fl : flow).
Definition out := (list event * res)%type.

(** The meaning of literals, operators, conditions, joining and iteration, for values that are not functions. *)
Record lang := {
  lit : list nat -> option (list nat);
  prim : list nat -> list nat -> list nat -> option (list nat);
  truth : list nat -> option bool;
  joins : list nat -> list nat -> option (list nat);
  items : list nat -> option (list (list nat)) }.

Definition bind (r : out) (k : value -> list (list nat * value) -> flow -> out) : out :=
  let '(t, x) := r in
  match x with
  | Ok v env fl => let '(t', x') := k v env fl in (t ++ t', x')
  | _ => (t, x)
  end.

Definition eqt (a b : list nat) : bool := if list_eq_dec Nat.eq_dec a b then true else false.
Fixpoint find_var (x : list nat) (env : list (list nat * value)) : option value :=
  match env with
  | [] => None
  | (y, v) :: env' => if eqt x y then Some v else find_var x env'
  end.
Fixpoint set_var (x : list nat) (v : value) (env : list (list nat * value)) : option (list (list nat * value)) :=
  match env with
  | [] => None
  | (y, w) :: env' => if eqt x y then Some ((y, v) :: env') else option_map (cons (y, w)) (set_var x v env')
  end.

(** Leaving a scope: the bindings made since are gone. *)
Definition leave (env env' : list (list nat * value)) := skipn (length env' - length env) env'.

(** A jump is set if none is under way. *)
Definition set_flow (fl new : flow) : flow := match fl with Go => new | _ => fl end.
(** What was under way before a block stays so. *)
Definition keep (before after : flow) : flow := match before with Go => after | _ => before end.

Definition join (L : lang) (a b : value) : option value :=
  match a, b with
  | VNone, v => Some v
  | v, VNone => Some v
  | VBase x, VBase y => option_map VBase (joins L x y)
  | _, _ => None
  end.

(** The statements of a block, one after the other, their values joined; a jump ends it. *)
Definition stmts (L : lang) (ev : expr -> list (list nat * value) -> flow -> out) :=
  fix go (es : list expr) (acc : value) (env : list (list nat * value)) : out :=
    match es with
    | [] => ([], Ok acc env Go)
    | e :: es' =>
        bind (ev e env Go) (fun v env' fl =>
          match join L acc v with
          | None => ([], Err)
          | Some acc' => match fl with Go => go es' acc' env' | _ => ([], Ok acc' env' fl) end
          end)
    end.

(** Entering and leaving a body that is reported under [o] and [c]. *)
Definition framed (o c : nat) (env : list (list nat * value)) (fl : flow) (r : out) : out :=
  let '(t, x) := r in
  match x with
  | Ok v env' fl' =>
      (EvOpen o :: t ++ (match fl' with Go => [EvClose c] | _ => [] end), Ok v (leave env env') (keep fl fl'))
  | _ => (EvOpen o :: t, x)
  end.

(** The same without a report. *)
Definition scoped (env : list (list nat * value)) (fl : flow) (r : out) : out :=
  bind r (fun v env' fl' => ([], Ok v (leave env env') (keep fl fl'))).

(** Entering and leaving a body that is not a block of code and sees to its scope itself. *)
Definition reported (o c : nat) (fl : flow) (r : out) : out :=
  let '(t, x) := r in
  match x with
  | Ok v env' fl' =>
      (EvOpen o :: t ++ (match fl' with Go => [EvClose c] | _ => [] end), Ok v env' (keep fl fl'))
  | _ => (EvOpen o :: t, x)
  end.

(** A body: a block reports itself. *)
Definition body (ev : expr -> list (list nat * value) -> flow -> out) (o c : nat) (b : expr)
    (env : list (list nat * value)) (fl : flow) : out :=
  match b with
  | EBlock _ _ _ => ev b env fl
  | _ => reported o c fl (ev b env Go)
  end.

Definition is_true (L : lang) (v : value) : option bool :=
  match v with VBase t => truth L t | _ => None end.

(** [while]: [n] bounds the rounds. *)
Definition whiles (L : lang) (q b : list (list nat * value) -> flow -> out) :=
  fix go (n : nat) (acc : value) (env : list (list nat * value)) : out :=
    match n with
    | 0 => ([], Fuel)
    | S n' =>
        bind (q env Go) (fun v env1 fl1 =>
          match is_true L v with
          | None => ([], Err)
          | Some false => ([], Ok acc env1 fl1)
          | Some true =>
              bind (b env1 fl1) (fun w env2 fl2 =>
                match join L acc w with
                | None => ([], Err)
                | Some acc' =>
                    match fl2 with
                    | Go | Cont => go n' acc' env2
                    | Brk => ([], Ok acc' env2 Go)
                    | Ret r => ([], Ok acc' env2 (Ret r))
                    end
                end)
          end)
    end.

(** [for]: the items in their order. *)
Definition fors (L : lang) (x : list nat) (b : list (list nat * value) -> flow -> out) :=
  fix go (l : list (list nat)) (acc : value) (env : list (list nat * value)) (fl : flow) : out :=
    match l with
    | [] => ([], Ok acc env fl)
    | t :: l' =>
        bind (b ((x, VBase t) :: env) fl) (fun w env2 fl2 =>
          match join L acc w with
          | None => ([], Err)
          | Some acc' =>
              match fl2 with
              | Go | Cont => go l' acc' (leave env env2) Go
              | Brk => ([], Ok acc' (leave env env2) Go)
              | Ret r => ([], Ok acc' (leave env env2) (Ret r))
              end
          end)
    end.

(** Calling a function, [call] running a body. *)
Definition apply (call : nat -> nat -> expr -> list (list nat * value) -> out) (f a : value)
    (env : list (list nat * value)) (fl : flow) : out :=
  match f with
  | VClo x o c b cenv =>
      let '(t, r) := call o c b ((x, a) :: cenv) in
      match r with
      | Ok v _ Go => (t, Ok v env fl)
      | Ok v _ (Ret None) => (t, Ok v env fl)
      | Ok _ _ (Ret (Some v)) => (t, Ok v env fl)
      | Ok _ _ _ => (t, Err)
      | _ => (t, r)
      end
  | _ => ([], Err)
  end.

Section eval.
Context (L : lang) (call : nat -> nat -> expr -> list (list nat * value) -> out) (rounds : nat).

(** The meaning of an expression; [call] runs the bodies of functions, [rounds] bounds [while]. *)
Fixpoint ev (e : expr) (env : list (list nat * value)) (fl : flow) {struct e} : out :=
  match e with
  | EAtom t =>
      match find_var t env with
      | Some v => ([], Ok v env fl)
      | None => match lit L t with Some b => ([], Ok (VBase b) env fl) | None => ([], Err) end
      end
  | EText t => ([], Ok (VBase t) env fl)
  | ELet x a => bind (ev a env fl) (fun v env' fl' => ([], Ok VNone ((x, v) :: env') fl'))
  | EAssign x a =>
      bind (ev a env fl) (fun v env' fl' =>
        match set_var x v env' with Some env2 => ([], Ok VNone env2 fl') | None => ([], Err) end)
  | EOp o a b =>
      bind (ev a env fl) (fun v env1 fl1 =>
        bind (ev b env1 fl1) (fun w env2 fl2 =>
          match v, w with
          | VBase x, VBase y =>
              match prim L o x y with Some z => ([], Ok (VBase z) env2 fl2) | None => ([], Err) end
          | _, _ => ([], Err)
          end))
  | EApp f a =>
      bind (ev f env fl) (fun v env1 fl1 => bind (ev a env1 fl1) (fun w env2 fl2 => apply call v w env2 fl2))
  | EReturn0 => ([], Ok VNone env (set_flow fl (Ret None)))
  | EReturn a => bind (ev a env fl) (fun v env' fl' => ([], Ok VNone env' (set_flow fl' (Ret (Some v)))))
  | EBreak => ([], Ok VNone env (set_flow fl Brk))
  | EContinue => ([], Ok VNone env (set_flow fl Cont))
  | EBlock o c es => framed o c env fl (stmts L ev es VNone env)
  | EContent es => scoped env fl (stmts L ev es VNone env)
  | EIf1 q o c a =>
      bind (ev q env fl) (fun v env1 fl1 =>
        match is_true L v with
        | None => ([], Err)
        | Some true => body ev o c a env1 fl1
        | Some false => ([], Ok VNone env1 fl1)
        end)
  | EIf2 q o c a o' c' b =>
      bind (ev q env fl) (fun v env1 fl1 =>
        match is_true L v with
        | None => ([], Err)
        | Some true => body ev o c a env1 fl1
        | Some false => body ev o' c' b env1 fl1
        end)
  | EWhile q o c b =>
      bind (whiles L (ev q) (body ev o c b) rounds VNone env) (fun v env' fl' => ([], Ok v env' (keep fl fl')))
  | EFor x q o c b =>
      scoped env fl
        (bind (ev q env Go) (fun v env1 fl1 =>
          match v with
          | VBase t =>
              match items L t with
              | Some l => fors L x (body ev o c b) l VNone env1 fl1
              | None => ([], Err)
              end
          | _ => ([], Err)
          end))
  | EClo x o c b => ([], Ok (VClo x o c b env) env fl)
  | EPc i => ([EvPc i], Ok VNone env fl)
  end.
End eval.

(** At most [n] calls within one another, at most [n] rounds of each loop. *)
Fixpoint eval (L : lang) (n : nat) (e : expr) (env : list (list nat * value)) (fl : flow) : out :=
  ev L (fun o c b env => match n with 0 => ([], Fuel) | S n' => body (eval L n') o c b env Go end) n e env fl.

(** A whole program: content, with no variables. *)
Definition run_program (L : lang) (n : nat) (es : list expr) : out := eval L n (EContent es) [] Go.

(** What is reported of a run. *)
Definition report (t : list event) : list (nat * mkind) :=
  flat_map (fun e => match e with EvOpen s => [(s, OpenBrace)] | EvClose s => [(s, CloseBrace)] | EvPc _ => [] end) t.
(** The calls made by a run. *)
Definition pcs (t : list event) : list nat :=
  flat_map (fun e => match e with EvPc i => [i] | _ => [] end) t.

(** The program makes no calls of its own that count. *)
Fixpoint no_pc (e : expr) : Prop :=
  match e with
  | EPc _ => False
  | EAtom _ | EText _ | EReturn0 | EBreak | EContinue => True
  | ELet _ a | EAssign _ a | EReturn a => no_pc a
  | EOp _ a b | EApp a b | EIf1 a _ _ b | EWhile a _ _ b | EFor _ a _ _ b => no_pc a /\ no_pc b
  | EBlock _ _ es | EContent es => (fix go l := match l with [] => True | c :: l' => no_pc c /\ go l' end) es
  | EIf2 q _ _ a _ _ b => no_pc q /\ no_pc a /\ no_pc b
  | EClo _ _ _ b => no_pc b
  end.

Definition is_block (e : expr) : Prop := match e with EBlock _ _ _ => True | _ => False end.

(** A program all of whose bodies can be reported: when a body is itself a
    conditional, a loop or a function, the bodies of that one are blocks. *)
Fixpoint reportable (as_body : bool) (e : expr) : Prop :=
  let sub b := if as_body then is_block b /\ reportable false b else reportable true b in
  match e with
  | EPc _ | EAtom _ | EText _ | EReturn0 | EBreak | EContinue => True
  | ELet _ a | EAssign _ a | EReturn a => reportable false a
  | EOp _ a b | EApp a b => reportable false a /\ reportable false b
  | EBlock _ _ es | EContent es => (fix go l := match l with [] => True | c :: l' => reportable false c /\ go l' end) es
  | EIf1 a _ _ b | EWhile a _ _ b | EFor _ a _ _ b => reportable false a /\ sub b
  | EIf2 q _ _ a _ _ b => reportable false q /\ sub a /\ sub b
  | EClo _ _ _ b => sub b
  end.

(** Whether an expression may declare a variable that is seen after it. *)
Fixpoint binds (e : expr) : bool :=
  match e with
  | ELet _ _ => true
  | EAssign _ a | EReturn a => binds a
  | EOp _ a b | EApp a b | EIf1 a _ _ b | EWhile a _ _ b => binds a || binds b
  | EIf2 q _ _ a _ _ b => binds q || binds a || binds b
  | _ => false
  end.

(** A program in which no branch and no body of a loop declares such a
    variable: they are blocks of code or content, which have scopes of their
    own, or [if] after [else], whose condition declares none. *)
Fixpoint tidy (e : expr) : Prop :=
  match e with
  | EPc _ | EAtom _ | EText _ | EReturn0 | EBreak | EContinue => True
  | ELet _ a | EAssign _ a | EReturn a => tidy a
  | EOp _ a b | EApp a b => tidy a /\ tidy b
  | EBlock _ _ es | EContent es => (fix go l := match l with [] => True | c :: l' => tidy c /\ go l' end) es
  | EIf1 a _ _ b | EWhile a _ _ b | EFor _ a _ _ b => tidy a /\ tidy b /\ binds b = false
  | EIf2 q _ _ a _ _ b => tidy q /\ (tidy a /\ binds a = false) /\ tidy b /\ binds b = false
  | EClo _ _ _ b => tidy b
  end.

(** ** Values that look the same: functions cannot be looked into *)
Inductive looks : value -> value -> Prop :=
| looks_none : looks VNone VNone
| looks_base t : looks (VBase t) (VBase t)
| looks_clo x o c b env x' o' c' b' env' : looks (VClo x o c b env) (VClo x' o' c' b' env').

(** Runs that end alike. *)
Definition alike (r r' : res) : Prop :=
  match r, r' with
  | Fuel, Fuel | Err, Err => True
  | Ok v _ fl, Ok v' _ fl' =>
      looks v v' /\
      match fl, fl' with
      | Go, Go | Brk, Brk | Cont, Cont | Ret None, Ret None => True
      | Ret (Some a), Ret (Some b) => looks a b
      | _, _ => False
      end
  | _, _ => False
  end.

(** ** The trees of programs *)

(** White space and semicolons between statements. *)
Definition whitec (c : nat) : Prop := In c [32; 10; 59].
Definition leaf (sp : nat) (t : list nat) : node := Node KToken sp t [].
Definition white (l : list node) : Prop := Forall (fun n => exists sp t, n = leaf sp t /\ t <> [] /\ Forall whitec t) l.
(** What follows a statement ends it. *)
Definition ends (l : list node) : Prop := exists sp c t l', l = leaf sp (c :: t) :: l' /\ (c = 10 \/ c = 59).
(** What follows an expression in content: a semicolon. *)
Definition semi (l : list node) : Prop := exists sp t l', l = leaf sp (59 :: t) :: l'.

Definition blockish (e : expr) : Prop := match e with EBlock _ _ _ | EContent _ => True | _ => False end.
Definition branch (e : expr) : Prop := match e with EIf1 _ _ _ _ | EIf2 _ _ _ _ _ _ _ => True | _ => blockish e end.

Inductive tree : expr -> node -> Prop :=
| tree_atom t sp : t <> [] -> tree (EAtom t) (Node KExpr sp t [])
| tree_let x a n sp s0 s1 s2 w1 w2 w3 : x <> [] ->
    tree a n -> white w1 -> w1 <> [] -> white w2 -> white w3 ->
    tree (ELet x a) (Node KExpr sp [] (leaf s0 (codes "let") :: w1 ++ Node KExpr s1 x [] :: w2 ++ leaf s2 (codes "=") :: w3 ++ [n]))
| tree_assign x a n sp s1 s2 w2 w3 : x <> [] ->
    tree a n -> white w2 -> white w3 ->
    tree (EAssign x a) (Node KExpr sp [] (Node KExpr s1 x [] :: w2 ++ leaf s2 (codes "=") :: w3 ++ [n]))
| tree_op o a b na nb sp s w1 w2 : o <> [] -> tree a na -> tree b nb -> white w1 -> white w2 ->
    tree (EOp o a b) (Node KExpr sp [] (na :: w1 ++ leaf s o :: w2 ++ [nb]))
| tree_app f a nf na sp s s1 s2 : tree f nf -> tree a na ->
    tree (EApp f a) (Node KExpr sp [] [nf; Node KToken s [] [leaf s1 (codes "("); na; leaf s2 (codes ")")]])
| tree_return0 sp s : tree EReturn0 (Node KExpr sp [] [leaf s (codes "return")])
| tree_return a n sp s w : tree a n -> white w -> w <> [] ->
    tree (EReturn a) (Node KExpr sp [] (leaf s (codes "return") :: w ++ [n]))
| tree_break sp s : tree EBreak (Node KExpr sp [] [leaf s (codes "break")])
| tree_continue sp s : tree EContinue (Node KExpr sp [] [leaf s (codes "continue")])
| tree_block o c es l sp s : code es l ->
    tree (EBlock o c es) (Node KBlock sp [] [leaf o (codes "{"); Node KToken s [] l; leaf c (codes "}")])
| tree_content es l sp s s1 s2 : markup es l ->
    tree (EContent es) (Node KExpr sp [] [leaf s1 (codes "["); Node KToken s [] l; leaf s2 (codes "]")])
| tree_if1 q a nq na sp s w1 w2 : tree q nq -> tree a na -> blockish a -> white w1 -> w1 <> [] -> white w2 ->
    tree (EIf1 q (first_span (children na)) (last_span (children na)) a)
      (Node KIf sp [] (leaf s (codes "if") :: w1 ++ nq :: w2 ++ [na]))
| tree_if2 q a b nq na nb sp s s' w1 w2 w3 w4 : tree q nq -> tree a na -> blockish a -> tree b nb -> branch b ->
    white w1 -> w1 <> [] -> white w2 -> white w3 -> white w4 -> w4 <> [] ->
    tree (EIf2 q (first_span (children na)) (last_span (children na)) a (first_span (children nb)) (last_span (children nb)) b)
      (Node KIf sp [] (leaf s (codes "if") :: w1 ++ nq :: w2 ++ na :: w3 ++ leaf s' (codes "else") :: w4 ++ [nb]))
| tree_while q b nq nb sp s w1 w2 : tree q nq -> tree b nb -> blockish b -> white w1 -> w1 <> [] -> white w2 ->
    tree (EWhile q (first_span (children nb)) (last_span (children nb)) b)
      (Node KWhile sp [] (leaf s (codes "while") :: w1 ++ nq :: w2 ++ [nb]))
| tree_for x q b nq nb sp s s1 s2 w1 w2 w3 w4 : x <> [] -> tree q nq -> tree b nb -> blockish b ->
    white w1 -> w1 <> [] -> white w2 -> w2 <> [] -> white w3 -> w3 <> [] -> white w4 ->
    tree (EFor x q (first_span (children nb)) (last_span (children nb)) b)
      (Node KFor sp [] (leaf s (codes "for") :: w1 ++ Node KExpr s1 x [] :: w2 ++ leaf s2 (codes "in") :: w3 ++ nq :: w4 ++ [nb]))
| tree_clo x b nb sp s s1 s2 w1 w2 : x <> [] -> tree b nb -> white w1 -> white w2 ->
    tree (EClo x (first_span (children nb)) (last_span (children nb)) b)
      (Node KClosure sp [] (Node KToken s [] [Node KExpr s1 x []] :: w1 ++ leaf s2 (codes "=>") :: w2 ++ [nb]))
| tree_pc i d sp s s0 s1 s2 s3 : numeral i d ->
    tree (EPc i) (Node KExpr sp [] [Node KExpr s0 (codes "__cov_pc") []; Node KToken s [] [leaf s1 (codes "("); Node KExpr s2 d []; leaf s3 (codes ")")]])
(** the statements of a block *)
with code : list expr -> list node -> Prop :=
| code_nil w : white w -> code [] w
| code_cons w e n es l : white w -> tree e n -> code es l -> es = [] \/ ends l -> code (e :: es) (w ++ n :: l)
(** text and embedded expressions *)
with markup : list expr -> list node -> Prop :=
| markup_nil : markup [] []
| markup_text t sp es l : t <> [] -> markup es l -> markup (EText t :: es) (Node KExpr sp t [] :: l)
| markup_code s e n sp t es l : tree e n -> markup es l ->
    markup (e :: es) (leaf s (codes "#") :: n :: leaf sp (codes ";" ++ t) :: l).

(** The tree of a whole program. *)
Definition program (es : list expr) (n : node) : Prop := exists sp l, n = Node KToken sp [] l /\ markup es l.

(** Spans identify the nodes with the same parent. *)
Fixpoint spans_ok (n : node) : Prop :=
  match n with
  | Node _ sp _ cs =>
      sp <> 0 /\ NoDup (map nspan cs) /\ (fix go l := match l with [] => True | c :: l' => spans_ok c /\ go l' end) cs
  end.

(** ** Counting *)

(** How often a call occurs in a run. *)
Definition calls_of (f i : nat) (l : list op) : nat :=
  length (filter (fun o => match o with Call g j => (g =? f) && (j =? i) | Read _ => false end) l).

(** A run of programs that make only the calls that were put in: a call is in
    a file read before, and its number is below that of the marks. *)
Inductive legal (base : nat -> option node) : list op -> Prop :=
| legal_nil : legal base []
| legal_read l f : legal base l -> legal base (l ++ [Read f])
| legal_call l f i root : legal base l -> In (Read f) l -> base f = Some root ->
    i < length (snd (instrument root)) -> legal base (l ++ [Call f i]).
