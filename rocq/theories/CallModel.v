(** How the arguments of a call are given parameters: the signature of a
    function value (crates/tinymist-analysis/src/sig.rs and the function type
    of crates/tinymist-analysis/src/ty/def.rs), the walk over the arguments
    (crates/tinymist-query/src/analysis/call.rs), the inlay hints made from it
    (crates/tinymist-query/src/inlay_hint.rs) and the parameter that signature
    help marks (crates/tinymist-query/src/signature_help.rs).

    A name is a number, [0] the empty one; a type is a number.  [None] as the
    result of an accessor that slices is a panic. *)
From Coq Require Import List Arith Bool.
Import ListNotations.

(** A parameter, crates/tinymist-analysis/src/ty/def.rs:584-597,641-652: its
    name, its type and its attributes.  The documentation and the default are
    left out. *)
Record pty := { p_name : nat; p_ty : nat; p_pos : bool; p_named : bool; p_var : bool; p_set : bool }.

(** The name bone and the types of a function type,
    crates/tinymist-analysis/src/ty/def.rs:779-792: the types of the inputs, the names,
    where the named ones start, and whether there is a rest parameter.  The
    type of the result is left out. *)
Record sigty := { s_inputs : list nat; s_names : list nat; s_start : nat; s_right : bool }.

(** One step of the stable sort of
    crates/tinymist-analysis/src/ty/def.rs:732: a field is put before the
    first one with a greater or equal name, being earlier than all of them. *)
Fixpoint ins (f : nat * nat) (l : list (nat * nat)) : list (nat * nat) :=
  match l with
  | [] => [f]
  | g :: l' => if fst f <=? fst g then f :: l else g :: ins f l'
  end.

(** The fields of a record, by name, crates/tinymist-analysis/src/ty/def.rs:731-739. *)
Definition shape_fields (l : list (nat * nat)) : list (nat * nat) := fold_right ins [] l.

(** A function type, crates/tinymist-analysis/src/ty/def.rs:880-911.  No
    caller gives a rest parameter on the left, which is left out. *)
Definition sig_new (pos : list nat) (named : list (nat * nat)) (rest : option nat) : sigty :=
  let fields := shape_fields named in
  let right := match rest with Some _ => true | None => false end in
  let tail := (if right then 1 else 0) + length fields in
  let inputs := pos ++ map snd fields ++ match rest with Some t => [t] | None => [] end in
  {| s_inputs := inputs; s_names := map fst fields;
     s_start := length inputs - tail; s_right := right |}.

(** The loop of the search of crates/tinymist-analysis/src/ty/def.rs:367-369:
    [binary_search_by] of the standard library, the range searched being
    [lo .. lo + n].  Which of several equal names it finds is not specified;
    it is the one that halving the range meets first. *)
Fixpoint bsearch (fuel : nat) (l : list nat) (x lo n : nat) : option nat :=
  match fuel with
  | 0 => None
  | S fuel' =>
      if n =? 0 then None
      else
        let mid := lo + n / 2 in
        match nth_error l mid with
        | None => None
        | Some y =>
            if y =? x then Some mid
            else if y <? x then bsearch fuel' l x (S mid) (n - n / 2 - 1)
            else bsearch fuel' l x lo (n / 2)
        end
  end.

(** Where a name is in the bone, crates/tinymist-analysis/src/ty/def.rs:367-369. *)
Definition bone_find (l : list nat) (x : nat) : option nat := bsearch (S (length l)) l x 0 (length l).

(** The types of the positional parameters,
    crates/tinymist-analysis/src/ty/def.rs:950-952. *)
Definition positional_params (s : sigty) : list nat := firstn (s_start s) (s_inputs s).

(** The type of a positional parameter, crates/tinymist-analysis/src/ty/def.rs:955-959. *)
Definition ty_pos (s : sigty) (i : nat) : option nat :=
  if i <? s_start s then nth_error (s_inputs s) i else None.

(** The named parameters with their types,
    crates/tinymist-analysis/src/ty/def.rs:977-982. *)
Definition named_params (s : sigty) : list (nat * nat) := combine (s_names s) (skipn (s_start s) (s_inputs s)).

(** The type of a named parameter, crates/tinymist-analysis/src/ty/def.rs:985-988. *)
Definition ty_named (s : sigty) (x : nat) : option nat :=
  match bone_find (s_names s) x with
  | Some i => nth_error (s_inputs s) (i + s_start s)
  | None => None
  end.

(** The last element, [slice::last], as used at
    crates/tinymist-analysis/src/ty/def.rs:993. *)
Definition last_of {A} (l : list A) : option A := nth_error l (length l - 1).

(** The type of the rest parameter, crates/tinymist-analysis/src/ty/def.rs:991-997. *)
Definition rest_param (s : sigty) : option nat := if s_right s then last_of (s_inputs s) else None.

(** The names fill, stroke and size, of crates/tinymist-analysis/src/sig.rs:201. *)
Definition fss (x : nat) : bool := (1 <=? x) && (x <=? 3).

(** A primary signature, crates/tinymist-analysis/src/sig.rs:74-85.  The
    documentation and the mark for broken ones are left out: nothing reads
    the latter. *)
Record psig := { g_specs : list pty; g_fss : bool; g_ty : sigty }.

(** A slice [l[a..b]]; [None]: it panics.  As used at
    crates/tinymist-analysis/src/sig.rs:95,105. *)
Definition slice {A} (l : list A) (a b : nat) : option (list A) :=
  if (a <=? b) && (b <=? length l) then Some (firstn (b - a) (skipn a l)) else None.

(** The number of positional parameters, crates/tinymist-analysis/src/sig.rs:89-91. *)
Definition pos_size (g : psig) : nat := s_start (g_ty g).

(** The positional parameters, crates/tinymist-analysis/src/sig.rs:94-96. *)
Definition sig_pos (g : psig) : option (list pty) := slice (g_specs g) 0 (pos_size g).

(** The named parameters, crates/tinymist-analysis/src/sig.rs:104-106. *)
Definition sig_named (g : psig) : option (list pty) :=
  slice (g_specs g) (pos_size g) (pos_size g + length (s_names (g_ty g))).

(** A positional parameter, crates/tinymist-analysis/src/sig.rs:99-101. *)
Definition get_pos (g : psig) (i : nat) : option (option pty) := option_map (fun l => nth_error l i) (sig_pos g).

(** A named parameter, crates/tinymist-analysis/src/sig.rs:109-111.  The
    argument of [get] is computed after the slice. *)
Definition get_named (g : psig) (x : nat) : option (option pty) :=
  match sig_named g with
  | None => None
  | Some l => Some match bone_find (s_names (g_ty g)) x with Some i => nth_error l i | None => None end
  end.

(** The rest parameter, crates/tinymist-analysis/src/sig.rs:119-122: indexing
    past the end panics. *)
Definition sig_rest (g : psig) : option (option pty) :=
  if s_right (g_ty g) then
    match nth_error (g_specs g) (pos_size g + length (s_names (g_ty g))) with
    | Some p => Some (Some p)
    | None => None
    end
  else Some None.

(** All the parameters, with their types, in the order they are shown,
    crates/tinymist-analysis/src/sig.rs:125-138. *)
Definition sig_params (g : psig) : option (list (pty * option nat)) :=
  match sig_pos g, sig_named g, sig_rest g with
  | Some ps, Some ns, Some r =>
      Some (map (fun '(i, p) => (p, ty_pos (g_ty g) i)) (combine (seq 0 (length ps)) ps)
            ++ map (fun p => (p, ty_named (g_ty g) (p_name p))) ns
            ++ match r with Some p => [(p, rest_param (g_ty g))] | None => [] end)
  | _, _, _ => None
  end.

(** What the closure [add_param] of crates/tinymist-analysis/src/sig.rs:187-220
    has gathered.  The named specs are a map; here the last one with a name is
    looked up. *)
Record acc := { a_pos : list pty; a_named : list pty; a_rest : option pty; a_fss : bool }.

(** Nothing gathered, crates/tinymist-analysis/src/sig.rs:187-196. *)
Definition acc0 : acc := {| a_pos := []; a_named := []; a_rest := None; a_fss := false |}.

(** One parameter, crates/tinymist-analysis/src/sig.rs:198-220. *)
Definition add_param (a : acc) (p : pty) : acc :=
  {| a_pos := if p_var p then a_pos a else if p_pos p then a_pos a ++ [p] else a_pos a;
     a_named := if p_named p then a_named a ++ [p] else a_named a;
     a_rest := if p_var p then match a_rest a with Some q => Some q | None => Some p end else a_rest a;
     a_fss := a_fss a || (p_named p && fss (p_name p)) |}.

(** The spec of a named parameter, the last inserted into the map,
    crates/tinymist-analysis/src/sig.rs:205,246. *)
Definition spec_of (l : list pty) (x : nat) : option pty := find (fun p => p_name p =? x) (rev l).

(** The list of an option.  As used at crates/tinymist-analysis/src/sig.rs:245-253. *)
Definition opt_list {A} (o : option A) : list A := match o with Some x => [x] | None => [] end.

(** The primary signature of a function with these parameters,
    crates/tinymist-analysis/src/sig.rs:187-261. *)
Definition primary (ps : list pty) : psig :=
  let a := fold_left add_param ps acc0 in
  let t := sig_new (map p_ty (a_pos a)) (map (fun p => (p_name p, p_ty p)) (a_named a))
             (option_map p_ty (a_rest a)) in
  {| g_specs := a_pos a ++ flat_map (fun x => opt_list (spec_of (a_named a) x)) (s_names t) ++ opt_list (a_rest a);
     g_fss := a_fss a; g_ty := t |}.

(** A signature: the primary one and the stack of [with] calls, the outermost
    first; an argument is its name if it has one.
    crates/tinymist-analysis/src/sig.rs:21-43,141-164. *)
Record sig := { f_primary : psig; f_with : list (list (option nat)) }.

(** A function value, as far as crates/tinymist-analysis/src/sig.rs:168-185
    looks: its parameters, or another function with arguments applied. *)
Inductive func :=
| Base (ps : list pty)
| With (inner : func) (args : list (option nat)).

(** The signature of a function value, crates/tinymist-analysis/src/sig.rs:168-273. *)
Fixpoint func_signature (f : func) : sig :=
  match f with
  | Base ps => {| f_primary := primary ps; f_with := [] |}
  | With g args =>
      let s := func_signature g in
      {| f_primary := f_primary s; f_with := args :: f_with s |}
  end.

(** How many arguments are bound by [with],
    crates/tinymist-analysis/src/sig.rs:60-69. *)
Definition param_shift (s : sig) : nat := fold_right (fun ws n => length ws + n) 0 (f_with s).

(** The parameters of a closure, crates/tinymist-analysis/src/sig.rs:287-320. *)
Inductive cparam :=
| PPos (x : nat)
| PNamed (x : nat)
| PSink (x : nat).

(** The type [any], which every parameter of a closure has,
    crates/tinymist-analysis/src/sig.rs:295,306,316. *)
Definition any_ty : nat := 0.

(** A parameter of a closure, crates/tinymist-analysis/src/sig.rs:288-319 and
    crates/tinymist-analysis/src/ty/def.rs:600-625. *)
Definition cparam_ty (p : cparam) : pty :=
  match p with
  | PPos x => {| p_name := x; p_ty := any_ty; p_pos := true; p_named := false; p_var := false; p_set := false |}
  | PNamed x => {| p_name := x; p_ty := any_ty; p_pos := false; p_named := true; p_var := false; p_set := false |}
  | PSink x => {| p_name := x; p_ty := any_ty; p_pos := true; p_named := false; p_var := true; p_set := false |}
  end.

(** A closure, crates/tinymist-analysis/src/sig.rs:275-322. *)
Definition closure (l : list cparam) : func := Base (map cparam_ty l).

(** A child of the argument list, as
    crates/tinymist-query/src/analysis/call.rs:190-221 tells them apart: a
    positional argument (whether it is a content block), a named one, a
    spread, a parenthesis, or anything else. *)
Inductive child :=
| KPos (block : bool)
| KNamed (x : nat)
| KSpread
| KOpen
| KClose
| KOther.

(** The kind of a parameter, crates/tinymist-query/src/analysis/call.rs:9-18. *)
Inductive pkind := Positional | Named | Rest.

(** What is known of an argument, crates/tinymist-query/src/analysis/call.rs:30-38. *)
Record pinfo := { i_kind : pkind; i_block : bool; i_name : nat }.

(** The state of the walk, crates/tinymist-query/src/analysis/call.rs:83-88. *)
Inductive pstate := Init | Pos (i : nat) | Variadic | Final.

(** The state after the positional parameters,
    crates/tinymist-query/src/analysis/call.rs:102-106,113-117,144-148. *)
Definition after_pos (g : psig) : pstate := if s_right (g_ty g) then Variadic else Final.

(** One positional argument: the next state and the parameter it gets.
    [None]: a panic.  crates/tinymist-query/src/analysis/call.rs:97-123. *)
Definition advance (g : psig) (st : pstate) : option (pstate * option (pkind * pty)) :=
  match st with
  | Init =>
      match sig_pos g with
      | None => None
      | Some [] => Some (after_pos g, None)
      | Some _ => Some (Pos 0, None)
      end
  | Pos i =>
      match get_pos g i with
      | Some (Some p) => Some (if i + 1 <? pos_size g then Pos (i + 1) else after_pos g, Some (Positional, p))
      | _ => None
      end
  | Variadic =>
      match sig_rest g with
      | Some (Some p) => Some (Variadic, Some (Rest, p))
      | _ => None
      end
  | Final => Some (Final, None)
  end.

(** One spread argument, crates/tinymist-query/src/analysis/call.rs:139-170. *)
Definition advance_rest (g : psig) (st : pstate) : option (pstate * option (pkind * pty)) :=
  match st with
  | Init => None
  | Final => Some (Final, None)
  | _ =>
      let st' := match st with Pos _ => after_pos g | _ => st end in
      match sig_rest g with
      | None => None
      | Some r => Some (st', option_map (fun p => (Rest, p)) r)
      end
  end.

(** Skipping the parameters that [with] has given arguments,
    crates/tinymist-query/src/analysis/call.rs:184-188. *)
Fixpoint skip (g : psig) (st : pstate) (l : list (option nat)) : option pstate :=
  match l with
  | [] => Some st
  | Some _ :: l' => skip g st l'
  | None :: l' =>
      match advance g st with
      | Some (st', _) => skip g st' l'
      | None => None
      end
  end.

(** The entry that an argument gets, if any,
    crates/tinymist-query/src/analysis/call.rs:125-136,158-169. *)
Definition entry (out : bool) (block : bool) (r : option (pkind * pty)) : option pinfo :=
  option_map (fun '(k, p) => {| i_kind := k; i_block := out && block; i_name := p_name p |}) r.

(** The walk over the children of the argument list: for each of them what is
    put in the map, in their order; [None]: a panic.
    crates/tinymist-query/src/analysis/call.rs:190-223.  The map is keyed by
    syntax nodes, which carry their spans, so no two children have one key. *)
Fixpoint walk (g : psig) (st : pstate) (out : bool) (l : list child) : option (list (option pinfo)) :=
  match l with
  | [] => Some []
  | c :: l' =>
      match c with
      | KOpen => option_map (cons None) (walk g st false l')
      | KClose => option_map (cons None) (walk g st true l')
      | KOther => option_map (cons None) (walk g st out l')
      | KNamed x =>
          match get_named g x with
          | None => None
          | Some r =>
              option_map
                (cons (option_map (fun p => {| i_kind := Named; i_block := false; i_name := p_name p |}) r))
                (walk g st out l')
          end
      | KPos b =>
          match advance g st with
          | None => None
          | Some (st', r) => option_map (cons (entry out b r)) (walk g st' out l')
          end
      | KSpread =>
          match advance_rest g st with
          | None => None
          | Some (st', r) => option_map (cons (entry out false r)) (walk g st' out l')
          end
      end
  end.

(** The analysis of a call, given the signature of the callee,
    crates/tinymist-query/src/analysis/call.rs:77-226. *)
Definition analyze_call (s : sig) (l : list child) : option (list (option pinfo)) :=
  let g := f_primary s in
  match advance g Init with
  | None => None
  | Some (st0, _) =>
      match skip g st0 (concat (rev (f_with s))) with
      | None => None
      | Some st => walk g st true l
      end
  end.

(** What a mapped argument adds to the counts of
    crates/tinymist-query/src/inlay_hint.rs:133-161: the positional ones, the
    content blocks, and whether one went to the rest parameter. *)
Definition count1 (acc : nat * nat * bool) (o : option pinfo) : nat * nat * bool :=
  let '(pos, cont, rest) := acc in
  match o with
  | None => acc
  | Some i =>
      match i_kind i with
      | Named => acc
      | Rest => (pos, cont, true)
      | Positional => if i_block i then (pos, cont + 1, rest) else (pos + 1, cont, rest)
      end
  end.

(** Whether the hints of the positional arguments are off since there is only
    one, crates/tinymist-query/src/inlay_hint.rs:132-164 with the settings of
    :30-40.  The loop stops once both counts exceed one, which changes
    neither answer; the second answer is not used, since hints of content
    blocks are off anyway (:38,173). *)
Definition single_pos (m : list (option pinfo)) : bool :=
  let '(pos, _, rest) := fold_left count1 m (0, 0, false) in
  pos <=? (if rest then 0 else 1).

(** A hint: the child it is put before, whether the label starts with two
    dots, and the name, crates/tinymist-query/src/inlay_hint.rs:243-261. *)
Definition hint := (nat * bool * nat)%type.

(** The loop over the arguments, crates/tinymist-query/src/inlay_hint.rs:195-262
    with the settings of :30-40: [n] is the number of the child, [first]
    whether no argument of the rest parameter has been seen. *)
Fixpoint hint_loop (fs off : bool) (n : nat) (first : bool) (m : list (option pinfo)) : list hint :=
  match m with
  | [] => []
  | None :: m' => hint_loop fs off (S n) first m'
  | Some i :: m' =>
      if i_name i =? 0 then hint_loop fs off (S n) first m'
      else
        match i_kind i with
        | Named => hint_loop fs off (S n) first m'
        | Positional =>
            if fs || i_block i || off then hint_loop fs off (S n) first m'
            else (n, false, i_name i) :: hint_loop fs off (S n) first m'
        | Rest =>
            if off || negb first then hint_loop fs off (S n) false m'
            else (n, true, i_name i) :: hint_loop fs off (S n) false m'
        end
  end.

(** The hints of a call, crates/tinymist-query/src/inlay_hint.rs:123-265.
    [None]: a panic. *)
Definition hints (s : sig) (l : list child) : option (list hint) :=
  option_map (fun m => hint_loop (g_fss (f_primary s)) (single_pos m) 0 true m) (analyze_call s l).

(** The class of the argument at the cursor,
    crates/tinymist-analysis/src/syntax/matcher.rs:1294-1377: named, or
    positional with the number of positional arguments before it. *)
Inductive target := TNamed (x : nat) | TPos (n : nat).

(** The width of a child in bytes goes with it where offsets matter.  The
    number of positional arguments among the children that end at or before an
    offset, [o] being where the first one starts,
    crates/tinymist-analysis/src/syntax/matcher.rs:1331-1347. *)
Fixpoint pos_before (o : nat) (at_ : nat) (l : list (child * nat)) : nat :=
  match l with
  | [] => 0
  | (c, w) :: l' =>
      if o + w <=? at_ then (match c with KPos _ => 1 | _ => 0 end) + pos_before (o + w) at_ l' else 0
  end.

(** Where a child starts, as used at
    crates/tinymist-analysis/src/syntax/matcher.rs:1333. *)
Fixpoint offset_of (o : nat) (i : nat) (l : list (child * nat)) : nat :=
  match i, l with
  | S i', (_, w) :: l' => offset_of (o + w) i' l'
  | _, _ => o
  end.

(** The class of a child of an argument list that starts at [o],
    crates/tinymist-analysis/src/syntax/matcher.rs:1302-1376 for calls: the
    cursor is at the child itself.  That a cursor deeper inside a named
    argument also yields its name is left out, and so is the step from the
    right parenthesis to the child before it. *)
Definition arg_context (o : nat) (l : list (child * nat)) (i : nat) : option target :=
  match nth_error l i with
  | None => None
  | Some (KNamed x, _) => Some (TNamed x)
  | Some _ => Some (TPos (pos_before o (offset_of o i l) l))
  end.

(** The loop over the parameters, crates/tinymist-query/src/signature_help.rs:53-100:
    [idx] numbers all the parameters, [real] those that are shown; the result
    is the names shown and the parameter that is marked. *)
Fixpoint help_loop (set : bool) (t : target) (shift idx real : nat) (act : option nat)
    (l : list pty) : list nat * option nat :=
  match l with
  | [] => ([], act)
  | p :: l' =>
      if set && negb (p_set p) then help_loop set t shift (S idx) real act l'
      else
        let act' :=
          match t with
          | TPos n => if set then act else if n + shift =? idx then Some real else act
          | TNamed x => if x =? p_name p then Some real else act
          end in
        let '(names, r) := help_loop set t shift (S idx) (S real) act' l' in
        (p_name p :: names, r)
  end.

(** Signature help, crates/tinymist-query/src/signature_help.rs:45-124: the
    names of the parameters in order and the one that is marked.  [None]: a
    panic.  The text of the label and the documentation are left out. *)
Definition signature_help (s : sig) (set : bool) (t : target) : option (list nat * option nat) :=
  match sig_params (f_primary s) with
  | None => None
  | Some ps =>
      let '(names, act) := help_loop set t (param_shift s) 0 0 None (map fst ps) in
      Some (names,
            match t with
            | TPos _ => option_map (fun x => Nat.min x (pos_size (f_primary s) - 1)) act
            | TNamed _ => act
            end)
  end.

(** The positional part of the pairs of types of parameters and arguments,
    crates/tinymist-analysis/src/ty/def.rs:1000-1031: a stream is the
    positional types, then the rest type over and over, cut at [n]. *)
Definition stream (l : list nat) (rest : option nat) (n : nat) : list nat :=
  match rest with
  | None => firstn n l
  | Some r => firstn n (l ++ repeat r n)
  end.

(** Matching a function type with the types of arguments, those given by
    [with] coming outermost first, crates/tinymist-analysis/src/ty/def.rs:1000-1031.
    The named part (:1032-1040) is left out. *)
Definition matches_pos (s args : sigty) (w : list sigty) : list (nat * nat) :=
  let with_len := fold_right (fun a n => length (positional_params a) + n) 0 w in
  let sp := positional_params s in
  let ap := positional_params args in
  let max_len := Nat.max (length sp) (with_len + length ap)
                 + match rest_param s, rest_param args with Some _, Some _ => 1 | _, _ => 0 end in
  combine (stream sp (rest_param s) max_len)
          (stream (flat_map positional_params (rev w) ++ ap) (rest_param args) max_len).

(** The stack of [with] calls found by following the aliases of a variable,
    crates/tinymist-query/src/analysis/signature.rs:190-226: for each call the
    number of its positional arguments; an argument is recorded under the name
    of the parameter that accepts it. *)
Fixpoint wind (accepting : list pty) (l : list nat) : list (list (option nat)) :=
  match l with
  | [] => []
  | n :: l' =>
      let items := map (fun p => Some (p_name p)) (firstn n accepting) in
      match items with
      | [] => wind (skipn n accepting) l'
      | _ => items :: wind (skipn n accepting) l'
      end
  end.

(** [wind_stack], crates/tinymist-query/src/analysis/signature.rs:190-226.
    [None]: a panic. *)
Definition wind_stack (l : list nat) (s : sig) : option sig :=
  match l with
  | [] => Some s
  | _ =>
      match sig_pos (f_primary s) with
      | None => None
      | Some ps =>
          Some {| f_primary := f_primary s;
                  f_with := f_with s ++ wind (skipn (length (f_with s)) ps) l |}
      end
  end.
