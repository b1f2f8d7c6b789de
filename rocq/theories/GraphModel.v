(** Model of the computations of a world: crates/tinymist-world/src/compute.rs, with the artefact made of
    them (crates/tinymist-project/src/compiler.rs:86-105).  Threads are interleaved between the operations on the cells. *)
From Coq Require Import List Arith Bool.
Import ListNotations.

(** The computations: the flag of a kind of compilation (compute.rs:232), the compilation (compute.rs:250), its document
    (compute.rs:316) and the diagnostics of both kinds (compute.rs:353); [true] is HTML, [false] paged. *)
Inductive task := Flag (h : bool) | Comp (h : bool) | Doc (h : bool) | Diag.
(** Equality of [TypeId]s, compute.rs:162. *)
Definition task_eqb (a b : task) : bool :=
  match a, b with
  | Flag x, Flag y | Comp x, Comp y | Doc x, Doc y => Bool.eqb x y
  | Diag, Diag => true
  | _, _ => false
  end.
(** What a compilation gives (external): a document or errors, and warnings; compute.rs:294-300. *)
Record outcome := mkOut { o_doc : option nat; o_errs : list nat; o_warns : list nat }.
(** compute.rs:337-351 [CompilationDiagnostics]: errors and warnings. *)
Definition diags : Type := (option (list nat) * option (list nat)).
(** Results; a compilation is known by its number among all that were made.  [VErr] is the error of
    [must_get], compute.rs:120-126, which every computation passes on. *)
Inductive value := VFlag (b : bool) | VComp (r : option nat) | VDoc (d : option nat) | VDiag (p h : diags) | VErr.
(** compute.rs:21-23: a cell that is filled once (external, [OnceLock]); it may be being filled by a thread. *)
Inductive cell := Empty | Busy (t : nat) | Full (v : value).
(** compute.rs:32-37 [WorldComputeGraph]: the snapshot, and the cells by computation. *)
Record graph := mkG { g_snap : nat; g_entries : list (task * nat) }.
(** Where a thread is in [compute] (compute.rs:154-158): about to call [get_or_init], or in the body of the
    computation with the results it has so far. *)
Inductive pc := Enter | Inside (got : list value).
(** A call of [compute] on a graph; compute.rs:154. *)
Record frame := mkF { f_graph : nat; f_task : task; f_cell : nat; f_pc : pc }.
(** A compilation: the graph and kind it was made for, and the cell it is for; compute.rs:312. *)
Record made := mkM { m_graph : nat; m_kind : bool; m_cell : nat }.
(** What was answered: the graph, the computation, and its result; compute.rs:157. *)
Record answer := mkA { a_graph : nat; a_task : task; a_value : value }.
(** All cells and graphs, the calls of each thread (the innermost first), the compilations, the
    answers, and whether a thread panicked; compute.rs:32-37,228. *)
Record st := mkSt { s_cells : list cell; s_graphs : list graph; s_threads : list (list frame); s_runs : list made;
  s_answers : list answer; s_panics : list nat }.
(** Before anything; compute.rs:84. *)
Definition init : st := mkSt [] [] [] [] [] [].
(** Update at an index; for the lists of [st], compute.rs:32. *)
Fixpoint set_nth {A} (n : nat) (x : A) (l : list A) : list A :=
  match l, n with [], _ => [] | _ :: l, O => x :: l | y :: l, S n => y :: set_nth n x l end.
(** The content of a cell; compute.rs:22. *)
Definition content (s : st) (c : nat) : cell := nth c (s_cells s) Empty.
(** Filling a cell; compute.rs:22. *)
Definition put (c : nat) (x : cell) (s : st) : st :=
  mkSt (set_nth c x (s_cells s)) (s_graphs s) (s_threads s) (s_runs s) (s_answers s) (s_panics s).
(** The calls of a thread change; compute.rs:154. *)
Definition set_stack (t : nat) (l : list frame) (s : st) : st :=
  mkSt (s_cells s) (s_graphs s) (set_nth t l (s_threads s)) (s_runs s) (s_answers s) (s_panics s).
(** The entry of a computation, compute.rs:162. *)
Definition find_entry (T : task) (l : list (task * nat)) : option nat := option_map snd (find (fun x => task_eqb (fst x) T) l).
(** The entry of a computation in a graph; compute.rs:162. *)
Definition entry (s : st) (g : nat) (T : task) : option nat :=
  match nth_error (s_graphs s) g with Some x => find_entry T (g_entries x) | None => None end.
(** compute.rs:160-169 [computed]: the entry, made if there is none. *)
Definition computed (g : nat) (T : task) (s : st) : st * nat :=
  match entry s g T with
  | Some c => (s, c)
  | None =>
      let c := length (s_cells s) in
      match nth_error (s_graphs s) g with
      | Some x => (mkSt (s_cells s ++ [Empty]) (set_nth g (mkG (g_snap x) ((T, c) :: g_entries x)) (s_graphs s)) (s_threads s) (s_runs s) (s_answers s) (s_panics s), c)
      | None => (s, c)
      end
  end.
(** compute.rs:128-131 [get]. *)
Definition get (g : nat) (T : task) (s : st) : st * option value :=
  let '(s, c) := computed g T s in (s, match content s c with Full v => Some v | _ => None end).
(** compute.rs:144-152 [provide] of a flag; the result is ignored at compiler.rs:89-90.  It waits while
    the cell is being filled. *)
Definition provide (g : nat) (h b : bool) (s : st) : st :=
  let '(s, c) := computed g (Flag h) s in match content s c with Empty => put c (Full (VFlag b)) s | _ => s end.
(** compute.rs:343-350 [from_result]. *)
Definition diags_of (O : nat -> outcome) (r : option nat) : diags :=
  match r with
  | None => (None, None)
  | Some n => (match o_doc (O n) with Some _ => None | None => Some (o_errs (O n)) end, Some (o_warns (O n)))
  end.
(** compute.rs:324-332. *)
Definition doc_of (O : nat -> outcome) (r : option nat) : option nat := match r with Some n => o_doc (O n) | None => None end.
(** What the body of a computation does next, given the results so far; compute.rs:226-229,309-313,324-332,361-369. *)
Inductive action := Need (T : task) | MustGet (h : bool) | Execute (h : bool) | Ret (v : value) | Panic.
(** The bodies: compute.rs:226-229, 309-313, 324-332, 361-369.  A result of another type is a panic
    (compute.rs:27). *)
Definition next (O : nat -> outcome) (T : task) (got : list value) : action :=
  match T, got with
  | Comp h, [] => MustGet h
  | Comp h, [VFlag true] => Execute h
  | Comp _, [VFlag false] => Ret (VComp None)
  | Comp _, [VFlag _; VComp r] => Ret (VComp r)
  | Doc h, [] => Need (Comp h)
  | Doc _, [VComp r] => Ret (VDoc (doc_of O r))
  | Diag, [] => Need (Comp false)
  | Diag, [VComp _] => Need (Comp true)
  | Diag, [VComp p; VComp h] => Ret (VDiag (diags_of O p) (diags_of O h))
  | Comp _, [VErr] | Doc _, [VErr] | Diag, [VErr] | Diag, [_; VErr] => Ret VErr
  | _, _ => Panic
  end.
(** The end of a call, compute.rs:157: the result goes to the caller. *)
Definition return_to (t : nat) (f : frame) (below : list frame) (v : value) (s : st) : st :=
  match below with
  | [] => let s := set_stack t [] s in
          mkSt (s_cells s) (s_graphs s) (s_threads s) (s_runs s) (s_answers s ++ [mkA (f_graph f) (f_task f) v]) (s_panics s)
  | mkF g T c (Inside got) :: l => set_stack t (mkF g T c (Inside (got ++ [v])) :: l) s
  | _ :: _ => s
  end.
(** A panic: the calls are unwound, and the cells they were filling are empty again (external, [OnceLock]); compute.rs:156. *)
Definition unwind (t : nat) (l : list frame) (s : st) : st :=
  let s := fold_left (fun s f => match f_pc f with Inside _ => put (f_cell f) Empty s | Enter => s end) l s in
  let s := set_stack t [] s in
  mkSt (s_cells s) (s_graphs s) (s_threads s) (s_runs s) (s_answers s) (s_panics s ++ [t]).
(** A step of a thread, compute.rs:154-158 and the bodies. *)
Definition advance (O : nat -> outcome) (t : nat) (s : st) : st :=
  match nth_error (s_threads s) t with
  | Some (f :: below) =>
      match f_pc f with
      | Enter =>
          match content s (f_cell f) with
          | Full v => return_to t f below v s
          | Empty => set_stack t (mkF (f_graph f) (f_task f) (f_cell f) (Inside []) :: below) (put (f_cell f) (Busy t) s)
          | Busy _ => s
          end
      | Inside got =>
          match next O (f_task f) got with
          | Need T => let '(s, c) := computed (f_graph f) T s in set_stack t (mkF (f_graph f) T c Enter :: f :: below) s
          | MustGet h =>
              let '(s, x) := get (f_graph f) (Flag h) s in
              set_stack t (mkF (f_graph f) (f_task f) (f_cell f) (Inside (got ++ [match x with Some v => v | None => VErr end])) :: below) s
          | Execute h =>
              let n := length (s_runs s) in
              let s := set_stack t (mkF (f_graph f) (f_task f) (f_cell f) (Inside (got ++ [VComp (Some n)])) :: below) s in
              mkSt (s_cells s) (s_graphs s) (s_threads s) (s_runs s ++ [mkM (f_graph f) h (f_cell f)]) (s_answers s) (s_panics s)
          | Ret v => return_to t f below v (put (f_cell f) (Full v) s)
          | Panic => unwind t (f :: below) s
          end
      end
  | _ => s
  end.
(** A new graph (compute.rs:85-90; also [task], compute.rs:113-117), one with the same entries (compute.rs:98-109, of the same
    or another snapshot), [get], [provide] of a flag, a call of [compute] by a thread, a step of a
    thread, and a panic in the compiler (compute.rs:312). *)
Inductive event := New (snap : nat) | Fork (g : nat) (snap : option nat) | Get (g : nat) (T : task) | Provide (g : nat) (h b : bool)
| Ask (g : nat) (T : task) | Step (t : nat) | Crash (t : nat).
(** One event; see [event], compute.rs:84-169. *)
Definition step (O : nat -> outcome) (s : st) (e : event) : st :=
  match e with
  | New snap => mkSt (s_cells s) (s_graphs s ++ [mkG snap []]) (s_threads s) (s_runs s) (s_answers s) (s_panics s)
  | Fork g snap =>
      match nth_error (s_graphs s) g with
      | Some x => mkSt (s_cells s) (s_graphs s ++ [mkG (match snap with Some y => y | None => g_snap x end) (g_entries x)]) (s_threads s) (s_runs s) (s_answers s) (s_panics s)
      | None => s
      end
  | Get g T => if g <? length (s_graphs s) then fst (get g T s) else s
  | Provide g h b => if g <? length (s_graphs s) then provide g h b s else s
  | Ask g T =>
      if g <? length (s_graphs s) then
        let '(s, c) := computed g T s in
        mkSt (s_cells s) (s_graphs s) (s_threads s ++ [[mkF g T c Enter]]) (s_runs s) (s_answers s) (s_panics s)
      else s
  | Step t => advance O t s
  | Crash t =>
      match nth_error (s_threads s) t with
      | Some (f :: below) => match f_pc f with Inside _ => unwind t (f :: below) s | Enter => s end
      | _ => s
      end
  end.
(** A history; driver of [step], compute.rs:84. *)
Definition run (O : nat -> outcome) (s : st) (es : list event) : st := fold_left (step O) es s.
(** compiler.rs:86-105 [from_graph] up to the artefact: both flags, the document of the kind asked for, and the
    diagnostics. *)
Definition from_graph (g : nat) (h : bool) : list event := [Provide g true h; Provide g false (negb h); Ask g (Doc h); Ask g Diag].
