(** The compile scheduler: crates/tinymist-project/src/compiler.rs (cited as
    compiler.rs) with the handler of crates/tinymist/src/project.rs (cited as
    project.rs).

    Project ids are numbers, 0 is "primary".  An entry is a number, 0 is an
    inactive entry.  The virtual file system of a project is not part of this
    model: whether an event changes it ([vfs_changed]) and whether the last
    compilation counts as clean ([is_clean_compile]) are parameters of the
    event, so every behaviour of the file system is covered (VfsModel has the
    file system itself).  A document is identified by the entry and the
    revision it was compiled from and by the project instance (a number that is
    fresh for every created project).

    Compilations run on other threads: a started compilation is in [s_tasks]
    until it finishes, in any order; the results it sends to the server wait in
    [s_queue] (a FIFO channel). *)
From Coq Require Import List Arith Bool.
From Verif Require Import AssocModel.
Import ListNotations.

(** compiler.rs:264-271 [CompileReasons]. *)
Record reasons := mkReasons { by_mem : bool; by_fs : bool; by_entry : bool }.
(** compiler.rs:306-308. *)
Definition no_reason : reasons := mkReasons false false false.
(** compiler.rs:310-315. *)
Definition reason_mem : reasons := mkReasons true false false.
(** compiler.rs:317-322. *)
Definition reason_fs : reasons := mkReasons false true false.
(** compiler.rs:324-329. *)
Definition reason_entry : reasons := mkReasons false false true.
(** compiler.rs:285-289 [see]. *)
Definition see (a b : reasons) : reasons :=
  mkReasons (by_mem a || by_mem b) (by_fs a || by_fs b) (by_entry a || by_entry b).
(** compiler.rs:292-294 [any]. *)
Definition any (a : reasons) : bool := by_mem a || by_fs a || by_entry a.
(** compiler.rs:297-303 [exclude]. *)
Definition exclude (a b : reasons) : reasons :=
  mkReasons (by_mem a && negb (by_mem b)) (by_fs a && negb (by_fs b)) (by_entry a && negb (by_entry b)).

(** A compiled document: the instance, entry and revision it comes from
    (compiler.rs:29, [CompiledArtifact::doc]). *)
Record doc := mkDoc { d_inst : nat; d_entry : nat; d_rev : nat }.
(** The fields of [CompileSnapshot] made at compiler.rs:774-787. *)
Record snap := mkSnap {
  sn_id : nat; sn_inst : nat; sn_rev : nat; sn_entry : nat; sn_signal : reasons; sn_good : option doc
}.
(** compiler.rs:24-33 [CompiledArtifact]. *)
Record art := mkArt { a_snap : snap; a_doc : option doc }.
(** compiler.rs:68-73 [success_doc]. *)
Definition success_doc (a : art) : option doc :=
  match a_doc a with Some d => Some d | None => sn_good (a_snap a) end.

(** compiler.rs:735-759 [ProjectInsState] and project.rs:226-232
    [ProjectInsStateExt]. *)
Record proj := mkProj {
  p_id : nat; p_inst : nat; p_entry : nat; p_rev : nat; p_reason : reasons; p_snap : option snap;
  p_committed : nat; p_good : option doc;
  x_notified : nat; x_pending : reasons; x_emitted : reasons; x_compiling : bool; x_last : option art
}.
(** compiler.rs:435-454 [create_project] with a universe at revision 1
    (crates/tinymist-world/src/world.rs:89). *)
Definition new_proj (id inst entry : nat) : proj :=
  mkProj id inst entry 1 no_reason None 0 None 0 no_reason no_reason false None.

(** The report kinds of compiler.rs:574-581,837-862. *)
Inductive kind := Compiling | Suspended | Success | Failure.
(** What the scheduler does to its environment.  [OStatus]: an accepted status
    report (project.rs:580).  [OClear]: diagnostics are cleared
    (project.rs:565,594).  [ONotify]: a result goes to exports, preview and
    diagnostics (project.rs:622-633).  [OStart]: a compilation is spawned
    (project.rs:543).  [OSkip]: a recompilation is skipped as harmless
    (project.rs:507-534).  [OCommit]: dependencies are sent to the watcher
    (compiler.rs:541-549).  [ORemove]: a project is removed (compiler.rs:504,
    project.rs:95).  Two are bookkeeping of the model: [OChange], the universe
    of a project has a new revision, and [OEntry], its entry was replaced
    (compiler.rs:562). *)
Inductive out :=
  | OStatus (id rev : nat) (k : kind) | OClear (id rev : nat) | ONotify (a : art)
  | OStart (id rev : nat) | OSkip (id rev : nat) | OCommit (id rev : nat) | OChange (id rev : nat)
  | OEntry (id entry : nat) | ORemove (id : nat) | OPanic.

(** compiler.rs:360-383 [ProjectCompiler] and project.rs:384-399
    [CompileHandlerImpl], whose two tables are per handler generation (a reload
    makes a new handler, project.rs:81-117); an absent entry counts as 0
    (project.rs:552,600). *)
Record st := mkSt {
  s_gen : nat; s_ninst : nat; s_primary : proj; s_dedicates : list proj;
  s_status : nat -> nat -> nat; s_notified : nat -> nat -> nat;
  s_tasks : list (nat * snap); s_queue : list art; s_dead : bool
}.
(** compiler.rs:387-417 [new]. *)
Definition init (entry : nat) : st :=
  mkSt 0 1 (new_proj 0 0 entry) [] (fun _ _ => 0) (fun _ _ => 0) [] [] false.

(** Field updates of the structs above (compiler.rs:360-383,735-759). *)
Definition set_primary (s : st) (p : proj) : st :=
  mkSt (s_gen s) (s_ninst s) p (s_dedicates s) (s_status s) (s_notified s) (s_tasks s) (s_queue s) (s_dead s).
(** compiler.rs:380. *)
Definition set_dedicates (s : st) (l : list proj) : st :=
  mkSt (s_gen s) (s_ninst s) (s_primary s) l (s_status s) (s_notified s) (s_tasks s) (s_queue s) (s_dead s).
(** The channel of interrupts to the server (project.rs:406-409). *)
Definition set_queue (s : st) (q : list art) : st :=
  mkSt (s_gen s) (s_ninst s) (s_primary s) (s_dedicates s) (s_status s) (s_notified s) (s_tasks s) q (s_dead s).
(** The thread pool (project.rs:543). *)
Definition set_tasks (s : st) (t : list (nat * snap)) : st :=
  mkSt (s_gen s) (s_ninst s) (s_primary s) (s_dedicates s) (s_status s) (s_notified s) t (s_queue s) (s_dead s).
(** project.rs:397. *)
Definition set_status (s : st) (f : nat -> nat -> nat) : st :=
  mkSt (s_gen s) (s_ninst s) (s_primary s) (s_dedicates s) f (s_notified s) (s_tasks s) (s_queue s) (s_dead s).
(** project.rs:398. *)
Definition set_notified (s : st) (f : nat -> nat -> nat) : st :=
  mkSt (s_gen s) (s_ninst s) (s_primary s) (s_dedicates s) (s_status s) f (s_tasks s) (s_queue s) (s_dead s).
(** A panic of the server thread, which ends the server (compiler.rs:466). *)
Definition die (s : st) : st :=
  mkSt (s_gen s) (s_ninst s) (s_primary s) (s_dedicates s) (s_status s) (s_notified s) (s_tasks s) (s_queue s) true.
(** Update of a table of a handler (project.rs:557,608). *)
Definition upd2 (f : nat -> nat -> nat) (g id v : nat) : nat -> nat -> nat := upd f g (upd (f g) id v).

(** compiler.rs:745: [reason.see]. *)
Definition see_p (p : proj) (r : reasons) : proj :=
  mkProj (p_id p) (p_inst p) (p_entry p) (p_rev p) (see (p_reason p) r) (p_snap p) (p_committed p) (p_good p)
    (x_notified p) (x_pending p) (x_emitted p) (x_compiling p) (x_last p).
(** world.rs:176-186 and the drop of [RevisingUniverse]: a new revision. *)
Definition bump (p : proj) : proj :=
  mkProj (p_id p) (p_inst p) (p_entry p) (S (p_rev p)) (p_reason p) (p_snap p) (p_committed p) (p_good p)
    (x_notified p) (x_pending p) (x_emitted p) (x_compiling p) (x_last p).
(** compiler.rs:562,585: a new entry; the good document is forgotten. *)
Definition set_entry (p : proj) (e : nat) : proj :=
  mkProj (p_id p) (p_inst p) e (p_rev p) (p_reason p) (p_snap p) (p_committed p) None
    (x_notified p) (x_pending p) (x_emitted p) (x_compiling p) (x_last p).
(** compiler.rs:881-886: the committed revision and the good document. *)
Definition set_committed (p : proj) (rev : nat) (d : option doc) : proj :=
  mkProj (p_id p) (p_inst p) (p_entry p) (p_rev p) (p_reason p) (p_snap p) rev
    (match d with Some _ => d | None => p_good p end)
    (x_notified p) (x_pending p) (x_emitted p) (x_compiling p) (x_last p).
(** project.rs:247-250. *)
Definition set_last (p : proj) (a : art) : proj :=
  mkProj (p_id p) (p_inst p) (p_entry p) (p_rev p) (p_reason p) (p_snap p) (p_committed p) (p_good p)
    (sn_rev (a_snap a)) (x_pending p) (x_emitted p) false (Some a).
(** project.rs:518-519,537-538: reasons of the project and its extension. *)
Definition set_reasons (p : proj) (reason pending emitted : reasons) : proj :=
  mkProj (p_id p) (p_inst p) (p_entry p) (p_rev p) reason (p_snap p) (p_committed p) (p_good p)
    (x_notified p) pending emitted (x_compiling p) (x_last p).
(** compiler.rs:768. *)
Definition set_snap (p : proj) (sn : snap) : proj :=
  mkProj (p_id p) (p_inst p) (p_entry p) (p_rev p) (p_reason p) (Some sn) (p_committed p) (p_good p)
    (x_notified p) (x_pending p) (x_emitted p) (x_compiling p) (x_last p).
(** compiler.rs:820 and project.rs:542. *)
Definition set_compiling (p : proj) : proj :=
  mkProj (p_id p) (p_inst p) (p_entry p) (p_rev p) no_reason (p_snap p) (p_committed p) (p_good p)
    (x_notified p) (x_pending p) (x_emitted p) true (x_last p).

(** compiler.rs:774-787 [make_snapshot]. *)
Definition make_snap (p : proj) : snap :=
  mkSnap (p_id p) (p_inst p) (p_rev p) (p_entry p) (p_reason p) (p_good p).
(** compiler.rs:763-772 [snapshot]. *)
Definition snapshot (p : proj) : proj * snap :=
  match p_snap p with
  | Some sn => if sn_rev sn =? p_rev p then (p, sn) else (set_snap p (make_snap p), make_snap p)
  | None => (set_snap p (make_snap p), make_snap p)
  end.

(** project.rs:549-581 [status]; checking the table and sending are one step. *)
Definition status (g id rev : nat) (k : kind) (s : st) : st * list out :=
  if rev <? s_status s g id then (s, [])
  else (set_status s (upd2 (s_status s) g id rev),
        (match k with Suspended => [OClear id rev] | _ => [] end) ++ [OStatus id rev k]).
(** project.rs:597-634 [notify_compile]; one step. *)
Definition notify_compile (g : nat) (a : art) (s : st) : st * list out :=
  let id := sn_id (a_snap a) in let rev := sn_rev (a_snap a) in
  if rev <=? s_notified s g id then (s, [])
  else (set_queue (set_notified s (upd2 (s_notified s) g id rev)) (s_queue s ++ [a]), [ONotify a]).
(** project.rs:583-595 [notify_removed]. *)
Definition notify_removed (id : nat) (s : st) : st * list out :=
  (set_notified s (upd2 (s_notified s) (s_gen s) id 0), [OClear id (s_notified s (s_gen s) id)]).

(** [CompiledArtifact::with_signal], as used at project.rs:275. *)
Definition with_signal (a : art) (r : reasons) : art :=
  mkArt (mkSnap (sn_id (a_snap a)) (sn_inst (a_snap a)) (sn_rev (a_snap a)) (sn_entry (a_snap a)) r (sn_good (a_snap a)))
        (a_doc a).
(** project.rs:256-281 [emit_pending_reasons]. *)
Definition emit_pending (p : proj) (s : st) : proj * st * list out :=
  match x_last p with
  | None => (p, s, [])
  | Some a =>
      if negb (sn_rev (a_snap a) =? p_rev p) then (p, s, [])
      else
        let r := exclude (x_pending p) (x_emitted p) in
        if negb (any r) then (p, s, [])
        else
          let (s1, o) := notify_compile (s_gen s) (with_signal a r) s in
          (set_reasons p (p_reason p) no_reason (see (x_emitted p) (x_pending p)), s1, o)
  end.
(** project.rs:237-253 [compiled]. *)
Definition ext_compiled (a : art) (p : proj) (s : st) : proj * st * list out :=
  if sn_rev (a_snap a) <=? x_notified p then (p, s, []) else emit_pending (set_last p a) s.

(** compiler.rs:811-844 [may_compile] and [run_compile] up to the spawn, and
    project.rs:537-545. *)
Definition try_compile (p : proj) (s : st) : proj * st * list out :=
  let p1 := set_reasons p (p_reason p) no_reason (p_reason p) in
  if negb (any (p_reason p)) || (p_entry p =? 0) then (p1, s, [])
  else
    let (p2, sn) := snapshot p1 in
    let (s1, o) := status (s_gen s) (sn_id sn) (sn_rev sn) Compiling s in
    (set_compiling p2, set_tasks s1 (s_tasks s1 ++ [(s_gen s, sn)]), o ++ [OStart (p_id p) (sn_rev sn)]).
(** project.rs:491-546: one turn of the loop of [on_any_compile_reason].
    [clean] is the answer of [is_clean_compile]. *)
Definition consider (clean : nat -> bool) (p : proj) (s : st) : proj * st * list out :=
  if x_compiling p then (p, s, [])
  else
    let r := p_reason p in
    let vfs_sub := any r && negb (any (exclude r (mkReasons true true false))) in
    if vfs_sub && match x_last p with Some _ => clean (p_id p) | None => false end then
      let '(p1, s1, o) := emit_pending (set_reasons p no_reason (see (x_pending p) r) (x_emitted p)) s in
      (p1, s1, OSkip (p_id p) (p_rev p) :: o)
    else try_compile p s.

(** The loops over all projects (compiler.rs:431-433, project.rs:490-491):
    primary first, then the dedicated ones in order. *)
Fixpoint each (f : proj -> st -> proj * st * list out) (l : list proj) (s : st) : list proj * st * list out :=
  match l with
  | [] => ([], s, [])
  | p :: r =>
      let '(p1, s1, o1) := f p s in
      let '(r1, s2, o2) := each f r s1 in
      (p1 :: r1, s2, o1 ++ o2)
  end.
(** compiler.rs:431-433 [projects]. *)
Definition for_all_projects (f : proj -> st -> proj * st * list out) (s : st) : st * list out :=
  let '(p1, s1, o1) := f (s_primary s) s in
  let '(l, s2, o2) := each f (s_dedicates s) s1 in
  (set_dedicates (set_primary s2 p1) l, o1 ++ o2).
(** project.rs:489-547 [on_any_compile_reason]. *)
Definition on_any_reason (clean : nat -> bool) (s : st) : st * list out := for_all_projects (consider clean) s.

(** The first dedicated project with the id, compiler.rs:466. *)
Fixpoint on_first (id : nat) (f : proj -> st -> proj * st * list out) (l : list proj) (s : st)
    : option (list proj * st * list out) :=
  match l with
  | [] => None
  | p :: r =>
      if p_id p =? id then let '(p1, s1, o) := f p s in Some (p1 :: r, s1, o)
      else match on_first id f r s with
           | Some (r1, s1, o) => Some (p :: r1, s1, o)
           | None => None
           end
  end.
(** compiler.rs:457-467 [find_project] and an update of the result; [None] is
    the panic of [unwrap]. *)
Definition on_project (id : nat) (f : proj -> st -> proj * st * list out) (s : st) : option (st * list out) :=
  if id =? p_id (s_primary s) then
    let '(p1, s1, o) := f (s_primary s) s in Some (set_primary s1 p1, o)
  else match on_first id f (s_dedicates s) s with
       | Some (l, s1, o) => Some (set_dedicates s1 l, o)
       | None => None
       end.

(** Removing the first match, compiler.rs:498,504. *)
Fixpoint remove_first (id : nat) (l : list proj) : list proj :=
  match l with
  | [] => []
  | p :: r => if p_id p =? id then r else p :: remove_first id r
  end.
(** compiler.rs:497-514 [remove_dedicates]. *)
Definition remove_dedicates (id : nat) (s : st) : st * list out :=
  if existsb (fun p => p_id p =? id) (s_dedicates s) then
    let (s1, o) := notify_removed id s in
    (set_dedicates s1 (remove_first id (s_dedicates s)), o ++ [ORemove id])
  else (s, []).

(** A change of the universe of one project with a reason: compiler.rs:526-534,
    591-602,628-636,665-686.  [changed] is the value of [vfs_changed] or
    [font_changed]. *)
Definition change (changed : bool) (r : reasons) (p : proj) (s : st) : proj * st * list out :=
  if changed then (see_p (bump p) r, s, [OChange (p_id p) (S (p_rev p))]) else (p, s, []).
(** compiler.rs:554-589: [ChangeTask]. *)
Definition change_task (inputs : bool) (entry : option nat) (p : proj) (s : st) : proj * st * list out :=
  let moved := inputs || match entry with Some _ => true | None => false end in
  let p1 := if moved then bump p else p in
  let o1 := if moved then [OChange (p_id p) (S (p_rev p))] else [] in
  match entry with
  | None => (see_p p1 reason_entry, s, o1)
  | Some e =>
      let (s1, o2) := if e =? 0 then status (s_gen s) (p_id p) (p_rev p1) Suspended s else (s, []) in
      (see_p (set_entry p1 e) reason_entry, s1, o1 ++ OEntry (p_id p) e :: o2)
  end.
(** compiler.rs:874-918 [process_compile] and 541-549.  Dependencies and the
    evict task are left out. *)
Definition process_compile (a : art) (p : proj) (s : st) : proj * st * list out :=
  let rev := sn_rev (a_snap a) in
  if rev <=? p_committed p then (p, s, [])
  else (set_committed p rev (a_doc a), s, [OCommit (p_id p) rev]).

(** Interrupts other than [Compiled] (compiler.rs:229-245); the booleans are
    the file system's or font resolver's answers. *)
Inductive intr :=
  | Compile (id : nat) | Settle (id : nat) | ChangeTask (id : nat) (inputs : bool) (entry : option nat)
  | Font (changed : nat -> bool) | Memory (changed : nat -> bool) | Fs (changed : nat -> bool)
  | Forwarded.
(** compiler.rs:524-690 [process_inner].  [Forwarded] is a memory event sent to
    the watcher (compiler.rs:642-653; see MemModel). *)
Definition process_inner (i : intr) (s : st) : option (st * list out) :=
  match i with
  | Compile id => on_project id (change true reason_entry) s
  | Settle id => Some (remove_dedicates id s)
  | ChangeTask id inputs entry => on_project id (change_task inputs entry) s
  | Font ch => Some (for_all_projects (fun p => change (ch (p_id p)) reason_entry p) s)
  | Memory ch => Some (for_all_projects (fun p => change (ch (p_id p)) reason_mem p) s)
  | Fs ch => Some (for_all_projects (fun p => change (ch (p_id p)) reason_fs p) s)
  | Forwarded => Some (s, [])
  end.

(** Events.  [Interrupt]: the server processes an interrupt (project.rs:309-323).
    [Deliver]: the server takes the next [Compiled] interrupt from the channel.
    [Finish n ok]: the n-th running compilation ends, with a document or not
    (compiler.rs:846-871).  [Query id]: a query takes a snapshot of the primary
    project (project.rs:299-307).  [Recreate]: compiler.rs:475-495.  [Reload]:
    project.rs:81-97; running compilations and sent results are kept. *)
Inductive event :=
  | Interrupt (i : intr) (clean : nat -> bool) | Deliver (clean : nat -> bool)
  | Finish (n : nat) (ok : bool) | Query | Recreate (id entry : nat) | Reload (entry : nat).

(** compiler.rs:517-522 [process]: an interrupt and then the scheduler. *)
Definition then_schedule (clean : nat -> bool) (r : option (st * list out)) (s : st) : st * list out :=
  match r with
  | None => (die s, [OPanic])
  | Some (s1, o1) => let (s2, o2) := on_any_reason clean s1 in (s2, o1 ++ o2)
  end.
(** project.rs:309-316: the extension of the project, if there is one, learns
    about the compilation. *)
Definition tell_ext (a : art) (s : st) : st * list out :=
  match on_project (sn_id (a_snap a)) (ext_compiled a) s with Some r => r | None => (s, []) end.

(** The list without its n-th element (the thread pool of project.rs:543). *)
Fixpoint drop_nth {A} (n : nat) (l : list A) : list A :=
  match l, n with
  | [], _ => []
  | _ :: r, 0 => r
  | x :: r, S n => x :: drop_nth n r
  end.

(** One event (project.rs:309-323), see [event] for the places. *)
Definition step (s : st) (e : event) : st * list out :=
  if s_dead s then (s, [])
  else match e with
  | Interrupt i clean => then_schedule clean (process_inner i s) s
  | Deliver clean =>
      match s_queue s with
      | [] => (s, [])
      | a :: q =>
          let (s1, o1) := tell_ext a (set_queue s q) in
          let (s2, o2) := then_schedule clean (on_project (sn_id (a_snap a)) (process_compile a) s1) s1 in
          (s2, o1 ++ o2)
      end
  | Finish n ok =>
      match nth_error (s_tasks s) n with
      | None => (s, [])
      | Some (g, sn) =>
          let a := mkArt sn (if ok then Some (mkDoc (sn_inst sn) (sn_entry sn) (sn_rev sn)) else None) in
          let (s1, o1) := status g (sn_id sn) (sn_rev sn) (if ok then Success else Failure)
                                 (set_tasks s (drop_nth n (s_tasks s))) in
          let (s2, o2) := notify_compile g a s1 in
          (s2, o1 ++ o2)
      end
  | Query => (set_primary s (fst (snapshot (s_primary s))), [])
  | Recreate id entry =>
      let p := see_p (new_proj id (s_ninst s) entry) reason_entry in
      let (s1, o) := remove_dedicates id s in
      (mkSt (s_gen s1) (S (s_ninst s1)) (s_primary s1) (s_dedicates s1 ++ [p]) (s_status s1) (s_notified s1)
            (s_tasks s1) (s_queue s1) (s_dead s1), o ++ [OChange id 1])
  | Reload entry =>
      (mkSt (S (s_gen s)) (S (s_ninst s)) (new_proj 0 (s_ninst s) entry) [] (s_status s) (s_notified s)
            (s_tasks s) (s_queue s) (s_dead s),
       map (fun p => ORemove (p_id p)) (s_primary s :: s_dedicates s))
  end.
(** A sequence of events (project.rs:309-323). *)
Fixpoint run (s : st) (es : list event) : st * list out :=
  match es with
  | [] => (s, [])
  | e :: r => let (s1, o1) := step s e in let (s2, o2) := run s1 r in (s2, o1 ++ o2)
  end.
