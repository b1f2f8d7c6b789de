(** The project lock file: crates/tinymist-project/src/lock.rs (lock.rs) and
    model.rs; routes: crates/tinymist/src/route.rs (route.rs).

    Identifiers, paths and the remaining contents of entries are numbers. *)
From Coq Require Import List Arith Bool.
From Verif Require Import AssocModel.
Import ListNotations.

(** * Entries *)
(** model.rs:71-95 [ProjectInput]; [o_body] stands for all fields but the id. *)
Record doc := mkDoc { o_id : nat; o_body : nat }.
(** crates/tinymist-task/src/model.rs:36-44 [ApplyProjectTask]; [t_tr] are the transforms
    (kind and argument, model.rs:171-200 there), [t_body] the other fields. *)
Record task := mkTask { t_id : nat; t_doc : nat; t_body : nat; t_tr : list (nat * nat) }.
(** model.rs:144-149 [ProjectRoute]. *)
Record route := mkRoute { r_id : nat; r_prio : nat }.
(** model.rs:54-67 [LockFile]. *)
Record lock := mkLock { l_docs : list doc; l_tasks : list task; l_routes : list route }.
(** lock.rs:148-152. *)
Definition lock0 : lock := mkLock [] [] [].

(** [position] and the assignment or push of lock.rs:30-35 and 40-45. *)
Fixpoint put {A} (key : A -> nat) (x : A) (l : list A) : list A :=
  match l with
  | [] => [x]
  | y :: r => if key y =? key x then x :: r else y :: put key x r
  end.
(** lock.rs:28-36 [replace_document]. *)
Definition replace_document (d : doc) (l : lock) : lock := mkLock (put o_id d (l_docs l)) (l_tasks l) (l_routes l).
(** lock.rs:38-46 [replace_task]. *)
Definition replace_task (t : task) (l : lock) : lock := mkLock (l_docs l) (put t_id t (l_tasks l)) (l_routes l).
(** lock.rs:48-53 [replace_route]. *)
Definition replace_route (r : route) (l : lock) : lock :=
  mkLock (l_docs l) (l_tasks l) (filter (fun x => negb (r_id x =? r_id r)) (l_routes l) ++ [r]).
(** lock.rs:20-22 [get_document]. *)
Definition get_document (i : nat) (l : lock) : option doc := find (fun d => o_id d =? i) (l_docs l).
(** lock.rs:24-26 [get_task]. *)
Definition get_task (i : nat) (l : lock) : option task := find (fun t => t_id t =? i) (l_tasks l).

(** [sort_by] (stable) of lock.rs:56-58, by insertion. *)
Fixpoint insert {A} (le : A -> A -> bool) (x : A) (l : list A) : list A :=
  match l with
  | [] => [x]
  | y :: r => if le x y then x :: l else y :: insert le x r
  end.
(** See [insert]; lock.rs:56-58. *)
Definition isort {A} (le : A -> A -> bool) (l : list A) : list A := fold_right (insert le) [] l.
(** The comparisons of lock.rs:56-58. *)
Definition doc_le (a b : doc) : bool := o_id a <=? o_id b.
(** See [doc_le]; lock.rs:57-58. *)
Definition task_le (a b : task) : bool := (t_doc a <? t_doc b) || ((t_doc a =? t_doc b) && (t_id a <=? t_id b)).
(** lock.rs:55-60 [sort]. *)
Definition sort (l : lock) : lock := mkLock (isort doc_le (l_docs l)) (isort task_le (l_tasks l)) (l_routes l).

(** * Text *)
(** The lines of the file: the marker and version (lock.rs:70-79), table headers
    ([HTrans] is [[[task.transform]]], [HKind] is [[task.transform.kind]], which TOML
    attaches to the last task: lock.rs:117-123) and keys. *)
Inductive line :=
  LMark | LVersion | HDoc | HRoute | HTask | HTrans | HKind (k : nat)
| KId (i : nat) | KBody (b : nat) | KDoc (d : nat) | KPrio (p : nat) | KArgs (a : nat).
(** lock.rs:109-112 [emit_document]. *)
Definition emit_doc (d : doc) : list line := [HDoc; KId (o_id d); KBody (o_body d)].
(** lock.rs:128-131 [emit_route]. *)
Definition emit_route (r : route) : list line := [HRoute; KId (r_id r); KPrio (r_prio r)].
(** lock.rs:114-126 [emit_output]. *)
Definition emit_task (t : task) : list line :=
  [HTask; KDoc (t_doc t); KId (t_id t); KBody (t_body t)] ++ flat_map (fun x => [HTrans; HKind (fst x); KArgs (snd x)]) (t_tr t).
(** lock.rs:62-132 [serialize_resolve]. *)
Definition serialize (l : lock) : list line :=
  [LMark; LVersion] ++ flat_map emit_doc (l_docs l) ++ flat_map emit_route (l_routes l) ++ flat_map emit_task (l_tasks l).
(** A transform of the last task; see [line], lock.rs:117-123. *)
Fixpoint add_trans (x : nat * nat) (ts : list task) : option (list task) :=
  match ts with
  | [] => None
  | [t] => Some [mkTask (t_id t) (t_doc t) (t_body t) (t_tr t ++ [x])]
  | t :: r => option_map (cons t) (add_trans x r)
  end.
(** [toml::from_str::<LockFileCompat>] (external; lock.rs:154-155,214-215) on files of
    this shape: all keys of an entry are required. *)
Fixpoint parse_body (ls : list line) (l : lock) : option lock :=
  match ls with
  | [] => Some l
  | HDoc :: KId i :: KBody b :: r => parse_body r (mkLock (l_docs l ++ [mkDoc i b]) (l_tasks l) (l_routes l))
  | HRoute :: KId i :: KPrio p :: r => parse_body r (mkLock (l_docs l) (l_tasks l) (l_routes l ++ [mkRoute i p]))
  | HTask :: KDoc d :: KId i :: KBody b :: r => parse_body r (mkLock (l_docs l) (l_tasks l ++ [mkTask i d b []]) (l_routes l))
  | HTrans :: HKind k :: KArgs a :: r =>
      match add_trans (k, a) (l_tasks l) with
      | Some ts => parse_body r (mkLock (l_docs l) ts (l_routes l))
      | None => None
      end
  | _ => None
  end.
(** With the version check of lock.rs:157-172 and [migrate], model.rs:39-50: other
    versions are errors. *)
Definition parse (ls : list line) : option lock :=
  match ls with LMark :: LVersion :: r => parse_body r lock0 | _ => None end.
(** lock.rs:144-180: the new contents for the old ones; [None] is an error. *)
Definition update_text (f : lock -> option lock) (old : list line) : option (list line) :=
  match (match old with [] => Some lock0 | _ => parse old end) with
  | None => None
  | Some l => option_map (fun l' => serialize (sort l')) (f l)
  end.

(** lock.rs:228-233 [LockUpdate]; materials do not change the lock file. *)
Inductive lupdate := UInput (d : doc) | UTask (t : task) | UMaterial | URoute (r : route).
(** lock.rs:308-346: the closure of [commit]. *)
Definition apply_update (l : lock) (u : lupdate) : lock :=
  match u with UInput d => replace_document d l | UTask t => replace_task t l | UMaterial => l | URoute r => replace_route r l end.
(** lock.rs:304-350 [commit]. *)
Definition commit (us : list lupdate) (l : lock) : option lock := Some (fold_left apply_update us l).

(** * Processes *)
(** Derived equality on lines, for lock.rs:184. *)
Definition line_eqb (a b : line) : bool :=
  match a, b with
  | LMark, LMark | LVersion, LVersion | HDoc, HDoc | HRoute, HRoute | HTask, HTask | HTrans, HTrans => true
  | HKind x, HKind y | KId x, KId y | KBody x, KBody y | KDoc x, KDoc y | KPrio x, KPrio y | KArgs x, KArgs y => x =? y
  | _, _ => false
  end.
(** [old_data == new_data], lock.rs:184. *)
Fixpoint lines_eqb (a b : list line) : bool :=
  match a, b with [], [] => true | x :: a, y :: b => line_eqb x y && lines_eqb a b | _, _ => false end.
(** Where a process is inside [update] (lock.rs:134-199) or [read] (lock.rs:201-217). *)
Inductive phase := Fresh | Opened | Locked | Truncated (old rest : list line).
(** What a process does: [update] or [read], lock.rs:134,201. *)
Inductive job := Updater (f : lock -> option lock) | Reader.
(** The file, who holds the exclusive and the shared locks, and the processes;
    crates/tinymist-std/src/fs/flock.rs:195-230. *)
Record fst_ := mkFst { z_file : option (list line); z_ex : option nat; z_sh : list nat; z_procs : list (nat * (job * phase)) }.
(** The steps of lock.rs:134-217, in any interleaving.  [EKill] is the death of a process: the
    system releases its locks. *)
Inductive fevent := EStart (i : nat) (j : job) | EOpen (i : nat) | ELock (i : nat) | ERead (i : nat) | EWrite (i n : nat) | EKill (i : nat).
(** What is observed: an update ended (lock.rs:185,199; with the contents before and
    after), a read ended (lock.rs:217), or either failed. *)
Inductive fout := FUpdated (i : nat) (f : lock -> option lock) (old new : list line) | FRead (i : nat) (c : list line) | FError (i : nat).
(** The end of a process with its locks; [Drop] of flock.rs:99-107. *)
Definition leave (i : nat) (s : fst_) : fst_ :=
  mkFst (z_file s) (match z_ex s with Some j => if j =? i then None else Some j | None => None end)
        (filter (fun j => negb (j =? i)) (z_sh s)) (adel i (z_procs s)).
(** Move a process to another phase; see [phase], lock.rs:134-217. *)
Definition goto (i : nat) (j : job) (p : phase) (s : fst_) : fst_ :=
  mkFst (z_file s) (z_ex s) (z_sh s) (aset i (j, p) (z_procs s)).
(** One step; events that are not possible do nothing.  Locks work: flock.rs:329-341
    goes on without one on network mounts, which is left out. *)
Definition fstep (s : fst_) (e : fevent) : fst_ * list fout :=
  match e with
  | EStart i j => match aget i (z_procs s) with None => (goto i j Fresh s, []) | Some _ => (s, []) end
  | EKill i => (leave i s, [])
  | EOpen i =>
      match aget i (z_procs s) with
      | Some (Updater f, Fresh) =>
          (* flock.rs:203-211: created when missing *)
          (goto i (Updater f) Opened (mkFst (match z_file s with None => Some [] | x => x end) (z_ex s) (z_sh s) (z_procs s)), [])
      | Some (Reader, Fresh) =>
          match z_file s with Some _ => (goto i Reader Opened s, []) | None => (leave i s, [FError i]) end
      | _ => (s, [])
      end
  | ELock i =>
      match aget i (z_procs s) with
      | Some (Updater f, Opened) =>
          match z_ex s, z_sh s with
          | None, [] => (goto i (Updater f) Locked (mkFst (z_file s) (Some i) [] (z_procs s)), [])
          | _, _ => (s, [])
          end
      | Some (Reader, Opened) =>
          match z_ex s with
          | None => (goto i Reader Locked (mkFst (z_file s) None (i :: z_sh s) (z_procs s)), [])
          | _ => (s, [])
          end
      | _ => (s, [])
      end
  | ERead i =>
      let c := match z_file s with Some c => c | None => [] end in
      match aget i (z_procs s) with
      | Some (Updater f, Locked) =>
          (* lock.rs:141-194: read, compute, compare, truncate *)
          match update_text f c with
          | None => (leave i s, [FError i])
          | Some new =>
              if lines_eqb c new then (leave i s, [FUpdated i f c c])
              else (goto i (Updater f) (Truncated c new) (mkFst (Some []) (z_ex s) (z_sh s) (z_procs s)), [])
          end
      | Some (Reader, Locked) => (leave i s, [FRead i c])
      | _ => (s, [])
      end
  | EWrite i n =>
      match aget i (z_procs s) with
      | Some (Updater f, Truncated old rest) =>
          (* lock.rs:194-197 [write_all]: [n] more lines *)
          let c := (match z_file s with Some c => c | None => [] end) ++ firstn n rest in
          let s1 := mkFst (Some c) (z_ex s) (z_sh s) (z_procs s) in
          match skipn n rest with
          | [] => (leave i s1, [FUpdated i f old c])
          | r => (goto i (Updater f) (Truncated old r) s1, [])
          end
      | _ => (s, [])
      end
  end.
(** A run; driver of [fstep], lock.rs:134-217. *)
Fixpoint frun (s : fst_) (es : list fevent) : fst_ * list fout :=
  match es with
  | [] => (s, [])
  | e :: r => let '(s1, o1) := fstep s e in let '(s2, o2) := frun s1 r in (s2, o1 ++ o2)
  end.

(** * Routes *)
(** route.rs:168-190 [calculate_routes]: [materials] gives the files of a document;
    the priorities are collected and not used. *)
Definition calculate_routes (rs : list route) (materials : list (nat * list nat)) : list (nat * nat) :=
  fold_left (fun m r =>
    match aget (r_id r) materials with
    | Some files => fold_left (fun m f => aset f (r_id r) m) files m
    | None => m
    end) rs [].
(** route.rs:192-197 [RoutePathState]. *)
Record rps := mkRps { q_lock : lock; q_mats : list (nat * list nat); q_routes : list (nat * nat) }.
(** The lock files and materials on disk, by directory; read at route.rs:44-59. *)
Record disk := mkDisk { k_lock : nat -> option lock; k_mats : nat -> list (nat * list nat) }.
(** route.rs:36-76 [resolve_at] on the states by directory. *)
Definition resolve_at (d : disk) (st : list (nat * rps)) (dir leaf : nat) : list (nat * rps) * option nat :=
  match aget dir st with
  | Some p => (st, aget leaf (q_routes p))
  | None =>
      let l := match k_lock d dir with Some l => l | None => lock0 end in
      let mats := match k_lock d dir with Some _ => k_mats d dir | None => [] end in
      let routes := calculate_routes (l_routes l) mats in
      match aget leaf routes with
      | None => (st, None)
      | Some i => (aset dir (mkRps l mats routes) st, Some i)
      end
  end.
(** route.rs:26-34 [resolve]: the leaf and its ancestors, nearest first. *)
Fixpoint resolve (d : disk) (st : list (nat * rps)) (dirs : list nat) (leaf : nat) : list (nat * rps) * option (nat * nat) :=
  match dirs with
  | [] => (st, None)
  | dir :: r =>
      match resolve_at d st dir leaf with
      | (st1, Some i) => (st1, Some (dir, i))
      | (st1, None) => resolve d st1 r leaf
      end
  end.
(** route.rs:21-24 [locate] and lock.rs:20-22, used at crates/tinymist/src/input.rs:219-227. *)
Definition located_document (st : list (nat * rps)) (x : nat * nat) : option doc :=
  match aget (fst x) st with Some p => get_document (snd x) (q_lock p) | None => None end.
(** route.rs:79-91 [update_lock]; comparing first saves work only. *)
Definition route_update_lock (st : list (nat * rps)) (dir : nat) (l : lock) : list (nat * rps) :=
  match aget dir st with
  | Some p => aset dir (mkRps l (q_mats p) (calculate_routes (l_routes l) (q_mats p))) st
  | None => st
  end.
(** route.rs:93-115 [update_existing_material]. *)
Definition update_material (st : list (nat * rps)) (dir id : nat) (files : list nat) : list (nat * rps) :=
  match aget dir st with
  | Some p =>
      match aget id (q_mats p) with
      | Some _ => let m := aset id files (q_mats p) in aset dir (mkRps (q_lock p) m (calculate_routes (l_routes (q_lock p)) m)) st
      | None => st
      end
  | None => st
  end.
(** What happens to the routes: requests (route.rs:26), changes on disk, and the two
    updates (route.rs:79,93). *)
Inductive revent := RResolve (dirs : list nat) (leaf : nat) | RDisk (d : disk) | RLock (dir : nat) (l : lock) | RMat (dir id : nat) (files : list nat).
(** One step of the routes; see [revent], route.rs:26-115. *)
Definition rstep (s : disk * list (nat * rps)) (e : revent) : (disk * list (nat * rps)) * list (option (nat * nat)) :=
  match e with
  | RResolve dirs leaf => let '(st, o) := resolve (fst s) (snd s) dirs leaf in ((fst s, st), [o])
  | RDisk d => ((d, snd s), [])
  | RLock dir l => ((fst s, route_update_lock (snd s) dir l), [])
  | RMat dir id files => ((fst s, update_material (snd s) dir id files), [])
  end.
(** A run; driver of [rstep], route.rs:26-115. *)
Fixpoint rrun (s : disk * list (nat * rps)) (es : list revent) : (disk * list (nat * rps)) * list (option (nat * nat)) :=
  match es with
  | [] => (s, [])
  | e :: r => let '(s1, o1) := rstep s e in let '(s2, o2) := rrun s1 r in (s2, o1 ++ o2)
  end.
