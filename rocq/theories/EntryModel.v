(** Model of the choice of project root and main file:
    crates/tinymist-project/src/entry.rs and crates/tinymist-world/src/entry.rs:38-130.
    Paths are lists of components, as in PathModel; [Path] compares and hashes that way. *)
From Coq Require Import List NArith Bool.
From Verif Require Import DigModel PageModel PathModel.
Import ListNotations.

(** Equality of paths; the keys of the cache, project entry.rs:41. *)
Fixpoint path_eqb (a b : path) : bool :=
  match a, b with [], [] => true | x :: a, y :: b => comp_eqb x y && path_eqb a b | _, _ => false end.
(** [Path::strip_prefix]; project entry.rs:126. *)
Fixpoint strip (p root : path) : option path :=
  match root, p with
  | [], p => Some p
  | x :: root, y :: p => if comp_eqb x y then strip p root else None
  | _ :: _, [] => None
  end.
(** [Path::starts_with]; project entry.rs:52. *)
Definition within (p root : path) : bool := match strip p root with Some _ => true | None => false end.
(** [Path::parent]; project entry.rs:92, world entry.rs:75. *)
Definition parent (p : path) : option path :=
  match rev p with [] => None | RootC :: _ => None | _ :: r => Some (rev r) end.
(** [Path::file_name]; world entry.rs:77. *)
Definition file_name (p : path) : option path :=
  match rev p with Nor n :: _ => Some [Nor n] | _ => None end.
(** [Path::ancestors], the path itself first; project entry.rs:83.  [fuel]: the number of
    components. *)
Fixpoint ancestors (fuel : nat) (p : path) : list path :=
  p :: match fuel, parent p with S fuel, Some q => ancestors fuel q | _, _ => [] end.
(** [VirtualPath::new] of typst (project entry.rs:129): the components after the root. *)
Definition vstep (out : list comp) (c : comp) : list comp :=
  match c with
  | RootC | CurC => out
  | ParC => match out with Nor _ :: r => r | _ => ParC :: out end
  | Nor n => Nor n :: out
  end.
(** See [vstep]; project entry.rs:129. *)
Definition vpath (p : path) : path := rev (fold_left vstep p []).
(** [VirtualPath::resolve] of typst, as used at tinymist-vfs/src/path_mapper.rs:66: ".." must
    not leave the root.  After a name there is no ".." in a [VirtualPath]. *)
Fixpoint vresolve (out : path) (v : path) : option path :=
  match v with
  | [] => Some out
  | ParC :: r => if path_eqb (pop out) out then vresolve out r else None
  | Nor n :: r => Some (out ++ Nor n :: r)
  | _ :: r => vresolve out r
  end.

(** world entry.rs:22-29 [EntryState]; a main file is its workspace (if any) and its path there. *)
Record entry_state := mkE { e_root : option path; e_main : option (option path * path) }.
(** world entry.rs:39-44. *)
Definition new_detached : entry_state := mkE None None.
(** world entry.rs:65-71. *)
Definition new_rooted (root : path) (main : option path) : entry_state :=
  mkE (Some root) (match main with Some v => Some (Some root, v) | None => None end).
(** world entry.rs:47-49. *)
Definition new_workspace (root : path) : entry_state := new_rooted root None.
(** world entry.rs:74-83. *)
Definition new_rooted_by_parent (entry : path) : option entry_state :=
  match file_name entry with
  | Some f => Some (mkE (parent entry) (Some (parent entry, vpath f)))
  | None => None
  end.

(** project entry.rs:31-42 [EntryResolver] without the cache. *)
Record resolver := mkR { r_root : option path; r_roots : list path; r_entry : option path }.
(** project entry.rs:41: the cache. *)
Definition cache := list (path * option path).
(** [DashMap::get]; project entry.rs:63. *)
Fixpoint cget (e : path) (c : cache) : option (option path) :=
  match c with [] => None | (k, v) :: r => if path_eqb k e then Some v else cget e r end.
(** [DashMap::remove]; project entry.rs:76. *)
Definition cdel (e : path) (c : cache) : cache := filter (fun x => negb (path_eqb (fst x) e)) c.
(** [DashMap::insert]; project entry.rs:87,91. *)
Definition cset (e : path) (v : option path) (c : cache) : cache := (e, v) :: cdel e c.
(** project entry.rs:83-95: the search; [toml d]: there is a file typst.toml in [d]. *)
Definition search (toml : path -> bool) (entry : path) (c : cache) : cache * option path :=
  match find toml (ancestors (length entry) entry) with
  | Some a => (cset entry (Some a) c, Some a)
  | None => (cset entry None c, parent entry)
  end.
(** project entry.rs:98-102. *)
Definition first_root (r : resolver) : option path := match r_roots r with [] => None | x :: _ => Some x end.
(** project entry.rs:45-103 [root]. *)
Definition root (toml : path -> bool) (r : resolver) (c : cache) (entry : option path) : cache * option path :=
  match r_root r with
  | Some x => (c, Some x)
  | None =>
      match entry with
      | None => (c, first_root r)
      | Some e =>
          match find (within e) (r_roots r) with
          | Some x => (c, Some x)
          | None =>
              let go c := let '(c, res) := search toml e c in
                          (c, match res with Some x => Some x | None => first_root r end) in
              match cget e c with
              | Some None => (c, None)
              | Some (Some d) => if toml d then (c, Some d) else go (cdel e c)
              | None => go c
              end
          end
      end
  end.
(** project entry.rs:142-145. *)
Definition fallback (r : resolver) : entry_state :=
  match (match r_root r with Some x => Some x | None => first_root r end) with
  | Some x => new_workspace x
  | None => new_detached
  end.
(** project entry.rs:112-146 [resolve_with_root]. *)
Definition resolve_with_root (r : resolver) (root_dir entry : option path) : entry_state :=
  match (match entry, root_dir with
         | Some e, Some d => match strip e d with
                             | Some s => Some (new_rooted d (Some (vpath s)))
                             | None => new_rooted_by_parent e
                             end
         | Some e, None => new_rooted_by_parent e
         | None, Some d => Some (new_workspace d)
         | None, None => None
         end) with
  | Some s => s
  | None => fallback r
  end.
(** project entry.rs:106-109 [resolve]. *)
Definition resolve (toml : path -> bool) (r : resolver) (c : cache) (entry : option path) : cache * entry_state :=
  let '(c, d) := root toml r c entry in (c, resolve_with_root r d entry).
(** A number of resolutions (project.rs:125,182, input.rs:240) with the same tree and settings. *)
Fixpoint resolves (toml : path -> bool) (r : resolver) (c : cache) (es : list (option path)) : cache * list entry_state :=
  match es with
  | [] => (c, [])
  | e :: es => let '(c, s) := resolve toml r c e in let '(c, ss) := resolves toml r c es in (c, s :: ss)
  end.
(** project entry.rs:168-178 [resolve_default]. *)
Definition resolve_default (r : resolver) : option path :=
  match r_entry r with
  | Some e => if is_abs e then Some e
              else match (match r_root r with Some x => Some x | None => first_root r end) with
                   | Some d => Some (join d e)
                   | None => None
                   end
  | None => None
  end.
(** The root used to compare settings, tinymist/src/config.rs:635-636. *)
Definition opts_root (toml : path -> bool) (r : resolver) (c : cache) : cache * option path :=
  root toml r c (resolve_default r).
(** tinymist/src/lsp.rs:152: whether a change of settings restarts the projects, as far as the
    root is concerned; both settings share the cache. *)
Definition restarts (toml : path -> bool) (old new : resolver) (c : cache) : bool :=
  let '(c, a) := opts_root toml old c in let '(_, b) := opts_root toml new c in
  match a, b with Some a, Some b => negb (path_eqb a b) | None, None => false | _, _ => true end.
