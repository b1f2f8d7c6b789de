(** The ids of workspaces and the paths of files:
    crates/tinymist-vfs/src/path_mapper.rs.
    Paths are lists of components, as in PathModel. *)
From Coq Require Import List NArith Bool.
From Verif Require Import DigModel PageModel PathModel EntryModel.
Import ListNotations.

(** The interner; crates/tinymist-vfs/src/path_mapper.rs:151-155. *)
Record interner := { to_id : list (path * N); from_id : list path }.
(** crates/tinymist-vfs/src/path_mapper.rs:136-142 *)
Definition start : interner := {| to_id := []; from_id := [] |}.
(** [to_id.get]: the last entry that was inserted counts.
    crates/tinymist-vfs/src/path_mapper.rs:181,192. *)
Definition get (p : path) (i : interner) : option N :=
  match find (fun e => path_eqb (fst e) p) (to_id i) with Some e => Some (snd e) | None => None end.
(** [workspace_id]; [None] is the panic that there are no more ids.
    crates/tinymist-vfs/src/path_mapper.rs:174-195. *)
Definition workspace_id (root : path) (i : interner) : option (N * interner) :=
  match get root i with
  | Some id => Some (id, i)
  | None =>
      let root := clean root in
      let n := N.of_nat (length (from_id i)) in
      if N.leb n 65535 then Some (n, {| to_id := (root, n) :: to_id i; from_id := from_id i ++ [root] |})
      else None
  end.
(** [WorkspaceId::path]; [None] is a panic.  crates/tinymist-vfs/src/path_mapper.rs:117-124. *)
Definition path_of (id : N) (i : interner) : option path := nth_error (from_id i) (N.to_nat id).

(** Versions, crates/tinymist-vfs/src/path_mapper.rs:88-98. *)
Definition version := (N * N * N)%type.
(** [PackageSpec] of typst, crates/tinymist-vfs/src/path_mapper.rs:101-115. *)
Record package := { ns : list chr; name : list chr; ver : version }.
(** The namespace of workspaces, crates/tinymist-vfs/src/path_mapper.rs:161. *)
Definition ws : list chr := [119; 115]%N.
(** crates/tinymist-vfs/src/path_mapper.rs:88-92 *)
Definition no_version : version := (0, 0, 0)%N.
(** crates/tinymist-vfs/src/path_mapper.rs:94-98 *)
Definition untitled_version : version := (0, 0, 1)%N.
(** Equality of versions, crates/tinymist-vfs/src/path_mapper.rs:241. *)
Definition ver_eqb (a b : version) : bool :=
  let '(a1, a2, a3) := a in let '(b1, b2, b3) := b in N.eqb a1 b1 && N.eqb a2 b2 && N.eqb a3 b3.
(** crates/tinymist-vfs/src/path_mapper.rs:101-107 *)
Definition package_of (id : N) : package := {| ns := ws; name := 112%N :: print_num 10 id; ver := no_version |}.
(** crates/tinymist-vfs/src/path_mapper.rs:109-115 *)
Definition untitled_of (id : N) : package := {| ns := ws; name := 112%N :: print_num 10 id; ver := untitled_version |}.
(** [from_package_name], crates/tinymist-vfs/src/path_mapper.rs:126-133. *)
Definition from_package_name (s : list chr) : option N :=
  match s with c :: r => if N.eqb c 112 then parse_num 10 65535 r else None | [] => None end.

(** A file id is its package and its path; crates/tinymist-vfs/src/path_mapper.rs:199. *)
Record file := { pkg : option package; vp : path }.
(** crates/tinymist-vfs/src/path_mapper.rs:163-166 *)
Definition is_workspace_file (f : file) : bool :=
  match pkg f with Some p => text_eqb (ns p) ws | None => false end.
(** crates/tinymist-vfs/src/path_mapper.rs:168-171 *)
Definition is_package_file (f : file) : bool :=
  match pkg f with Some p => negb (text_eqb (ns p) ws) | None => false end.
(** crates/tinymist-vfs/src/path_mapper.rs:198-200 *)
Definition rootless_file (v : path) : file := {| pkg := None; vp := v |}.
(** [workspace_file], crates/tinymist-vfs/src/path_mapper.rs:216-219. *)
Definition workspace_file (root : option path) (v : path) (i : interner) : option (file * interner) :=
  match root with
  | None => Some ({| pkg := None; vp := v |}, i)
  | Some r => match workspace_id r i with
              | Some (id, i) => Some ({| pkg := Some (package_of id); vp := v |}, i)
              | None => None
              end
  end.
(** [rooted_untitled], crates/tinymist-vfs/src/path_mapper.rs:224-227. *)
Definition rooted_untitled (root : option path) (v : path) (i : interner) : option (file * interner) :=
  match root with
  | None => Some ({| pkg := None; vp := v |}, i)
  | Some r => match workspace_id r i with
              | Some (id, i) => Some ({| pkg := Some (untitled_of id); vp := v |}, i)
              | None => None
              end
  end.
(** [file_with_parent_root]: the outer [None] is a panic.
    crates/tinymist-vfs/src/path_mapper.rs:203-211. *)
Definition file_with_parent_root (p : path) (i : interner) : option (option file * interner) :=
  if is_abs p then
    match parent p, file_name p with
    | Some d, Some n => match workspace_file (Some d) (vpath n) i with Some (f, i) => Some (Some f, i) | None => None end
    | _, _ => Some (None, i)
    end
  else Some (None, i).

(** crates/tinymist-vfs/src/path_mapper.rs:144-149 *)
Inductive resolution := Workspace (id : N) | Untitled (id : N) | Rootless | Package.
(** [WorkspaceResolver::resolve]; [None] is the error of a bad id.
    crates/tinymist-vfs/src/path_mapper.rs:230-249. *)
Definition resolve (f : file) : option resolution :=
  match pkg f with
  | None => Some Rootless
  | Some p =>
      if text_eqb (ns p) ws then
        match from_package_name (name p) with
        | Some id => Some (if ver_eqb (ver p) untitled_version then Untitled id else Workspace id)
        | None => None
        end
      else Some Package
  end.

(** How a lookup ends, crates/tinymist-vfs/src/path_mapper.rs:20-24,52-55. *)
Inductive answer (A : Type) := Fine (a : A) | Fails | Panics.
Arguments Fine {A}. Arguments Fails {A}. Arguments Panics {A}.
(** crates/tinymist-vfs/src/path_mapper.rs:20-24 *)
Inductive place := Resolved (p : path) | AtNoRoot (v : path).
(** [path_for_id]; [package_root] is [resolve_package_root].
    crates/tinymist-vfs/src/path_mapper.rs:52-69. *)
Definition path_for_id (package_root : package -> option path) (i : interner) (f : file) : answer place :=
  let under root := match vresolve root (vp f) with Some p => Fine (Resolved p) | None => Fails end in
  match resolve f with
  | None => Fails
  | Some (Workspace id) => match path_of id i with Some root => under root | None => Panics end
  | Some Package =>
      match pkg f with
      | Some p => match package_root p with Some root => under root | None => Fails end
      | None => Panics
      end
  | Some (Untitled _) | Some Rootless => Fine (AtNoRoot (vp f))
  end.
(** [resolve_root], crates/tinymist-vfs/src/path_mapper.rs:71-80. *)
Definition resolve_root (package_root : package -> option path) (i : interner) (f : file) : answer (option path) :=
  match resolve f with
  | None => Fails
  | Some (Workspace id) | Some (Untitled id) => match path_of id i with Some root => Fine (Some root) | None => Panics end
  | Some Rootless => Fine None
  | Some Package =>
      match pkg f with
      | Some p => match package_root p with Some root => Fine (Some root) | None => Fails end
      | None => Panics
      end
  end.

(** The uses of the interner: a list of roots, crates/tinymist-vfs/src/path_mapper.rs:174. *)
Fixpoint interns (roots : list path) (i : interner) : option interner :=
  match roots with
  | [] => Some i
  | r :: roots => match workspace_id r i with Some (_, i) => interns roots i | None => None end
  end.
