(** * Model of starting a project from a template

    crates/tinymist/src/tool/package/init.rs 30-173, run by the command of
    crates/tinymist/src/cmd.rs 385-432.

    Simplifications.  Names of files and contents are numbers.  The directory
    of the package is a tree; symbolic links are leaves, which is how the walk
    sees them, and the directory of the template is not a link itself.  What
    the world reads (the disk or a file mapped over it) and whether a file can
    be written are oracles.  The project directory is the list of its entries;
    a directory that is made for a file is not an entry of its own.  Finding
    the package and reading its manifest are [Pkg*.v] and left out here. *)

From Coq Require Import List Arith Bool.
Import ListNotations.

(** A path below a directory: its names
    (crates/tinymist/src/tool/package/init.rs 122-127). *)
Definition path := list nat.

(** Components of a path in a manifest
    (crates/tinymist/src/tool/package/init.rs 41-43 and 107). *)
Inductive comp := Name (n : nat) | Up | Here | Root.

(** What a directory of the package has
    (crates/tinymist/src/tool/package/init.rs 146-156): files, directories,
    symbolic links, and entries that cannot be looked at. *)
Inductive tree :=
  | File
  | Dir (es : list (nat * tree))
  | Link
  | Broken.

(** An entry of a directory (the walk looks entries up by name;
    crates/tinymist/src/tool/package/init.rs 146-150). *)
Fixpoint entry (n : nat) (es : list (nat * tree)) : option tree :=
  match es with
  | [] => None
  | (m, t) :: es' => if Nat.eqb m n then Some t else entry n es'
  end.

(** What is at a path ([exists];
    crates/tinymist/src/tool/package/init.rs 109-115). *)
Fixpoint at_path (p : path) (t : tree) : option tree :=
  match p with
  | [] => Some t
  | n :: p' =>
      match t with
      | Dir es => match entry n es with Some u => at_path p' u | None => None end
      | _ => None
      end
  end.

(** [walkdir] without following links, only files; what cannot be looked at is
    skipped (crates/tinymist/src/tool/package/init.rs 146-157). *)
Fixpoint walk (t : tree) : list path :=
  match t with
  | File => [[]]
  | Dir es =>
      (fix go (es : list (nat * tree)) : list path :=
         match es with
         | [] => []
         | (n, u) :: es' => map (cons n) (walk u) ++ go es'
         end) es
  | Link | Broken => []
  end.

(** [VirtualPath::new] of a joined path: steps up cancel names, and stay if
    there is none (used at crates/tinymist/src/tool/package/init.rs 41-43 and
    107; the names are in reverse here). *)
Fixpoint norm (out : list comp) (p : list comp) : list comp :=
  match p with
  | [] => out
  | Name n :: p' => norm (Name n :: out) p'
  | Up :: p' =>
      match out with
      | Name _ :: out' => norm out' p'
      | _ => norm (Up :: out) p'
      end
  | Here :: p' | Root :: p' => norm out p'
  end.

(** The names of a path that does not leave the package; [path_for_id] refuses
    others (crates/tinymist/src/tool/package/init.rs 109). *)
Fixpoint names (cs : list comp) : option path :=
  match cs with
  | [] => Some []
  | Name n :: cs' => match names cs' with Some p => Some (n :: p) | None => None end
  | _ :: _ => None
  end.

(** [FileId::join] from a directory, which [dir] names: an absolute path
    starts from the root of the package
    (crates/tinymist/src/tool/package/init.rs 41-43 and 107). *)
Definition join (dir : path) (p : list comp) : option path :=
  match p with
  | Root :: p' => names (rev (norm [] p'))
  | _ => names (rev (norm (rev (map Name dir)) p))
  end.

(** The template table of a manifest
    (crates/tinymist/src/tool/package/init.rs 37-39 and 62-66). *)
Record manifest := mkManifest { m_path : list comp; m_entry : list comp }.

(** The package and the world: its directory and what the world reads
    (crates/tinymist/src/tool/package/init.rs 45 and 121). *)
Record package := mkPackage { root : tree; content : path -> option nat }.

(** The project directory: none, a file, or its entries, a file with its
    content or a directory (crates/tinymist/src/tool/package/init.rs 82-100). *)
Inductive project :=
  | NoDir
  | NotDir
  | Has (es : list (path * option nat)).

(** Outcomes (crates/tinymist/src/tool/package/init.rs 50 and 76-81). *)
Inductive outcome :=
  | Done
  | IsFile | NotEmpty | Outside | NoTemplate | NoStrip | Unreadable | Unwritable.

(** Adds a file to the project directory, which is made if need be
    (crates/tinymist/src/tool/package/init.rs 129-135). *)
Definition create (p : path) (d : nat) (j : project) : project :=
  match j with
  | Has es => Has (es ++ [(p, Some d)])
  | _ => Has [(p, Some d)]
  end.

(** [strip_prefix] (crates/tinymist/src/tool/package/init.rs 124). *)
Fixpoint strip (dir p : path) : option path :=
  match dir, p with
  | [], _ => Some p
  | a :: dir', b :: p' => if Nat.eqb a b then strip dir' p' else None
  | _ :: _, [] => None
  end.

(** The loop that copies (crates/tinymist/src/tool/package/init.rs 120-136).
    A file without a name of its own is the project directory and cannot be
    created. *)
Fixpoint copy (writable : path -> bool) (k : package) (dir : path) (fs : list path)
  (j : project) : outcome * project :=
  match fs with
  | [] => (Done, j)
  | f :: fs' =>
      match content k f with
      | None => (Unreadable, j)
      | Some d =>
          match strip dir f with
          | None => (NoStrip, j)
          | Some [] => (Unwritable, j)
          | Some p =>
              if writable p then copy writable k dir fs' (create p d j) else (Unwritable, j)
          end
      end
  end.

(** [scan_package_files]: the files of the template as files of the package
    (crates/tinymist/src/tool/package/init.rs 141-173). *)
Definition scan (dir : path) (t : tree) : list path := map (app dir) (walk t).

(** [scaffold_project] (crates/tinymist/src/tool/package/init.rs 76-139). *)
Definition scaffold (writable : path -> bool) (k : package) (m : manifest) (j : project)
  : outcome * project :=
  match j with
  | NotDir => (IsFile, j)
  | Has (_ :: _) => (NotEmpty, j)
  | NoDir | Has [] =>
      match join [] (m_path m) with
      | None => (Outside, j)
      | Some dir =>
          match at_path dir (root k) with
          | None => (NoTemplate, j)
          | Some t => copy writable k dir (scan dir t) j
          end
      end
  end.

(** [init]: the entry point as the manifest has it
    (crates/tinymist/src/tool/package/init.rs 50-72). *)
Definition init (writable : path -> bool) (k : package) (m : manifest) (j : project)
  : option (list comp) * project :=
  match scaffold writable k m j with
  | (Done, j') => (Some (m_entry m), j')
  | (_, j') => (None, j')
  end.

(** The name [main.typ] (crates/tinymist/src/tool/package/init.rs 42). *)
Definition main_typ : nat := 0.

(** [get_entry]: the entry point is looked up next to a file [main.typ] of the
    template (crates/tinymist/src/tool/package/init.rs 31-47). *)
Definition get_entry (k : package) (m : manifest) : option nat :=
  match join [] (m_path m ++ [Name main_typ]) with
  | None => None
  | Some main =>
      match join (removelast main) (m_entry m) with
      | Some f => content k f
      | None => None
      end
  end.
