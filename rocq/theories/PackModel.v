(** * Model of packs: reading the files of a package and copying them

    crates/tinymist-package/src/pack.rs and crates/tinymist-package/src/pack/.

    Simplifications.  Names are numbers, with a flag for those that begin with
    a dot.  A file system has no links; the tree a directory pack walks is the
    one seen with links followed (crates/tinymist-package/src/pack/fs.rs 88),
    entries the walk cannot look at being [Lost].  Contents are numbers; a file
    that cannot be read to its end has a first part.  Which operations of the
    system fail is an oracle.  What the network answers and what a clone of a
    repository has are given.  Left out: the debug output, the pack traits'
    operations nothing implements (crates/tinymist-package/src/pack.rs 76-82). *)

From Coq Require Import List Arith Bool.
Import ListNotations.

(** A name of a file; [Dot]: it begins with a dot
    (crates/tinymist-package/src/pack/fs.rs 90). *)
Inductive name := Plain (n : nat) | Dot (n : nat).

(** Components of a path as an archive or a map has it
    (crates/tinymist-package/src/pack/tarball.rs 37-38,
    crates/tinymist-package/src/pack/memory.rs 11). *)
Inductive comp := Nm (n : name) | Up | Here.

(** The path itself, from the root or not (crates/tinymist-package/src/pack/fs.rs 51). *)
Record rpath := mkPath { absolute : bool; comps : list comp }.

(** What a file reads as: all of it, or a part and then an error
    (crates/tinymist-package/src/pack.rs 43-57). *)
Inductive data := Whole (c : nat) | Breaks (c : nat).

(** Results (crates/tinymist-package/src/pack.rs 69-72); [Panic] for the
    assertion and the [unwrap]. *)
Inductive fin := Good | Bad | Panic.

(** What a directory has, links followed
    (crates/tinymist-package/src/pack/fs.rs 87-92); files may fail to open
    (line 103). *)
Inductive tree :=
  | Leaf (d : option data)
  | Branch (es : list (name * tree))
  | Lost.

(** Entries of an archive (crates/tinymist-package/src/pack/tarball.rs 27-41):
    broken, not a file, a file whose path cannot be made out, a file.  The header
    of a file has room for short paths only; archives give long ones in an
    entry before it, which the code does not ask for (lines 30 and 37): [full]
    is the path, [p] the one of the header. *)
Inductive tar_entry := Broken | Other | Nameless | Entry (full p : rpath) (d : data).

(** What comes back from a request (crates/tinymist-package/src/pack/http.rs
    36-56); the archive is [None] if its first header is broken. *)
Inductive response := NoThread | NotFound | Failed | Archive (es : option (list tar_entry)).

(** Packs: a map, whose order of iteration is any
    (crates/tinymist-package/src/pack/memory.rs 9-12), a directory with the
    name of its last component (crates/tinymist-package/src/pack/fs.rs 7-10),
    an archive (crates/tinymist-package/src/pack/tarball.rs 4-7), a page
    (crates/tinymist-package/src/pack/http.rs 9-14), a repository
    (crates/tinymist-package/src/pack/gitcl.rs 7-12), a package of the universe
    (crates/tinymist-package/src/pack/universe.rs 6-9), a filter
    (crates/tinymist-package/src/pack/ops.rs 4-9). *)
Inductive pack :=
  | MapPack (files : list (rpath * nat))
  | DirPack (root : name) (t : tree)
  | TarPack (es : option (list tar_entry))
  | HttpPack (r : response)
  | GitPack (t : option tree)
  | UniversePack (preview : bool) (r : response)
  | FilterPack (src : pack) (f : rpath -> bool).

(** A name that begins with a dot (crates/tinymist-package/src/pack/fs.rs 90). *)
Definition hidden (n : name) : bool := match n with Dot _ => true | Plain _ => false end.

(** The walk below the root: [filter_entry] cuts off what is hidden, files are
    kept (crates/tinymist-package/src/pack/fs.rs 87-92). *)
Fixpoint walk (p : list name) (t : tree) : list (list name * option data) :=
  match t with
  | Leaf d => [(p, d)]
  | Branch es =>
      (fix go (es : list (name * tree)) : list (list name * option data) :=
         match es with
         | [] => []
         | (n, u) :: es' => (if hidden n then [] else walk (p ++ [n]) u) ++ go es'
         end) es
  | Lost => []
  end.

(** The path of a file below the root (crates/tinymist-package/src/pack/fs.rs 95-98). *)
Definition rel (p : list name) : rpath := mkPath false (map Nm p).

(** Reading, for crates/tinymist-package/src/pack.rs 69-72. *)
Section Read.
(** The state the callback works on, and the callback
    (crates/tinymist-package/src/pack.rs 69-72). *)
Context {S : Type} (f : rpath -> data -> S -> fin * S).

(** [for (path, data) in self.files] (crates/tinymist-package/src/pack/memory.rs 22-32). *)
Fixpoint read_map (files : list (rpath * nat)) (s : S) : fin * S :=
  match files with
  | [] => (Good, s)
  | (p, c) :: files' =>
      match f p (Whole c) s with
      | (Good, s') => read_map files' s'
      | r => r
      end
  end.

(** The loop over a directory (crates/tinymist-package/src/pack/fs.rs 94-107);
    [keep] is the filter. *)
Fixpoint read_walk (keep : rpath -> bool) (w : list (list name * option data)) (s : S) : fin * S :=
  match w with
  | [] => (Good, s)
  | (p, d) :: w' =>
      if keep (rel p) then
        match d with
        | None => (Bad, s)
        | Some x =>
            match f (rel p) x s with
            | (Good, s') => read_walk keep w' s'
            | r => r
            end
        end
      else read_walk keep w' s
  end.

(** [FilterDirPack]; the root is an entry of the walk too
    (crates/tinymist-package/src/pack/fs.rs 82-108). *)
Definition read_dir (keep : rpath -> bool) (root : name) (t : tree) (s : S) : fin * S :=
  if hidden root then (Good, s) else read_walk keep (walk [] t) s.

(** The loop over an archive (crates/tinymist-package/src/pack/tarball.rs 28-44). *)
Fixpoint read_tar (es : list tar_entry) (s : S) : fin * S :=
  match es with
  | [] => (Good, s)
  | Broken :: _ => (Bad, s)
  | Other :: es' => read_tar es' s
  | Nameless :: _ => (Bad, s)
  | Entry _ p d :: es' =>
      match f p d s with
      | (Good, s') => read_tar es' s'
      | r => r
      end
  end.

(** An archive (crates/tinymist-package/src/pack/tarball.rs 24-28). *)
Definition read_archive (es : option (list tar_entry)) (s : S) : fin * S :=
  match es with None => (Bad, s) | Some es => read_tar es s end.

(** A page (crates/tinymist-package/src/pack/http.rs 30-57). *)
Definition read_http (r : response) (s : S) : fin * S :=
  match r with
  | NoThread | NotFound | Failed => (Bad, s)
  | Archive es => read_archive es s
  end.
End Read.

(** [read_all] (crates/tinymist-package/src/pack/ops.rs 17-28 for filters,
    crates/tinymist-package/src/pack/fs.rs 26-31,
    crates/tinymist-package/src/pack/gitcl.rs 28-42,
    crates/tinymist-package/src/pack/universe.rs 18-32).  The copy of a
    repository is in a directory called [package], which is not hidden. *)
Fixpoint read_all {S : Type} (p : pack) (f : rpath -> data -> S -> fin * S) (s : S) : fin * S :=
  match p with
  | MapPack files => read_map f files s
  | DirPack root t => read_dir f (fun _ => true) root t s
  | TarPack es => read_archive f es s
  | HttpPack r => read_http f r s
  | GitPack None => (Bad, s)
  | GitPack (Some t) => read_dir f (fun _ => true) (Plain 0) t s
  | UniversePack preview r => if preview then read_http f r s else (Panic, s)
  | FilterPack src keep => read_all src (fun q d s => if keep q then f q d s else (Good, s)) s
  end.

(** [PackExt::filter] (crates/tinymist-package/src/pack.rs 96-102); directories
    have their own (crates/tinymist-package/src/pack/fs.rs 35-45 and 82-108). *)
Definition read_filtered {S : Type} (p : pack) (keep : rpath -> bool) (f : rpath -> data -> S -> fin * S) (s : S) : fin * S :=
  match p with
  | DirPack root t => read_dir f keep root t s
  | _ => read_all (FilterPack p keep) f s
  end.

(** [MapPack::clone_into_pack], the callback
    (crates/tinymist-package/src/pack/memory.rs 40-51); the newest entry first. *)
Definition put_map (p : rpath) (d : data) (m : list (rpath * nat)) : fin * list (rpath * nat) :=
  match d with
  | Whole c => (Good, (p, c) :: m)
  | Breaks _ => (Bad, m)
  end.

(** [MapPack::clone_into_pack] (crates/tinymist-package/src/pack/memory.rs 39-55). *)
Definition clone_map (p : pack) (m : list (rpath * nat)) : fin * list (rpath * nat) := read_all p put_map m.

(** A file system: what is at a path from the root, used at
    crates/tinymist-package/src/pack/fs.rs 52-53. *)
Inductive ent := File (c : nat) | Dir.
(** The file system as a map (crates/tinymist-package/src/pack/fs.rs 52-53). *)
Definition fs := list name -> option ent.

(** Paths are compared by their names (crates/tinymist-package/src/pack/fs.rs 52-53). *)
Definition name_eq_dec (a b : name) : {a = b} + {a <> b}.
Proof. decide equality; apply Nat.eq_dec. Defined.
(** The same for paths (crates/tinymist-package/src/pack/fs.rs 52-53). *)
Definition path_eq_dec (a b : list name) : {a = b} + {a <> b} := list_eq_dec name_eq_dec a b.
(** A change at one path (crates/tinymist-package/src/pack/fs.rs 52-53). *)
Definition set (p : list name) (e : ent) (s : fs) : fs := fun q => if path_eq_dec p q then Some e else s q.

(** [base.join(path)]: components without dots
    (crates/tinymist-package/src/pack/fs.rs 51). *)
Definition join (base : list name) (p : rpath) : list comp :=
  (if absolute p then [] else map Nm base)
  ++ filter (fun c => match c with Here => false | _ => true end) (comps p).

(** Where the system finds a path (crates/tinymist-package/src/pack/fs.rs 52-53). *)
Definition resolve (cs : list comp) : list name :=
  fold_left (fun p c => match c with Nm n => p ++ [n] | Up => removelast p | Here => p end) cs [].

(** Making one directory if it is not there; [can] says where things can be
    made ([create_dir_all], crates/tinymist-package/src/pack/fs.rs 52). *)
Definition mkdir (can : list name -> bool) (p : list name) (s : fs) : option fs :=
  match s p with
  | Some Dir => Some s
  | Some (File _) => None
  | None => if can p then Some (set p Dir s) else None
  end.

(** [create_dir_all]: all that a path passes through
    (crates/tinymist-package/src/pack/fs.rs 52); [done] is the part made
    already.  What was made stays when the rest fails. *)
Fixpoint mkdirs (can : list name -> bool) (done todo : list comp) (s : fs) : bool * fs :=
  match todo with
  | [] => (true, s)
  | c :: todo' =>
      match mkdir can (resolve (done ++ [c])) s with
      | Some s' => mkdirs can (done ++ [c]) todo' s'
      | None => (false, s)
      end
  end.

(** [DirPack::clone_into_pack], the callback: make the directories, make the
    file, write it (crates/tinymist-package/src/pack/fs.rs 50-66). *)
Definition put_dir (can : list name -> bool) (base : list name) (p : rpath) (d : data) (s : fs) : fin * fs :=
  match join base p with
  | [] => (Panic, s)
  | c :: cs =>
      let path := c :: cs in
      let '(ok, s1) := mkdirs can [] (removelast path) s in
      if ok then
        let q := resolve path in
        match s1 q with
        | Some Dir => (Bad, s1)
        | _ =>
            match q with
            | [] => (Bad, s1)
            | _ => if can q then
                     match d with
                     | Whole c => (Good, set q (File c) s1)
                     | Breaks c => (Bad, set q (File c) s1)
                     end
                   else (Bad, s1)
            end
        end
      else (Bad, s1)
  end.

(** [DirPack::clone_into_pack] (crates/tinymist-package/src/pack/fs.rs 47-70). *)
Definition clone_dir (can : list name -> bool) (base : list name) (p : pack) (s : fs) : fin * fs :=
  read_all p (put_dir can base) s.
