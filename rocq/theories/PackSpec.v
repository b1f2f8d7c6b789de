(** * What reading and copying packages should do *)

From Coq Require Import List Arith Bool.
From Verif Require Import PackModel.
Import ListNotations.

(** The files below a directory that are not hidden, by rules. *)
Inductive file_in : tree -> list name -> option data -> Prop :=
| file_here d : file_in (Leaf d) [] d
| file_below es n t p d : In (Plain n, t) es -> file_in t p d -> file_in (Branch es) (Plain n :: p) d.

(** A path that goes through names. *)
Definition below (p : list name) : rpath := mkPath false (map Nm p).

(** A stream of files that comes to an end. *)
Definition stream := (list (rpath * data) * fin)%type.

(** A tree in which names differ within each directory. *)
Inductive distinct : tree -> Prop :=
| distinct_leaf d : distinct (Leaf d)
| distinct_lost : distinct Lost
| distinct_branch es : NoDup (map fst es) -> (forall n t, In (n, t) es -> distinct t) -> distinct (Branch es).

(** What a directory gives: its files in some order, each once, up to the first that cannot be opened. *)
Definition dir_gives (keep : rpath -> bool) (t : tree) (s : stream) : Prop :=
  exists all : list (list name * option data),
    (forall p d, In (p, d) all <-> file_in t p d) /\
    (distinct t -> NoDup (map fst all)) /\
    ((exists good, filter (fun x => keep (below (fst x))) all = map (fun x => (fst x, Some (snd x))) good /\
        s = (map (fun x => (below (fst x), snd x)) good, Good)) \/
     (exists good p rest,
        filter (fun x => keep (below (fst x))) all = map (fun x => (fst x, Some (snd x))) good ++ (p, None) :: rest /\
        s = (map (fun x => (below (fst x), snd x)) good, Bad))).

(** What an archive gives: the files of its entries, in order, to its end or the first entry that is broken. *)
Inductive tar_gives : list tar_entry -> stream -> Prop :=
| tar_end : tar_gives [] ([], Good)
| tar_broken es : tar_gives (Broken :: es) ([], Bad)
| tar_nameless es : tar_gives (Nameless :: es) ([], Bad)
| tar_other es s : tar_gives es s -> tar_gives (Other :: es) s
| tar_file full p d es l e : tar_gives es (l, e) -> tar_gives (Entry full p d :: es) ((p, d) :: l, e).

(** What a page gives. *)
Inductive http_gives : response -> stream -> Prop :=
| http_archive es s : tar_gives es s -> http_gives (Archive (Some es)) s
| http_bad r : (forall es, r <> Archive (Some es)) -> http_gives r ([], Bad).

(** What a pack gives. *)
Inductive gives : pack -> stream -> Prop :=
| gives_map files : gives (MapPack files) (map (fun x => (fst x, Whole (snd x))) files, Good)
| gives_dir n t s : dir_gives (fun _ => true) t s -> gives (DirPack (Plain n) t) s
| gives_hidden n t : gives (DirPack (Dot n) t) ([], Good)
| gives_tar es s : tar_gives es s -> gives (TarPack (Some es)) s
| gives_no_tar : gives (TarPack None) ([], Bad)
| gives_http r s : http_gives r s -> gives (HttpPack r) s
| gives_git t s : dir_gives (fun _ => true) t s -> gives (GitPack (Some t)) s
| gives_no_git : gives (GitPack None) ([], Bad)
| gives_universe r s : http_gives r s -> gives (UniversePack true r) s
| gives_other r : gives (UniversePack false r) ([], Panic)
| gives_filter src keep l e : gives src (l, e) -> gives (FilterPack src keep) (filter (fun x => keep (fst x)) l, e).

(** A callback is run on a stream: on each file in order, until it fails. *)
Inductive run {S : Type} (f : rpath -> data -> S -> fin * S) : stream -> S -> fin * S -> Prop :=
| run_end e s : run f ([], e) s (e, s)
| run_next p d l e s s' r : f p d s = (Good, s') -> run f (l, e) s' r -> run f ((p, d) :: l, e) s r
| run_stop p d l e s r : f p d s = r -> fst r <> Good -> run f ((p, d) :: l, e) s r.

(** The last content a list has for a path. *)
Inductive latest {A : Type} : list (A * data) -> A -> nat -> Prop :=
| latest_here p c l : (forall d, ~ In (p, d) l) -> latest ((p, Whole c) :: l) p c
| latest_later x l p c : latest l p c -> latest (x :: l) p c.

(** Paths that stay below: relative, only names, at least one. *)
Definition clean (p : rpath) (ns : list name) : Prop := absolute p = false /\ comps p = map Nm ns /\ ns <> [].

(** [above q p]: [q] is on the way to [p]. *)
Definition above {A : Type} (q p : list A) : Prop := exists r, r <> [] /\ p = q ++ r.

(** What a map has for a path: the first entry. *)
Definition holds (m : list (rpath * nat)) (q : rpath) (c : nat) : Prop :=
  exists a b, m = a ++ (q, c) :: b /\ ~ In q (map fst a).

(** All paths stay below. *)
Definition all_clean (l : list (rpath * data)) : Prop := forall p d, In (p, d) l -> exists ns, clean p ns.

(** How a file system is after copying, at each path. *)
Definition became (base : list name) (l : list (rpath * data)) (s r : fs) : Prop := forall q,
  r q = s q \/
  (s q = None /\ r q = Some Dir /\ exists p d ns, In (p, d) l /\ clean p ns /\ above q (base ++ ns)) \/
  (s q <> Some Dir /\ exists p d ns c, In (p, d) l /\ clean p ns /\ q = base ++ ns /\ (d = Whole c \/ d = Breaks c) /\ r q = Some (File c)).
