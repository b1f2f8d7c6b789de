(** Model of the storage of packages: crates/tinymist-package/src/registry/http.rs and the listing of
    crates/tinymist-query/src/package.rs:80-150.  The unpacking of an archive (external crate tar) is
    modelled file by file, interleaved with whatever else uses the directories. *)
From Coq Require Import List NArith Arith Bool.
From Verif Require Import DigModel PageModel PathModel.
Import ListNotations.
Open Scope nat_scope.

(** * Packages and their directories *)
(** [PackageVersion] (external): three numbers, ordered by the first that differs; http.rs:195. *)
Definition version := (N * N * N)%type.
(** [PackageSpec] (external): namespace, name and version; http.rs:163. *)
Record spec := mkSpec { ns : list chr; name : list chr; ver : version }.
(** [Display] of a version (external): the numbers with dots between them; http.rs:164. *)
Definition print_ver (v : version) : list chr :=
  let '(a, b, c) := v in print_num 10 a ++ 46%N :: print_num 10 b ++ 46%N :: print_num 10 c.
(** [u32::MAX], the largest number of a version; http.rs:216. *)
Definition max32 : N := 4294967295.
(** [FromStr] of a version (external): three numbers between dots; http.rs:216, package.rs:134. *)
Definition parse_ver (s : list chr) : option version :=
  match split 46%N s with
  | [a; b; c] =>
      match parse_num 10 max32 a, parse_num 10 max32 b, parse_num 10 max32 c with
      | Some a, Some b, Some c => Some (a, b, c)
      | _, _, _ => None
      end
  | _ => None
  end.
(** http.rs:164. *)
Definition subdir (p : spec) : list chr := ns p ++ 47%N :: name p ++ 47%N :: print_ver (ver p).
(** http.rs:167,174. *)
Definition pkg_dir (base : path) (p : spec) : path := join base (components (subdir p)).
(** Equality of versions, for [spec_eqb]; http.rs:163. *)
Definition ver_eqb (v w : version) : bool :=
  let '(a, b, c) := v in let '(x, y, z) := w in (N.eqb a x && N.eqb b y && N.eqb c z)%bool.
(** Equality of packages; http.rs:163. *)
Definition spec_eqb (p q : spec) : bool := text_eqb (ns p) (ns q) && text_eqb (name p) (name q) && ver_eqb (ver p) (ver q).
(** The namespace that is downloaded, http.rs:180,196. *)
Definition preview : list chr := [112; 114; 101; 118; 105; 101; 119]%N.

(** * prepare_package *)
(** http.rs:122-124: the directory of the user, and that of downloads. *)
Inductive place := Data | Cache.
(** Equality of places; http.rs:122-124. *)
Definition place_eqb (a b : place) : bool := match a, b with Data, Data | Cache, Cache => true | _, _ => false end.
(** What [prepare_package] gives, http.rs:163: a directory, [NotFound] or another error. *)
Inductive result := Ok (d : place) | NotFound | Failed.
(** What the registry replies, http.rs:289-303: status 404, another failure (also one to start the thread, http.rs:305),
    or an archive with the files that can be read of it; [bad] says that it is malformed after
    them, and whether [remove_dir_all] (http.rs:301) then succeeds. *)
Inductive reply := Missing | Broken | Archive (files : list nat) (bad : option bool).
(** Where a call of [prepare_package] is: before the test at http.rs:168, before the one at http.rs:175, waiting for the
    registry (http.rs:331), in [unpack] (http.rs:299; before or after the directory is created), before the
    test at http.rs:182, done. *)
Inductive pc := AtData | AtCache | Asking | Unpack (started : bool) (rest : list nat) (bad : option bool) | Check | Over (r : result) | Killed.
(** A call of [prepare_package]; http.rs:163. *)
Record call := mkCall { c_spec : spec; c_pc : pc }.
(** An answer [Ok]: the call, its package, the directory, and what is in it at that time; http.rs:169,176,183. *)
Record answer := mkA { a_call : nat; a_spec : spec; a_place : place; a_files : list nat }.
(** The directories of packages, which places there are (http.rs:122-124), the calls, the requests made (http.rs:287) and
    the answers. *)
Record st := mkSt { s_fs : place -> spec -> option (list nat); s_has : place -> bool; s_calls : list call;
  s_reqs : list (nat * spec); s_answers : list answer }.
(** Before any call; http.rs:136-149. *)
Definition init (fs : place -> spec -> option (list nat)) (has : place -> bool) : st := mkSt fs has [] [] [].
(** Update at an index; for the calls, http.rs:163. *)
Fixpoint set_nth {A} (n : nat) (x : A) (l : list A) : list A :=
  match l, n with [], _ => [] | _ :: l, O => x :: l | y :: l, S n => y :: set_nth n x l end.
(** A directory is written or removed; http.rs:299,301. *)
Definition set_dir (d : place) (p : spec) (x : option (list nat)) (s : st) : st :=
  mkSt (fun e q => if (place_eqb d e && spec_eqb p q)%bool then x else s_fs s e q) (s_has s) (s_calls s) (s_reqs s) (s_answers s).
(** A call goes on; http.rs:163. *)
Definition goto (t : nat) (p : spec) (c : pc) (s : st) : st :=
  mkSt (s_fs s) (s_has s) (set_nth t (mkCall p c) (s_calls s)) (s_reqs s) (s_answers s).
(** [Ok] with a directory that was there; http.rs:169,176,183. *)
Definition found (t : nat) (p : spec) (d : place) (files : list nat) (s : st) : st :=
  mkSt (s_fs s) (s_has s) (set_nth t (mkCall p (Over (Ok d))) (s_calls s)) (s_reqs s) (s_answers s ++ [mkA t p d files]).
(** A file is written over one of the same name, if any; http.rs:299. *)
Definition add_file (f : nat) (l : list nat) : list nat := if existsb (Nat.eqb f) l then l else l ++ [f].
(** http.rs:300-303: the directory is removed, if that works, and the call fails. *)
Definition give_up (t : nat) (p : spec) (removed : bool) (s : st) : st :=
  goto t p (Over Failed) (if removed then set_dir Cache p None s else s).
(** A step of a call, http.rs:163-189 and http.rs:279-306.  A file that is unpacked to a directory that was removed is an
    error of [unpack] (external crate tar, which resolves its target for each file). *)
Definition advance (t : nat) (s : st) : st :=
  match nth_error (s_calls s) t with
  | None => s
  | Some c =>
      let p := c_spec c in
      match c_pc c with
      | AtData =>
          match (if s_has s Data then s_fs s Data p else None) with
          | Some l => found t p Data l s
          | None => goto t p AtCache s
          end
      | AtCache =>
          if s_has s Cache then
            match s_fs s Cache p with
            | Some l => found t p Cache l s
            | None =>
                if text_eqb (ns p) preview then
                  let s := goto t p Asking s in mkSt (s_fs s) (s_has s) (s_calls s) (s_reqs s ++ [(t, p)]) (s_answers s)
                else goto t p (Over NotFound) s
            end
          else goto t p (Over NotFound) s
      | Unpack false rest bad =>
          goto t p (Unpack true rest bad) (match s_fs s Cache p with Some _ => s | None => set_dir Cache p (Some []) s end)
      | Unpack true (f :: rest) bad =>
          match s_fs s Cache p with
          | Some l => goto t p (Unpack true rest bad) (set_dir Cache p (Some (add_file f l)) s)
          | None => give_up t p true s
          end
      | Unpack true [] (Some removed) => give_up t p removed s
      | Unpack true [] None => goto t p Check s
      | Check =>
          match s_fs s Cache p with
          | Some l => found t p Cache l s
          | None => goto t p (Over NotFound) s
          end
      | Asking | Over _ | Killed => s
      end
  end.
(** A call begins (http.rs:163), goes on, gets a reply (http.rs:288-305), is killed with its process, and a directory that is
    changed by something else. *)
Inductive event := Start (p : spec) | Go (t : nat) | Reply (t : nat) (r : reply) | Kill (t : nat) | User (d : place) (p : spec) (x : option (list nat)).
(** One event; see [event], http.rs:163-306. *)
Definition step (s : st) (e : event) : st :=
  match e with
  | Start p => mkSt (s_fs s) (s_has s) (s_calls s ++ [mkCall p AtData]) (s_reqs s) (s_answers s)
  | Go t => advance t s
  | Reply t r =>
      match nth_error (s_calls s) t with
      | Some (mkCall p Asking) =>
          match r with
          | Missing => goto t p (Over NotFound) s
          | Broken => goto t p (Over Failed) s
          | Archive files bad => goto t p (Unpack false files bad) s
          end
      | _ => s
      end
  | Kill t =>
      match nth_error (s_calls s) t with
      | Some (mkCall p (Over _)) | Some (mkCall p Killed) => s
      | Some (mkCall p _) => goto t p Killed s
      | None => s
      end
  | User d p x => set_dir d p x s
  end.
(** A history; driver of [step], http.rs:163. *)
Definition run (s : st) (es : list event) : st := fold_left step es s.

(** * Directories as they are listed *)
(** What is in the directory of a package: names, and whether they are directories; package.rs:118-130. *)
Definition versions := list (list chr * bool).
(** What is in the directory of a namespace: names, and what is in them if they are directories; package.rs:101-116. *)
Definition names := list (list chr * option versions).
(** [starts_with('.')]; package.rs:109,126. *)
Definition hidden (n : list chr) : bool := match n with c :: _ => N.eqb c 46 | [] => false end.
(** package.rs:122-145: the versions of one package. *)
Definition list_versions (dir : path) (space nm : list chr) (l : versions) : list (path * spec) :=
  flat_map (fun x => if (hidden (fst x) || negb (snd x))%bool then []
                     else match parse_ver (fst x) with
                          | Some v => [(dir ++ [Nor nm; Nor (fst x)], mkSpec space nm v)]
                          | None => []
                          end) l.
(** package.rs:105-146: the packages below one root; [dir] is that of the namespace. *)
Definition list_names (dir : path) (space : list chr) (l : names) : list (path * spec) :=
  flat_map (fun x => if hidden (fst x) then []
                     else match snd x with Some vs => list_versions dir space (fst x) vs | None => [] end) l.
(** package.rs:81-150 [list_package_by_namespace]: over the roots of http.rs:92-96, each with what is in the directory of
    the namespace, if it is a directory. *)
Definition list_packages (space : list chr) (roots : list (path * option names)) : list (path * spec) :=
  flat_map (fun r => match snd r with Some l => list_names (join (fst r) (components space)) space l | None => [] end) roots.
(** Whether the directory of a package exists, as [exists] (http.rs:168,175) sees it. *)
Definition there (l : option names) (p : spec) : bool :=
  match l with
  | None => false
  | Some l => existsb (fun x => (text_eqb (fst x) (name p) && match snd x with
                                 | Some vs => existsb (fun y => text_eqb (fst y) (print_ver (ver p))) vs
                                 | None => false end)%bool) l
  end.
(** http.rs:166-177: what [prepare_package] finds without a download. *)
Definition local (data cache : option names) (p : spec) : option place :=
  if there data p then Some Data else if there cache p then Some Cache else None.

(** * The latest version *)
(** The order of versions (external, derived); http.rs:203,217. *)
Definition ver_leb (v w : version) : bool :=
  let '(a, b, c) := v in let '(x, y, z) := w in
  (N.ltb a x || N.eqb a x && (N.ltb b y || N.eqb b y && N.leb c z))%bool.
(** [Iterator::max]; http.rs:203,217. *)
Definition max_ver (l : list version) : option version :=
  fold_left (fun m v => match m with None => Some v | Some w => if ver_leb w v then Some v else Some w end) l None.
(** http.rs:120-130: the index, fetched at most once ([OnceLock], http.rs:128,229), and what is in the data directory. *)
Record store := mkStore { i_index : option (list (list chr * version)); i_data : list chr -> option names }.
(** http.rs:228-273 [download_index]; [fetch] is what the registry replies if it is asked, [None] being any failure
    (http.rs:235-238,251-254,271). *)
Definition download_index (fetch : option (list (list chr * version))) (s : store) : store * list (list chr * version) :=
  match i_index s with
  | Some l => (s, l)
  | None => let l := match fetch with Some l => l | None => [] end in (mkStore (Some l) (i_data s), l)
  end.
(** http.rs:209-216: the versions that names in the data directory stand for. *)
Definition local_versions (l : option names) (nm : list chr) : list version :=
  match l with
  | None => []
  | Some l => flat_map (fun x => if text_eqb (fst x) nm then
                                   match snd x with
                                   | Some vs => flat_map (fun y => match parse_ver (fst y) with Some v => [v] | None => [] end) vs
                                   | None => []
                                   end
                                 else []) l
  end.
(** http.rs:192-220 [determine_latest_version]. *)
Definition latest (fetch : option (list (list chr * version))) (space nm : list chr) (s : store) : store * option version :=
  if text_eqb space preview then
    let '(s, l) := download_index fetch s in
    (s, max_ver (map snd (filter (fun x => text_eqb (fst x) nm) l)))
  else (s, max_ver (local_versions (i_data s space) nm)).
