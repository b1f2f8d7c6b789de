(** Model of path handling: crates/tinymist-std/src/path.rs,
    crates/tinymist-std/src/fs/paths.rs:85-111, crates/tinymist-task/src/primitives.rs:303-357,
    crates/tinymist-query/src/rename.rs, crates/tinymist-query/src/will_rename_files.rs and
    crates/tinymist-query/src/analysis/completion/path.rs:71-83.
    Paths are Unix paths of valid Unicode; the components of [std::path] and the crates
    path-clean 1.0 and pathdiff 0.2 are modelled from their sources. *)
From Coq Require Import List NArith Bool.
From Verif Require Import DigModel PageModel.
Import ListNotations.
Open Scope N_scope.

(** * Components *)
(** [std::path::Component] without prefixes; path.rs:4. *)
Inductive comp := RootC | CurC | ParC | Nor (name : list chr).
(** A path is its list of components: [Path] compares that way; path.rs:12. *)
Definition path := list comp.
(** Equality of texts; for [comp_eqb], path.rs:54. *)
Fixpoint text_eqb (a b : list chr) : bool :=
  match a, b with [], [] => true | x :: a, y :: b => (x =? y) && text_eqb a b | _, _ => false end.
(** Equality of components; path.rs:63 (inside of pathdiff). *)
Definition comp_eqb (a b : comp) : bool :=
  match a, b with RootC, RootC | CurC, CurC | ParC, ParC => true | Nor x, Nor y => text_eqb x y | _, _ => false end.
(** One piece between slashes ([Path::components]); path.rs:12. *)
Definition piece (first : bool) (s : list chr) : list comp :=
  match s with
  | [] => []
  | [46] => if first then [CurC] else []
  | [46; 46] => [ParC]
  | _ => [Nor s]
  end.
(** [Path::components] of a text; path.rs:12. *)
Definition components (s : list chr) : path :=
  match split 47 s with
  | [] => []
  | p :: ps => match p, ps with
               | [], _ :: _ => RootC :: flat_map (piece false) ps
               | _, _ => piece true p ++ flat_map (piece false) ps
               end
  end.
(** [Path::is_absolute]; e.g. rename.rs:66. *)
Definition is_abs (p : path) : bool := match p with RootC :: _ => true | _ => false end.
(** [PathBuf::push] of one component; path.rs:63 (the [collect] inside of pathdiff). *)
Definition push (p : path) (c : comp) : path :=
  match c with RootC => [RootC] | CurC => match p with [] => [CurC] | _ => p end | c => p ++ [c] end.
(** [collect] of components to a path; path.rs:51,63. *)
Definition collect (cs : list comp) : path := fold_left push cs [].
(** [Path::join]; rename.rs:71,278, primitives.rs:352. *)
Definition join (p q : path) : path := fold_left push q p.

(** * path.rs *)
(** path.rs:9-47 [unix_slash]; [norm] is the variable [parent_norm]. *)
Fixpoint slash_loop (norm : bool) (p : path) : list chr :=
  match p with
  | [] => []
  | RootC :: r => 47 :: slash_loop false r
  | CurC :: r => slash_loop false r
  | ParC :: r => (if norm then [47] else []) ++ [46; 46] ++ slash_loop true r
  | Nor n :: r => (if norm then [47] else []) ++ n ++ slash_loop true r
  end.
(** See [slash_loop]; path.rs:9-47. *)
Definition unix_slash (p : path) : list chr := match slash_loop false p with [] => [46] | s => s end.
(** The loop of path-clean (re-exported at path.rs:51); the output is kept newest first. *)
Definition clean_step (out : list comp) (c : comp) : list comp :=
  match c with
  | CurC => out
  | ParC => match out with RootC :: _ => out | Nor _ :: r => r | _ => ParC :: out end
  | c => c :: out
  end.
(** [path_clean::clean], path.rs:51. *)
Definition clean (p : path) : path :=
  match fold_left clean_step p [] with [] => [CurC] | out => collect (rev out) end.
(** path.rs:58-66 [clean_for_diff]. *)
Definition clean_for_diff (p : path) : path :=
  if existsb (fun c => match c with ParC | CurC => true | _ => false end) p then clean p else p.
(** The loop of [pathdiff::diff_paths] (path.rs:68); [comps] in the order of pushes. *)
Fixpoint diff_loop (comps : list comp) (a b : path) : option (list comp) :=
  match a, b with
  | [], [] => Some comps
  | _ :: _, [] => Some (comps ++ a)
  | [], _ :: b => diff_loop (comps ++ [ParC]) [] b
  | x :: a', y :: b' =>
      if match comps with [] => comp_eqb x y | _ => false end then diff_loop comps a' b'
      else match y with
           | CurC => diff_loop (comps ++ [x]) a' b'
           | ParC => None
           | _ => Some (comps ++ [ParC] ++ map (fun _ => ParC) b' ++ a)
           end
  end.
(** [pathdiff::diff_paths], path.rs:68. *)
Definition diff_paths (p base : path) : option path :=
  if Bool.eqb (is_abs p) (is_abs base) then option_map collect (diff_loop [] p base)
  else if is_abs p then Some p else None.
(** path.rs:55-69 [diff]: the path [fr] seen from [to]. *)
Definition diff (fr to : path) : option path := diff_paths (clean_for_diff fr) (clean_for_diff to).

(** * normalize_path *)
(** [PathBuf::pop]; paths.rs:103. *)
Definition pop (p : path) : path :=
  match rev p with [] => p | RootC :: _ => p | _ :: r => rev r end.
(** paths.rs:94-109, one component. *)
Definition norm_step (p : path) (c : comp) : path :=
  match c with RootC => push p RootC | CurC => p | ParC => pop p | Nor n => push p (Nor n) end.
(** paths.rs:85-111 [normalize_path]. *)
Definition normalize (p : path) : path := fold_left norm_step p [].

(** * Users *)
(** completion/path.rs:76-82: the text that is offered for a file, seen from a directory. *)
Definition completion_label (file dir : path) : option (list chr) := option_map unix_slash (diff file dir).
(** will_rename_files.rs:24-31 (and rename.rs:65-69): the change, refused if it is absolute. *)
Definition rename_diff (old new : path) : option path :=
  match diff new old with Some d => if is_abs d then None else Some d | None => None end.
(** rename.rs:276-281: the new text of a reference. *)
Definition rename_ref (d : path) (s : list chr) : list chr := unix_slash (clean (join (components s) d)).
(** rename.rs:65-71: the new place of a file whose reference [ref] is renamed to [name]; the new
    name has its extension already (rename.rs:53-57). *)
Definition rename_target (old : path) (ref name : list chr) : option path :=
  match rename_diff (components ref) (components name) with Some d => Some (clean (join old d)) | None => None end.
(** primitives.rs:305-314 [from_user_sys] in the current directory [cwd]; [None] is the panic of
    [unwrap].  The scheme is always "file". *)
Definition from_user_sys (cwd inp : path) : option (list chr) :=
  if is_abs inp then option_map unix_slash (diff inp cwd) else Some (unix_slash inp).
(** primitives.rs:346-357 [to_abs_path] of a path with the scheme "file". *)
Definition to_abs_path (base : path) (s : list chr) : path :=
  let p := components s in if is_abs p then p else join base p.
(** primitives.rs:332-343 [to_rel_path]. *)
Definition to_rel_path (base : path) (s : list chr) : path :=
  let p := components s in if is_abs p then match diff p base with Some d => d | None => p end else p.
(** rename.rs:154-168,252-258,212-217: a reference of the file at [dir] is changed if it leads
    to the renamed file ([hit]); references that lead elsewhere are left alone. *)
Definition edit_ref (hit : bool) (d : path) (s : list chr) : list chr := if hit then rename_ref d s else s.
