(** What is expected of the choice of project root and main file (C50, C78). *)
From Coq Require Import List NArith Bool.
From Verif Require Import DigModel PageModel PathModel PathSpec EntryModel.
Import ListNotations.

(** The place of the main file: its path in its workspace. *)
Definition main_place (s : entry_state) : option place :=
  match e_main s with
  | Some (Some w, v) => option_map (walk []) (vresolve w v)
  | _ => None
  end.
(** [d] is the directory [e] or one above, nearer to [e] than all others with [toml]. *)
Definition nearest (toml : path -> bool) (e d : path) : Prop :=
  (exists s, e = d ++ s /\ (d <> [] \/ is_abs e = false)) /\ toml d = true /\
  forall d' s', e = d' ++ s' -> (d' <> [] \/ is_abs e = false) -> toml d' = true -> (length d' <= length d)%nat.
(** No directory above [e] has [toml]. *)
Definition nowhere (toml : path -> bool) (e : path) : Prop :=
  forall d s, e = d ++ s -> (d <> [] \/ is_abs e = false) -> toml d = false.
(** [e] is a path to something with a name. *)
Definition named (e : path) : Prop := exists d n, e = d ++ [Nor n].
(** [e] lies in one of the folders. *)
Definition inside (e d : path) : Prop := exists s, e = d ++ s.
