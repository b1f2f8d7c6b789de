(** What is expected of paths (C51, C75-C77). *)
From Coq Require Import List NArith Bool.
From Verif Require Import DigModel PageModel PathModel.
Import ListNotations.
Open Scope N_scope.

(** A directory or file is the list of its names, innermost first; the root has none. *)
Definition place := list (list chr).
(** Following a path from a place, without symbolic links; above the root is the root. *)
Definition walk1 (d : place) (c : comp) : place :=
  match c with RootC => [] | CurC => d | ParC => tl d | Nor n => n :: d end.
Definition walk (d : place) (p : path) : place := fold_left walk1 p d.
(** A name between slashes. *)
Definition name_ok (n : list chr) : Prop := n <> [] /\ ~ In 47 n /\ n <> [46] /\ n <> [46; 46].
Definition inner_ok (c : comp) : Prop := match c with RootC | CurC => False | ParC => True | Nor n => name_ok n end.
(** What the components of a text look like. *)
Definition path_ok (p : path) : Prop :=
  match p with [] => True | RootC :: r | CurC :: r => Forall inner_ok r | p => Forall inner_ok p end.
(** A path without detours. *)
Definition canonical (p : path) : Prop :=
  p = [CurC] \/ (exists ns, p = RootC :: map Nor ns) \/ (exists k ns, p = repeat ParC k ++ map Nor ns /\ p <> []).
