(** How the definitions of a package are scanned (C192). *)
From Coq Require Import List Arith Bool.
From Verif Require Import ScanModel.
Import ListNotations.

(** How often a file stands in a tree with its definitions. *)
Fixpoint opens (f : nat) (i : info) : nat :=
  match i with mkInfo _ d _ cs =>
    (match d, cs with Some (DModule g), _ :: _ => if g =? f then 1 else 0 | _, _ => 0 end) + list_sum (map (opens f) cs) end.
Section World.
Variables (pkg : nat -> bool) (exports : nat -> option (list (nat * expr))).
(** What an expression stands for in the end. *)
Inductive stands : expr -> decl -> Prop :=
  | S_decl d : stands (EDecl d) d
  | S_ref e d : stands e d -> stands (ERef (Some e)) d.
(** A file exports something of another file of the package, which can be loaded. *)
Definition uses (f g : nat) : Prop :=
  exists es n e d, exports f = Some es /\ In (n, e) es /\ stands e d /\ (d = DModule g \/ d = DOther (Some g)) /\ pkg g = true /\ exports g <> None.
(** Files that can be reached by what is exported. *)
Inductive reached (root : nat) : nat -> Prop :=
  | R_root : reached root root
  | R_uses f g : reached root f -> uses f g -> reached root g.
(** A node shows a file: its children are the exports by name and order, and external where they are of other files. *)
Definition child (f : nat) (x : nat * expr) (i : info) : Prop :=
  match i with mkInfo n d ext _ => n = fst x /\ (forall d', stands (snd x) d' <-> d = Some d')
    /\ (ext = true <-> exists d' g, d = Some d' /\ (d' = DModule g \/ d' = DOther (Some g)) /\ g <> f) end.
(** All nodes of a tree show what they stand for, or nothing. *)
Inductive sound : info -> Prop :=
  | T_leaf n d x : sound (mkInfo n d x [])
  | T_module n f x cs es : pkg f = true -> exports f = Some es -> Forall2 (child f) es cs -> Forall sound cs -> sound (mkInfo n (Some (DModule f)) x cs).
End World.
