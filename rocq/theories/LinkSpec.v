(** What is expected of the links of a document. *)
From Coq Require Import String.
From Coq Require Import List Arith NArith Bool.
From Verif Require Import DigModel PageModel PathModel PathSpec EntryModel LocModel LinkModel.
Import ListNotations.
Local Open Scope nat_scope.

Definition total (cs : list node) : nat := fold_right (fun c a => len c + a) 0 cs.
(** A node of a tree, with its offset. *)
Inductive inside : nat -> node -> nat -> node -> Prop :=
| inside_here off n : inside off n off n
| inside_deeper off k pre c post off' n' : inside (off + total pre) c off' n' -> inside off (Inner k (pre ++ c :: post)) off' n'.
(** A child, the first one and the last one of a kind. *)
Definition child (off : nat) (cs : list node) (o : nat) (c : node) : Prop := exists pre post, cs = pre ++ c :: post /\ o = off + total pre.
Definition first_child (f : node -> bool) (off : nat) (cs : list node) (o : nat) (c : node) : Prop :=
  exists pre post, cs = pre ++ c :: post /\ o = off + total pre /\ f c = true /\ forall x, In x pre -> f x = false.
Definition last_child (f : node -> bool) (off : nat) (cs : list node) (o : nat) (c : node) : Prop :=
  exists pre post, cs = pre ++ c :: post /\ o = off + total pre /\ f c = true /\ forall x, In x post -> f x = false.
(** A string at a place is the expression or one of the array. *)
Definition string_of (off : nat) (n : node) (o : nat) (content : text) (l : nat) : Prop :=
  off = o /\ n = Leaf (LStr content) l \/ exists cs, n = Inner IArray cs /\ child off cs o (Leaf (LStr content) l).
(** The function of a call. *)
Definition calls (off : nat) (cs : list node) (f : text) : Prop :=
  exists o c, first_child is_expr off cs o c /\
    ((exists l, c = Leaf (LIdent f) l) \/
     exists fcs o1 l1 o2 l2, c = Inner IField fcs /\ first_child is_expr o fcs o1 (Leaf (LIdent (lit "std")) l1) /\ last_child is_ident o fcs o2 (Leaf (LIdent f) l2)).
(** The parameters that are paths: the function, the name, and whether it may be the first argument. *)
Inductive reads_path : text -> text -> bool -> Prop :=
| reads_theme : reads_path (lit "raw") (lit "theme") false
| reads_syntaxes : reads_path (lit "raw") (lit "syntaxes") false
| reads_cite : reads_path (lit "bibliography") (lit "cite") false
| reads_style : reads_path (lit "bibliography") (lit "style") false
| reads_bib : reads_path (lit "bibliography") (lit "path") true
| reads_data f : In f [lit "cbor"; lit "csv"; lit "image"; lit "read"; lit "json"; lit "yaml"; lit "xml"] -> reads_path f (lit "path") true.
(** The expression of an argument that is a path. *)
Definition path_arg (off : nat) (args : list node) (key : text) (pos : bool) (o : nat) (c : node) : Prop :=
  pos = true /\ first_child is_item off args o c /\ is_expr c = true \/
  exists ncs o1 o2 l, child off args o1 (Inner INamed ncs) /\ first_child is_ident o1 ncs o2 (Leaf (LIdent key) l) /\ last_child is_expr o1 ncs o c.
(** A node names a path, as an expression at a place. *)
Definition names (off : nat) (n : node) (o : nat) (c : node) : Prop :=
  (exists cs, n = Inner IInclude cs /\ last_child is_expr off cs o c) \/
  (exists cs f key pos oa args, n = Inner ICall cs /\ calls off cs f /\ reads_path f key pos /\ last_child is_args off cs oa (Inner IArgs args) /\ path_arg oa args key pos o c).
(** The link of a string: the text between its quotes. *)
Definition link_of (spec_ok : text -> bool) (file o l : nat) (content : text) (x : link) : Prop :=
  l_start x = o + 1 /\ l_end x = o + l - 1 /\ l_start x < l_end x /\
  ((exists r, content = 64%N :: r) /\ spec_ok content = true /\ l_target x = TPackage content \/
   (forall r, content <> 64%N :: r) /\ l_target x = TPath file content).
(** The links of a document. *)
Definition is_link (spec_ok : text -> bool) (file : nat) (root : node) (x : link) : Prop :=
  exists off n o c so l content, inside 0 root off n /\ names off n o c /\ string_of o c so content l /\ link_of spec_ok file so l content x.
