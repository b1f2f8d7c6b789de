(** What definitions are and what can be renamed (C188). *)
From Coq Require Import List Arith Bool.
From Verif Require Import SiteModel.
Import ListNotations.

Definition import (d : decl) : Prop := d_kind d = KImport \/ d_kind d = KImportAlias.
(** [root e t d t']: following references from an expression one comes to a declaration, with the last type seen. *)
Inductive root : expr -> option ty -> decl -> option ty -> Prop :=
  | R_decl d t : root (EDecl d) t d t
  | R_kept e t d t' : root e t d t' -> root (ERef (Some e) None) t d t'
  | R_other e t u d t' : root e (Some u) d t' -> root (ERef (Some e) (Some u)) t d t'.
Section Table.
Variable resolves : nat -> option (option expr * option ty).
(** A span leads to a declaration; and it leads on through imports to one that is not, or to a term. *)
Definition leads (s : nat) (d : decl) (t : option ty) : Prop := s <> 0 /\ exists e u, resolves s = Some (Some e, u) /\ root e u d t.
Definition term (s : nat) (t : ty) : Prop := s <> 0 /\ resolves s = Some (None, Some t).
(** Nothing is behind a span. *)
Definition dead (s : nat) : Prop := (forall d t, ~ leads s d t) /\ forall t, ~ term s t.
(** [through s s']: from a span one comes to another through imports that have something behind them. *)
Inductive through : nat -> nat -> Prop :=
  | T_here s : through s s
  | T_import s d t s' : leads s d t -> import d -> ~ dead (d_span d) -> through (d_span d) s' -> through s s'.
(** The declaration that a span stands for: one that is no import, or an import behind which there is nothing. *)
Definition declared (s : nat) (d : decl) (t : option ty) : Prop :=
  exists s', through s s' /\ leads s' d t /\ (import d -> dead (d_span d)).
Definition valued (s : nat) (t : ty) : Prop := exists s', through s s' /\ term s' t.
(** Imports go down in some order. *)
Definition ordered (rank : nat -> nat) : Prop := forall s d t, leads s d t -> import d -> rank (d_span d) < rank s.
End Table.
(** A function that is written in the document or a plugin, perhaps with arguments given before. *)
Inductive own : func -> Prop := O_closure : own FClosure | O_plugin : own FPlugin | O_with f : own f -> own (FWith f).
(** What may be renamed, and the name to show. *)
Definition may (s : site) (d : decl) (t : option ty) (n : nat) : Prop :=
  (d_kind d = KVar /\ n = d_name d)
  \/ ((d_kind d = KFunc \/ d_kind d = KClosure) /\ n = d_name d /\ forall v, t = Some (TValue v) -> exists f x y, v = VFunc f x y /\ own f)
  \/ (In (d_kind d) [KModule; KModuleAlias; KPathStem; KImportPath; KIncludePath; KModuleImport] /\ s_str s = Some n).
(** [stands file_of t d]: the definition that a term alone stands for: functions and modules by their names, otherwise a constant. *)
Inductive stands (file_of : nat -> option nat) : ty -> decl -> Prop :=
  | S_func f x s : stands file_of (TValue (VFunc f (Some x) s)) (mkDecl KFunc x s (file_of s))
  | S_anon f s : stands file_of (TValue (VFunc f None s)) (mkDecl KConstant 0 0 None)
  | S_module x : stands file_of (TValue (VModule (Some x))) (mkDecl KVar x 0 None)
  | S_value v : stands file_of (TValue (VOther v)) (mkDecl KConstant 0 0 None)
  | S_type t : stands file_of (TOther t) (mkDecl KConstant 0 0 None).
