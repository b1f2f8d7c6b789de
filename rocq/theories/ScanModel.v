(** Model of the scan of the definitions of a package for its documentation: crates/tinymist-query/src/docs/module.rs ("dm.rs"). *)
From Coq Require Import List Arith Bool.
Import ListNotations.

(** [Decl], dm.rs:173-206,222,233: a module with its file, or another with its file if that is known. *)
Inductive decl := DModule (f : nat) | DOther (f : option nat).
(** [Decl::file_id], crates/tinymist-analysis/src/syntax/def.rs:562-568. *)
Definition file_of (d : decl) : option nat := match d with DModule f => Some f | DOther f => f end.
(** [Expr] as it is exported, dm.rs:134-158: a declaration, a reference with its root if there is one, a selection, or another. *)
Inductive expr := EDecl (d : decl) | ERef (root : option expr) | ESelect | EOther.
(** [DefInfo], dm.rs:66-93: the name, the declaration (none for selections and constants), whether it is external, and the children. *)
Inductive info := mkInfo (name : nat) (d : option decl) (external : bool) (children : list info).
(** dm.rs:127-160 [expr]: the declaration that is exported in the end, if it is one. *)
Fixpoint resolve (e : expr) : option decl := match e with EDecl d => Some d | ERef (Some r) => resolve r | ERef None | ESelect | EOther => None end.
(** [ScanDefCtx], dm.rs:105-111: the aliases in the order they are found, and the modules that are not exported. *)
Record state := { aliases : list (nat * list nat); extras : list info }.
(** dm.rs:181-182,235-236: whether a file has aliases. *)
Definition known (f : nat) (s : state) : bool := existsb (fun x => fst x =? f) (aliases s).
(** dm.rs:183: another alias. *)
Definition alias (f : nat) (p : list nat) (s : state) : state := {| aliases := aliases s ++ [(f, p)]; extras := extras s |}.
Section World.
(** Whether a file is in the package (dm.rs:176,234), what it exports if it can be loaded (dm.rs:192,237), the stem of its name (dm.rs:116-120). *)
Variables (pkg : nat -> bool) (exports : nat -> option (list (nat * expr))) (stem : nat -> nat).
(** The entry point (dm.rs:110,122) and the number of the name "-" (dm.rs:239). *)
Variables (root dash : nat).
(** dm.rs:222-229: whether a definition is external to a site. *)
Definition is_external (site : nat) (d : decl) : bool := match file_of d with Some f => negb (f =? site) | None => false end.
(** dm.rs:162-252 [def] with [expr] (127-160) and [defs] (115-125); [None] if the fuel is used up, which C192 shows not to happen. *)
Fixpoint def (fuel key : nat) (path : list nat) (site : nat) (d : decl) (s : state) : option (info * state) :=
  match fuel with
  | 0 => None
  | S k =>
      match
        match d with
        | DModule f =>
            if pkg f then
              let s1 := alias f path s in
              if known f s then Some ([], s1)
              else match exports f with
                   | None => Some ([], s1)
                   | Some es =>
                       (fix items (l : list (nat * expr)) (s : state) : option (list info * state) :=
                          match l with
                          | [] => Some ([], s)
                          | (n, e) :: r =>
                              match match resolve e with Some d' => def k n (path ++ [n]) f d' s | None => Some (mkInfo n None false [], s) end with
                              | None => None
                              | Some (i, s') => match items r s' with None => None | Some (is, s'') => Some (i :: is, s'') end
                              end
                          end) es s1
                   end
            else Some ([], s)
        | DOther _ => Some ([], s)
        end
      with
      | None => None
      | Some (children, s2) =>
          let head := mkInfo key (Some d) (is_external site d) children in
          match file_of d with
          | Some f =>
              if pkg f && negb (known f s2) then
                match exports f with
                | None => Some (head, s2)
                | Some _ => match def k (stem f) (path ++ [dash; key]) root (DModule f) s2 with
                            | None => None
                            | Some (m, s3) => Some (head, {| aliases := aliases s3; extras := extras s3 ++ [m] |})
                            end
                end
              else Some (head, s2)
          | None => Some (head, s2)
          end
      end
  end.
(** dm.rs:30-63 [module_docs]: the root with its children and the modules that are not exported, and the aliases. *)
Definition module_docs (fuel : nat) : option (info * list (nat * list nat)) :=
  match exports root with
  | None => None
  | Some _ => match def fuel (stem root) [] root (DModule root) {| aliases := []; extras := [] |} with
              | None => None
              | Some (mkInfo n d x children, s) => Some (mkInfo n d x (children ++ extras s), aliases s)
              end
  end.
End World.
