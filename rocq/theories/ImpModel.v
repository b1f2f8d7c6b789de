(** Model of where imports lead and of what is completed in them: crates/tinymist-analysis/src/syntax/import.rs ("si.rs") and crates/tinymist-query/src/analysis/completion/import.rs ("ci.rs"). *)
From Coq Require Import List Arith Bool.
Import ListNotations.

(** A component of a path: a name by its number, or a step up; the steps that stay are not there ([Path::components], si.rs:24). *)
Inductive comp := Nm (n : nat) | Up.
(** [VirtualPath::new] of typst (si.rs:28): steps up cancel names and stay where there are none; what is there is in reverse. *)
Fixpoint walk (rev : list comp) (p : list comp) : list comp :=
  match p with
  | [] => rev
  | Nm n :: r => walk (Nm n :: rev) r
  | Up :: r => match rev with Nm _ :: rev' => walk rev' r | _ => walk (Up :: rev) r end
  end.
(** [VirtualPath::new] of typst (si.rs:28). *)
Definition vpath (p : list comp) : list comp := rev (walk [] p).
(** [VirtualPath::join] of typst (si.rs:26): next to a file; the root has no parent, and then the path is taken alone. *)
Definition join (v p : list comp) : list comp := vpath (removelast v ++ p).
(** What stands in an import (si.rs:11,24-25): a package, or a path that is absolute or not. *)
Inductive import_path := PPackage (text : nat) | PAbsolute (p : list comp) | PRelative (p : list comp).
(** [TypstFileId] (si.rs:14,31): a package by number if it is in one, and a path. *)
Definition file := (option nat * list comp)%type.
Section World.
(** Parsing of specifications (si.rs:12), and the entrypoint of the manifest of a package if it can be read, parsed and is that of the package (si.rs:13-18). *)
Variables (parse : nat -> option nat) (entrypoint : nat -> option (list comp)).
(** The number of the name typst.toml (si.rs:14). *)
Variable toml : nat.
(** si.rs:6-32 [resolve_id_by_path]. *)
Definition resolve_id_by_path (current : file) (p : import_path) : option file :=
  match p with
  | PPackage t => match parse t with
                  | None => None
                  | Some spec => match entrypoint spec with None => None | Some e => Some (Some spec, join [Nm toml] e) end
                  end
  | PAbsolute q => Some (fst current, vpath q)
  | PRelative q => Some (fst current, join (snd current) q)
  end.
(** si.rs:35-47 [find_source_by_expr], for a string or something else, with the sources there are. *)
Definition find_source_by_expr (source : file -> option nat) (current : file) (e : option import_path) : option nat :=
  match e with None => None | Some p => match resolve_id_by_path current p with None => None | Some f => source f end end.
End World.

(** Values: their scopes, if they have any (ci.rs:95-97). *)
Inductive val := mkVal (scope : option (list (nat * val))).
(** The scope of a value, ci.rs:96. *)
Definition scope_of (v : val) : option (list (nat * val)) := let (s) := v in s.
(** [Scope::get] of typst, ci.rs:96. *)
Definition get (n : nat) (s : list (nat * val)) : option val := match find (fun x => fst x =? n) s with Some x => Some (snd x) | None => None end.
(** ci.rs:94-97: the value that names lead to. *)
Definition select (v : option val) (comps : list nat) : option val :=
  fold_left (fun v c => match v with None => None | Some x => match scope_of x with None => None | Some s => get c s end end) comps v.
(** What is offered (ci.rs:123-132): everything, or a name. *)
Inductive item := Star | Item (n : nat).
(** ci.rs:107-115: whether two lists are the same as far as the second goes. *)
Fixpoint same (l r : list nat) : bool := match l, r with a :: l', b :: r' => (a =? b) && same l' r' | _, _ => true end.
(** ci.rs:103-121: the names that are there already, of items by their paths. *)
Definition seen (existing : list (list nat)) (comps : list nat) : list nat :=
  flat_map (fun p => if (length p =? length comps + 1) && same p comps then [last p 0] else []) existing.
(** ci.rs:87-133 [import_item_completions]. *)
Definition import_items (existing : list (list nat)) (comps : list nat) (source : option val) : list item :=
  match (match select source comps with Some v => scope_of v | None => None end) with
  | None => []
  | Some s =>
      (match existing with [] => [Star] | _ => [] end)
      ++ map (fun x => Item (fst x)) (filter (fun x => negb (existsb (Nat.eqb (fst x)) (seen existing comps))) s)
  end.
(** Where the cursor is (ci.rs:7-84): at the colon (with the items, none for a wildcard), behind the list (with whether a line has ended), at a comma, at a name or a dot of a path (with its start, the names before it, and whether it is a name), or elsewhere. *)
Inductive spot :=
  | AtColon (items : option (list (list nat)))
  | Behind (newline : bool) (items : list (list nat))
  | AtComma (items : list (list nat))
  | InPath (name : bool) (start : nat) (before : list nat) (items : list (list nat))
  | Elsewhere.
(** ci.rs:6-84 [complete_imports]: what is offered, from where, and what is put around it; [None] is false. *)
Definition complete_imports (cursor : nat) (s : spot) (source : option val) : option (list item * nat * (bool * bool)) :=
  match s with
  | AtColon (Some items) => Some (import_items items [] source, cursor, (false, match items with [] => false | _ => true end))
  | AtColon None => None
  | Behind false items => Some (import_items items [] source, cursor, (false, false))
  | Behind true _ => None
  | AtComma items => Some (import_items items [] source, cursor, (true, false))
  | InPath name start before items => Some (import_items items before source, if name then start else cursor, (false, false))
  | Elsewhere => None
  end.
