(** Model of the choice of the main file: crates/tinymist/src/input.rs:97-195, server.rs:150-165,340-384,
    lsp.rs:86-98,117-175, lsp/query.rs, cmd.rs:280-307,368-376, tool/preview.rs:160-217 and
    project.rs:81-115,177-178.  Paths and the default entry are those of PathModel and EntryModel. *)
From Coq Require Import List Bool.
From Verif Require Import PathModel EntryModel.
Import ListNotations.

(** Positions in a text stand as numbers; server.rs:80. *)
Definition pos := nat.
(** What depends on the file system (external): which directories have a "typst.toml" (project
    entry.rs:84), and whether the entry made of a path has no main file (world entry.rs:123-125). *)
Record oracles := mkO { o_toml : path -> bool; o_inactive : option path -> bool }.
(** server.rs:66-84: the part of [ServerState] that decides on the main file, with the resolver of the
    settings (config.rs:68-70).  [s_main] is the path from which the task of the primary project was made. *)
Record st := mkSt { s_conf : resolver; s_hasdef : bool; s_main : option path; s_foc : option path; s_pos : option pos;
  s_puser : bool; s_pprev : bool; s_pbrow : bool; s_act : bool; s_man : bool }.
(** Setter, server.rs:66. *)
Definition set_main x s := mkSt (s_conf s) (s_hasdef s) x (s_foc s) (s_pos s) (s_puser s) (s_pprev s) (s_pbrow s) (s_act s) (s_man s).
(** Setter, server.rs:78-80. *)
Definition set_foc x y s := mkSt (s_conf s) (s_hasdef s) (s_main s) x y (s_puser s) (s_pprev s) (s_pbrow s) (s_act s) (s_man s).
(** Setter, server.rs:70. *)
Definition set_puser x s := mkSt (s_conf s) (s_hasdef s) (s_main s) (s_foc s) (s_pos s) x (s_pprev s) (s_pbrow s) (s_act s) (s_man s).
(** input.rs:101-104 [set_pin_by_preview]. *)
Definition set_pin_by_preview x y s := mkSt (s_conf s) (s_hasdef s) (s_main s) (s_foc s) (s_pos s) (s_puser s) x y (s_act s) (s_man s).
(** Setter, server.rs:82. *)
Definition set_act x s := mkSt (s_conf s) (s_hasdef s) (s_main s) (s_foc s) (s_pos s) (s_puser s) (s_pprev s) (s_pbrow s) x (s_man s).
(** Setter, server.rs:84. *)
Definition set_man x s := mkSt (s_conf s) (s_hasdef s) (s_main s) (s_foc s) (s_pos s) (s_puser s) (s_pprev s) (s_pbrow s) (s_act s) x.
(** config.rs:430. *)
Definition is_some {A} (x : option A) : bool := match x with Some _ => true | None => false end.
(** server.rs:120-142 and project.rs:177-178: the primary project starts at the default entry. *)
Definition init (r : resolver) : st :=
  mkSt r (is_some (resolve_default r)) (resolve_default r) None None false false false false false.
(** Equality of optional paths, input.rs:137. *)
Definition same_path (a b : option path) : bool :=
  match a, b with Some a, Some b => path_eqb a b | None, None => true | _, _ => false end.

(** input.rs:107-123 [change_main_file]; false is the error.  (The exception for "/untitled" is for systems
    where such a path is not absolute; it is left out.) *)
Definition change_main_file (p : option path) (s : st) : st * bool :=
  match p with
  | Some q => if is_abs q then (set_main p s, true) else (s, false)
  | None => (set_main p s, true)
  end.
(** [Option::or_else] (standard library), input.rs:129-130. *)
Definition or_else {A} (a b : option A) : option A := match a with Some _ => a | None => b end.
(** input.rs:126-133 [pin_main_file]. *)
Definition pin_main_file (p : option path) (s : st) : st * bool :=
  let s := set_puser (is_some p) s in
  change_main_file (or_else (or_else p (resolve_default (s_conf s))) (s_foc s)) s.
(** input.rs:136-151 [focus_main_file]. *)
Definition focus_main_file (p : option path) (s : st) : st * bool :=
  let s := set_foc p (if same_path p (s_foc s) then s_pos s else None) s in
  if s_puser s || (s_pprev s && negb (s_pbrow s)) || s_hasdef s then (s, true) else change_main_file p s.
(** input.rs:161-193 [implicit_focus_entry]; [activity] is for the sites 'f', 'h' and 't'. *)
Definition implicit_focus_entry (activity : bool) (p : option path) (s : st) : st :=
  if s_man s then s
  else if activity then fst (focus_main_file p (set_act true s))
  else if s_act s then s else fst (focus_main_file p s).
(** server.rs:156-162 [is_pinning]. *)
Definition is_pinning (O : oracles) (s : st) : bool := s_puser s || (s_pprev s && negb (o_inactive O (s_main s))).
(** lsp/query.rs:342-354 [query_on]: the main file for a query on [p]. *)
Definition query_main (O : oracles) (s : st) (p : path) : option path := if is_pinning O s then s_main s else Some p.
(** server.rs:364-383 [infer_pos]. *)
Definition infer_pos (s : st) : option (path * pos) :=
  match s_foc s, s_pos s with Some f, Some p => Some (f, p) | _, _ => None end.
(** tool/preview.rs:160-217, [taken] being whether the preview is registered at the primary project
    (Prev*.v): it then pins the main file, and changes it if there is an entry. *)
Definition start_preview (entry : option path) (browsing taken : bool) (s : st) : st * bool :=
  match entry with
  | Some p => if is_abs p then
                if taken then let '(s, ok) := change_main_file entry s in if ok then (set_pin_by_preview true browsing s, true) else (s, false)
                else (s, true)
              else (s, false)
  | None => if browsing then if taken then (set_pin_by_preview true browsing s, true) else (s, false) else (s, false)
  end.
(** lsp.rs:117-156 and project.rs:81-115: new settings; the projects are made anew if the fonts or the root
    changed ([c] is the cache of the resolver). *)
Definition configure (O : oracles) (r : resolver) (fonts : bool) (c : cache) (s : st) : st :=
  let s' := mkSt r (is_some (resolve_default r)) (s_main s) (s_foc s) (s_pos s) (s_puser s) (s_pprev s) (s_pbrow s) (s_act s) (s_man s) in
  if fonts || restarts (o_toml O) (s_conf s) r c then set_main (resolve_default r) s' else s'.

(** lsp.rs:87,100 (opening and closing), lsp/query.rs:79-146,225-251 (requests), cmd.rs:280-307,375
    (commands), tool/preview.rs:146, server.rs:355 (a preview of the primary project was killed),
    lsp.rs:117. *)
Inductive event :=
| Open (p : path) | CloseDoc (p : path) | Hover (p : path) (x : pos) | Folding (p : path) | Tokens (p : path)
| Complete (p : path) (x : pos) | Signature (p : path) (x : pos)
| Pin (p : option path) | Focus (p : option path) | Preview (entry : option path) (browsing taken : bool) | Unpin
| Configure (r : resolver) (fonts : bool) (c : cache).
(** lsp/query.rs:84,235,249. *)
Definition set_pos (x : pos) (s : st) : st := set_foc (s_foc s) (Some x) s.
(** See [event]; lsp.rs:86-98, lsp/query.rs:79-146,225-251, cmd.rs:280-307, tool/preview.rs:146-217,
    server.rs:355-357, lsp.rs:117-175.  False is an error told to the client. *)
Definition step (O : oracles) (s : st) (e : event) : st * bool :=
  match e with
  | Open p => (implicit_focus_entry false (Some p) s, true)
  | CloseDoc _ => (s, true)
  | Hover p x => (set_pos x (implicit_focus_entry true (Some p) s), true)
  | Folding p | Tokens p => (implicit_focus_entry true (Some p) s, true)
  | Complete _ x | Signature _ x => (set_pos x s, true)
  | Pin p => pin_main_file p s
  | Focus p => focus_main_file p (set_man true s)
  | Preview entry browsing taken => start_preview entry browsing taken s
  | Unpin => (set_pin_by_preview false false s, true)
  | Configure r fonts c => (configure O r fonts c s, true)
  end.
(** A history of the server; driver of [step], server.rs:150. *)
Definition run (O : oracles) (r : resolver) (es : list event) : st := fold_left (fun s e => fst (step O s e)) es (init r).
