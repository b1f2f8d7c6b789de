(** Model of the registration of previews in the language server: crates/tinymist/src/tool/preview.rs,
    crates/tinymist/src/actor/preview.rs, the registry of crates/tinymist/src/project.rs:352-382, and the
    dedicated projects of crates/tinymist-project/src/compiler.rs:456-511. *)
From Coq Require Import List Arith Bool.
From Verif Require Import AssocModel.
Import ListNotations.

(** crates/tinymist/src/tool/preview.rs:30-45 [PreviewKind]. *)
Inductive kind := Regular | Browsing | Background.
(** Task ids and project ids are numbers; the project of a task has the id of the task
    (compiler.rs:476), and 0 is "primary" (compiler.rs:397). *)
Definition primary : nat := 0.
(** The arguments of a start that matter (preview.rs:30-110,158-181,313): whether they parse, the task
    id, the entry file with whether its path is absolute, [--not-primary], and whether
    [--static-file-host] is given and differs from the data plane host. *)
Record args := mkArgs { a_parse : bool; a_task : nat; a_entry : option (nat * bool); a_not_primary : bool; a_static_host : bool }.
(** actor/preview.rs:15-29 [PreviewTab], as far as it matters here, before and after it is built.  [t_sid] is the
    number of the start it comes from; it stands for the identity of the watcher. *)
Record tab := mkTab { t_task : nat; t_pid : nat; t_primary : bool; t_background : bool; t_sid : nat }.
(** actor/preview.rs:31-37 [PreviewRequest]; scrolling changes nothing here. *)
Inductive request := Started (t : tab) | Kill (task : nat) | KillAll.
(** Events to the server thread: preview/compile.rs:31-47. *)
Inductive main := Unpin | Settle (pid : nat) | Compile (pid : nat).
(** The server: the registry (project to task and start; project.rs:355), the tabs (actor/preview.rs:41),
    the futures that start previews (preview.rs:374) with whether they asked for a compilation, the
    queue of the actor and of the server thread, the dedicated projects with the start that made them
    (compiler.rs:381), the two flags of pinning (server.rs:73-76), the entry of the primary project,
    whether the server thread panicked, and the number of starts. *)
Record st := mkSt { watchers : list (nat * (nat * nat)); tabs : list (nat * tab); pending : list (tab * bool); actorq : list request; mainq : list main;
  dedicates : list (nat * nat); pinned : bool * bool; main_entry : option nat; dead : bool; starts : nat }.
(** Of a fresh server, server.rs:115-150. *)
Definition init : st := mkSt [] [] [] [] [] [] (false, false) None false 0.
(** Field updates (no code of their own; compiler.rs:381, server.rs:73). *)
Definition set_watchers s x := mkSt x (tabs s) (pending s) (actorq s) (mainq s) (dedicates s) (pinned s) (main_entry s) (dead s) (starts s).
(** See [set_watchers]; actor/preview.rs:41. *)
Definition set_tabs s x := mkSt (watchers s) x (pending s) (actorq s) (mainq s) (dedicates s) (pinned s) (main_entry s) (dead s) (starts s).
(** See [set_watchers]; preview.rs:374. *)
Definition set_pending s x := mkSt (watchers s) (tabs s) x (actorq s) (mainq s) (dedicates s) (pinned s) (main_entry s) (dead s) (starts s).
(** See [set_watchers]; preview.rs:241. *)
Definition set_actorq s x := mkSt (watchers s) (tabs s) (pending s) x (mainq s) (dedicates s) (pinned s) (main_entry s) (dead s) (starts s).
(** See [set_watchers]; preview/compile.rs:31-47. *)
Definition set_mainq s x := mkSt (watchers s) (tabs s) (pending s) (actorq s) x (dedicates s) (pinned s) (main_entry s) (dead s) (starts s).
(** See [set_watchers]; compiler.rs:381. *)
Definition set_dedicates s x := mkSt (watchers s) (tabs s) (pending s) (actorq s) (mainq s) x (pinned s) (main_entry s) (dead s) (starts s).
(** input.rs:101-104 [set_pin_by_preview]. *)
Definition set_pin s x := mkSt (watchers s) (tabs s) (pending s) (actorq s) (mainq s) (dedicates s) x (main_entry s) (dead s) (starts s).
(** input.rs:107-123 [change_main_file], for absolute paths. *)
Definition set_entry s x := mkSt (watchers s) (tabs s) (pending s) (actorq s) (mainq s) (dedicates s) (pinned s) x (dead s) (starts s).
(** The panic of compiler.rs:466. *)
Definition die s := mkSt (watchers s) (tabs s) (pending s) (actorq s) (mainq s) (dedicates s) (pinned s) (main_entry s) true (starts s).
(** A new watcher, preview.rs:194-195. *)
Definition count_start s := mkSt (watchers s) (tabs s) (pending s) (actorq s) (mainq s) (dedicates s) (pinned s) (main_entry s) (dead s) (S (starts s)).
(** project.rs:361-371 [register]. *)
Definition register (pid task sid : nat) (s : st) : bool * st :=
  match aget pid (watchers s) with Some _ => (false, s) | None => (true, set_watchers s (aset pid (task, sid) (watchers s))) end.
(** project.rs:374-376 [unregister]; the caller only logs the result. *)
Definition unregister (pid : nat) (s : st) : st := set_watchers s (adel pid (watchers s)).
(** compiler.rs:493-511 [remove_dedicates], of the first of that id. *)
Fixpoint remove_first (pid : nat) (l : list (nat * nat)) : list (nat * nat) :=
  match l with [] => [] | x :: r => if pid =? fst x then r else x :: remove_first pid r end.
(** compiler.rs:475-491 [restart_dedicate]. *)
Definition restart_dedicate (pid sid : nat) (s : st) : st := set_dedicates s (remove_first pid (dedicates s) ++ [(pid, sid)]).
(** What the client gets (preview.rs:313-314,393-413,416-438; actor/preview.rs:78-119): an error, a future that will answer, its answer, and the answers to a kill. *)
Inductive out := Err | Future (sid : nat) (is_primary : bool) | Answered (sid : nat) | Killed (task : nat) | NotKilled (task : nat) | NotFound (task : nat).
(** preview.rs:298-414 [PreviewState::start], up to the future. *)
Definition start (a : args) (pid : nat) (prim bg : bool) (sid : nat) (s : st) : st * list out :=
  if a_static_host a then (s, [Err])
  else (set_pending s (pending s ++ [(mkTab (a_task a) pid prim bg sid, false)]), [Future sid prim]).
(** preview.rs:154-245 [start_preview]. *)
Definition start_preview (a : args) (k : kind) (s : st) : st * list out :=
  let bg := match k with Background => true | _ => false end in
  let browsing := match k with Regular => false | _ => true end in
  if negb (a_parse a) then (s, [Err])
  else if match a_entry a with Some (_, abs) => negb abs | None => false end then (s, [Err])
  else if a_task a =? primary then (s, [Err])
  else if a_not_primary a && bg then (s, [Err])
  else
    let sid := starts s in
    let s := count_start s in
    let '(registered, s) := if negb (a_not_primary a) && (browsing || match a_entry a with Some _ => true | None => false end) then register primary (a_task a) sid s else (false, s) in
    if bg && negb registered then (s, [Err])
    else if registered then
      let s := match a_entry a with Some (e, _) => set_entry s (Some e) | None => s end in
      start a primary true bg sid (set_pin s (true, browsing))
    else match a_entry a with
         | None => (s, [Err])
         | Some (e, _) =>
             let '(ok, s) := register (a_task a) (a_task a) sid (restart_dedicate (a_task a) sid s) in
             if ok then start a (a_task a) false bg sid s else (s, [Err])
         end.
(** cmd.rs:358-367 [kill_preview] with utils.rs:14-32 [get_arg], for arguments that are strings. *)
Definition kill_preview (l : list nat) (s : st) : st * list out :=
  match nth_error l 0 with
  | None => (s, [Err])
  | Some t => (set_actorq s (actorq s ++ [match l with [] => KillAll | _ => Kill t end]), [])
  end.
(** actor/preview.rs:75-121 [kill]. *)
Definition kill (t : nat) (s : st) : st * list out :=
  match aget t (tabs s) with
  | None => (s, [NotFound t])
  | Some x =>
      if t_background x then (s, [NotKilled t])
      else
        let s := unregister (t_pid x) (set_tabs s (adel t (tabs s))) in
        (set_mainq s (mainq s ++ [if t_primary x then Unpin else Settle (t_pid x)]), [Killed t])
  end.
(** actor/preview.rs:60-66: the loop of [KillAll]; the order of the keys of a hash map is arbitrary,
    the order in the list stands for it. *)
Fixpoint kill_list (l : list nat) (s : st) : st * list out :=
  match l with [] => (s, []) | t :: l => let '(s, o) := kill t s in let '(s, o') := kill_list l s in (s, o ++ o') end.
(** actor/preview.rs:48-73 [run], one request. *)
Definition handle (r : request) (s : st) : st * list out :=
  match r with
  | Started t => (set_tabs s (aset (t_task t) t (tabs s)), [])
  | Kill t => kill t s
  | KillAll => kill_list (akeys (tabs s)) s
  end.
(** preview.rs:279-292 [stop_all]. *)
Definition stop_all (s : st) : st := set_watchers (set_actorq s (actorq s ++ map (fun x => Kill (fst (snd x))) (watchers s))) [].
(** project.rs:81-115 [reload_projects]: the new state has no dedicated projects. *)
Definition reload (s : st) : st := set_dedicates (stop_all s) [].
(** compiler.rs:457-467,526-534,551-553 and server.rs:355-357: an event on the server thread. *)
Definition serve (e : main) (s : st) : st :=
  match e with
  | Unpin => set_pin s (false, false)
  | Settle pid => set_dedicates s (remove_first pid (dedicates s))
  | Compile pid => if (pid =? primary) || existsb (fun x => pid =? fst x) (dedicates s) then s else die s
  end.
(** The future of a start (preview.rs:374-413). *)
Definition is_sid (i : nat) (x : tab * bool) : bool := t_sid (fst x) =? i.
(** Events: commands of the client, the steps of a future (the previewer is built and a compilation
    asked for, preview.rs:375-380; then the address is bound or binding panics, http.rs:35-37; then the tab is
    sent, preview.rs:400-411), the shutdown of a preview by itself (preview.rs:356-370), a change of the
    options (lsp.rs:151-155), and the two receivers. *)
Inductive event := EStart (a : args) (k : kind) | EBuilt (sid : nat) | EBound (sid : nat) | EFail (sid : nat) | EKill (l : list nat) | EShutdown (task : nat) | EReload | EActor | EMain.
(** One event; a dead server thread takes no more commands and events (the actor lives on).  preview.rs:154-440, actor/preview.rs:48-73. *)
Definition step (s : st) (e : event) : st * list out :=
  match e with
  | EStart a k => if dead s then (s, []) else start_preview a k s
  | EKill l => if dead s then (s, []) else kill_preview l s
  | EReload => if dead s then (s, []) else (reload s, [])
  | EMain => match mainq s with [] => (s, []) | e :: q => if dead s then (s, []) else (serve e (set_mainq s q), []) end
  | EActor => match actorq s with [] => (s, []) | r :: q => handle r (set_actorq s q) end
  | EShutdown t => (set_actorq s (actorq s ++ [Kill t]), [])
  | EBuilt i =>
      match find (is_sid i) (pending s) with
      | Some (t, false) => (set_mainq (set_pending s (map (fun x => if is_sid i x then (fst x, true) else x) (pending s))) (mainq s ++ [Compile (t_pid t)]), [])
      | _ => (s, [])
      end
  | EBound i =>
      match find (is_sid i) (pending s) with
      | Some (t, true) => (set_actorq (set_pending s (filter (fun x => negb (is_sid i x)) (pending s))) (actorq s ++ [Started t]), [Answered i])
      | _ => (s, [])
      end
  | EFail i =>
      match find (is_sid i) (pending s) with
      | Some (t, true) => (set_pending s (filter (fun x => negb (is_sid i x)) (pending s)), [])
      | _ => (s, [])
      end
  end.
(** A history from a fresh server; actor/preview.rs:48. *)
Fixpoint run (s : st) (l : list event) : st * list out :=
  match l with [] => (s, []) | e :: l => let '(s, o) := step s e in let '(s, o') := run s l in (s, o ++ o') end.
