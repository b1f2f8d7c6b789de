(** The language-server driver: request queue, response routing, life cycle.

    Models crates/sync-lsp/src/req_queue.rs, crates/sync-lsp/src/server.rs and
    crates/sync-lsp/src/server/lsp_srv.rs.  Request handlers, notification
    handlers and asynchronous tasks belong to the environment: an incoming
    message carries what its handler will do.  JSON payloads are numbers. *)
From Coq Require Import List ZArith Arith Bool.
Import ListNotations.

(** crates/sync-lsp/src/msg.rs:16-36 [RequestId]; strings are abstracted to
    numbers (only equality matters). *)
Inductive req_id := IdNum (z : Z) | IdStr (s : nat).
(** crates/sync-lsp/src/msg.rs:17 (derived [PartialEq]). *)
Definition req_id_eqb (a b : req_id) : bool :=
  match a, b with
  | IdNum x, IdNum y => Z.eqb x y
  | IdStr x, IdStr y => Nat.eqb x y
  | _, _ => false
  end.

(** crates/sync-lsp/src/msg.rs:75-125 [ErrorCode]; the codes the driver uses,
    and [EHandler] for the ones produced by handlers. *)
Inductive code :=
  | EInvalidRequest | EMethodNotFound | EInvalidParams | ENotInitialized
  | EHandler (n : nat).
(** [LspResult<JsonValue>]: crates/sync-lsp/src/server.rs:305 [respond_any_result]. *)
Inductive payload := POk (v : nat) | PErr (c : code).
(** [serde_json::Value::Null]: crates/sync-lsp/src/server.rs:374 (null result). *)
Definition VNull : nat := 0.

(** [SchedulableResponse], crates/sync-lsp/src/lib.rs; [Result<MaybeDone<..>>]. *)
Inductive schedulable := SErr (c : code) | SDone (r : payload) | SFuture | SGone.
(** [ScheduledResult = LspResult<Option<()>>]: crates/sync-lsp/src/server.rs:43. *)
Inductive scheduled := RDone | RNone | RErr (c : code).

(** What a boxed request handler does (server/lsp_srv.rs:125-158):
    [HBadParams] – [from_json(req)?] fails;
    [HSched] – it passes a response to [client.schedule];
    [HRaw] – a raw handler returns [Ok(None)] or an error by itself. *)
Inductive hres := HBadParams | HSched (r : schedulable) | HRaw (e : option code).

(** [tinymist.getResources] (server.rs:617-630) has its own argument vector. *)
Inductive command :=
  | CBadParams                                    (* params do not deserialize *)
  | CUnknown                                      (* no such command *)
  | CCommand (h : hres)
  | CResources (args : list bool) (res : option hres).
     (* [args]: for each argument, does it deserialize to a path;
        [res]: the handler registered for the path, if any *)

(** The request as dispatched on, server/lsp_srv.rs:281-326. *)
Inductive request :=
  | MInitialize (ok : bool) (r : schedulable)     (* params deserialize? / response *)
  | MShutdown (h : hres)                          (* a registered shutdown handler *)
  | MExec (c : command)
  | MOther (h : option hres).                     (* registered handler, if any *)

(** server/lsp_srv.rs:370-402. *)
Inductive notification := NInitialized (ok : bool) | NExit | NOther (handler : bool).

(** Events: messages from the client, internal events, completions of spawned
    tasks, server-to-client requests, closing of the output channel:
    server/lsp_srv.rs:227-268, server.rs:356-362. *)
Inductive event :=
  | EvRequest (tag : nat) (id : req_id) (m : request)
  | EvNotify (n : notification)
  | EvResponse (id : req_id) (v : nat)
  | EvInternal (handled : bool) (err : bool)
  | EvFinish (tag : nat) (r : payload)
  | EvSend (k : nat)
  | EvClose
  | EvRecvError.

(** Observable effects: effects of server.rs and server/lsp_srv.rs:205-402. *)
Inductive out :=
  | OResp (id : req_id) (p : payload)     (* response sent *)
  | OReq (id : Z) (k : nat)               (* server request [k] sent with [id] *)
  | OCall (k : nat) (v : nat)             (* callback of server request [k] runs *)
  | OHandle (tag : nat)                   (* a request handler runs *)
  | OInit (tag : nat)                     (* [Initializer::initialize] runs *)
  | ONotif                                (* a notification handler runs *)
  | OSpawn (tag : nat) (id : req_id)      (* an asynchronous task starts *)
  | OStop                                 (* the main loop returns *)
  | OPanic.                               (* the main loop panics *)

(** server.rs:546-551 [State]; the flag of [Uninitialized] is the option. *)
Inductive phase := Uninitialized (args : bool) | Initializing | Ready | ShuttingDown.

(** crates/sync-lsp/src/server.rs:569-587 [LsDriver], req_queue.rs:17-70 [ReqQueue]. *)
Record st := mkSt {
  s_phase : phase;
  s_running : bool;                 (* the loop of [start_] *)
  s_open : bool;                    (* [sender.upgrade()] succeeds *)
  s_pending : list req_id;          (* keys of [Incoming::pending] *)
  s_tasks : list (nat * req_id);    (* spawned futures *)
  s_next : Z;                       (* [Outgoing::next_id] *)
  s_out : list (Z * nat)            (* [Outgoing::pending] *)
}.
(** server.rs:512-523 [build], req_queue.rs:25-37. *)
Definition init : st := mkSt (Uninitialized true) true true [] [] 0%Z [].

(** Field update of [LsDriver::state], server.rs:572. *)
Definition set_phase (s : st) (p : phase) : st :=
  mkSt p (s_running s) (s_open s) (s_pending s) (s_tasks s) (s_next s) (s_out s).
(** Leaving the loop of server/lsp_srv.rs:227-268. *)
Definition set_running (s : st) (b : bool) : st :=
  mkSt (s_phase s) b (s_open s) (s_pending s) (s_tasks s) (s_next s) (s_out s).
(** [LspClient::sender], server.rs:332-335. *)
Definition set_open (s : st) (b : bool) : st :=
  mkSt (s_phase s) (s_running s) b (s_pending s) (s_tasks s) (s_next s) (s_out s).
(** Field update of [Incoming::pending], req_queue.rs:60. *)
Definition set_pending (s : st) (l : list req_id) : st :=
  mkSt (s_phase s) (s_running s) (s_open s) l (s_tasks s) (s_next s) (s_out s).
(** Tasks spawned at server.rs:356-362. *)
Definition set_tasks (s : st) (l : list (nat * req_id)) : st :=
  mkSt (s_phase s) (s_running s) (s_open s) (s_pending s) l (s_next s) (s_out s).
(** Field updates of [Outgoing], req_queue.rs:67-70. *)
Definition set_outgoing (s : st) (n : Z) (l : list (Z * nat)) : st :=
  mkSt (s_phase s) (s_running s) (s_open s) (s_pending s) (s_tasks s) n l.

(** Hash-map key operations: req_queue.rs:86-88,107-109 (keys of [pending]). *)
Definition mem (id : req_id) (l : list req_id) : bool := existsb (req_id_eqb id) l.
(** [HashMap::remove], req_queue.rs:107-109. *)
Definition remove (id : req_id) (l : list req_id) : list req_id :=
  filter (fun x => negb (req_id_eqb id x)) l.

(** req_queue.rs:74-76 [Incoming::register] through server.rs:291-297. *)
Definition register_request (id : req_id) (s : st) : st :=
  set_pending s (id :: remove id (s_pending s)).

(** server.rs:324-339 [respond] (with req_queue.rs:107-109 [complete]). *)
Definition respond (id : req_id) (p : payload) (s : st) : st * list out :=
  if mem id (s_pending s) then
    (set_pending s (remove id (s_pending s)), if s_open s then [OResp id p] else [])
  else (s, []).

(** server.rs:344-369 [schedule]. *)
Definition schedule (tag : nat) (id : req_id) (r : schedulable) (s : st)
  : st * list out * scheduled :=
  match r with
  | SErr c => (s, [], RErr c)
  | SDone p => (respond id p s, RDone)
  | SFuture => (set_tasks s ((tag, id) :: s_tasks s), [OSpawn tag id], RDone)
  | SGone => (s, [], RDone)
  end.

(** server.rs:372-379 [schedule_tail]. *)
Definition schedule_tail (id : req_id) (r : scheduled) (s : st) : st * list out :=
  match r with
  | RDone => (s, [])
  | RNone => respond id (POk VNull) s
  | RErr c => respond id (PErr c) s
  end.

(** A boxed request handler, server/lsp_srv.rs:125-158. *)
Definition handle (tag : nat) (id : req_id) (h : hres) (s : st) : st * list out * scheduled :=
  match h with
  | HBadParams => (s, [], RErr EInvalidRequest)
  | HSched r => let '(s', o, x) := schedule tag id r s in (s', OHandle tag :: o, x)
  | HRaw None => (s, [OHandle tag], RNone)
  | HRaw (Some c) => (s, [OHandle tag], RErr c)
  end.

(** server/lsp_srv.rs:333-353 [on_execute_command] and server.rs:617-630
    [get_resources]; [None] is the panic of [args[0]]. *)
Definition on_execute_command (tag : nat) (id : req_id) (c : command) (s : st)
  : option (st * list out * scheduled) :=
  match c with
  | CBadParams => Some (s, [], RErr EInvalidParams)
  | CUnknown => Some (s, [], RErr EMethodNotFound)
  | CCommand h => Some (handle tag id h s)
  | CResources [] _ => None
  | CResources (false :: _) _ => Some (s, [], RErr EInvalidParams)
  | CResources (true :: _) None => Some (s, [], RErr EMethodNotFound)
  | CResources (true :: _) (Some h) => Some (handle tag id h s)
  end.

(** Lines 328-329 of server/lsp_srv.rs: schedule and tail. *)
Definition finish_request (tag : nat) (id : req_id) (r : schedulable) (s : st) : st * list out :=
  let '(s1, o1, x) := schedule tag id r s in
  let (s2, o2) := schedule_tail id x s1 in (s2, o1 ++ o2).

(** A panic aborts the process (Cargo.toml:207-210, [panic = "abort"]): the loop
    is over and nothing is sent any more. *)
Definition panic (s : st) : st * list out := (set_open (set_running s false) false, [OPanic]).

(** server/lsp_srv.rs:276-330 [on_lsp_request]. *)
Definition on_request (tag : nat) (id : req_id) (m : request) (s0 : st) : st * list out :=
  let s := register_request id s0 in
  match s_phase s, m with
  | Uninitialized args, MInitialize ok r =>
      if ok then
        if args then
          let (s', o) := finish_request tag id r (set_phase s Initializing) in
          (s', OInit tag :: o)
        else panic s
      else finish_request tag id (SDone (PErr EInvalidRequest)) s
  | (Uninitialized _ | Initializing), _ =>
      finish_request tag id (SDone (PErr ENotInitialized)) s
  | _, MInitialize _ _ => finish_request tag id (SDone (PErr EInvalidRequest)) s
  | Ready, MExec c =>
      match on_execute_command tag id c s with
      | None => panic s
      | Some (s1, o1, RDone) => (s1, o1)
      | Some (s1, o1, RNone) =>
          let (s2, o2) := finish_request tag id (SDone (POk VNull)) s1 in (s2, o1 ++ o2)
      | Some (s1, o1, RErr c) =>
          let (s2, o2) := finish_request tag id (SErr c) s1 in (s2, o1 ++ o2)
      end
  | Ready, MShutdown h =>
      let '(s1, o1, x) := handle tag id h s in
      let (s2, o2) := schedule_tail id x s1 in
      (set_phase s2 ShuttingDown, o1 ++ o2)
  | Ready, MOther None => finish_request tag id (SDone (PErr EMethodNotFound)) s
  | Ready, MOther (Some h) =>
      let '(s1, o1, x) := handle tag id h s in
      let (s2, o2) := schedule_tail id x s1 in (s2, o1 ++ o2)
  | ShuttingDown, _ => finish_request tag id (SDone (PErr EInvalidRequest)) s
  end.

(** server/lsp_srv.rs:356-403 [on_notification] and the exit test at 249-255.
    [handler]/[ok] say whether a handler is registered for the method. *)
Definition on_notification (n : notification) (s : st) : st * list out :=
  match n with
  | NInitialized h =>
      let s' := match s_phase s with Initializing => set_phase s Ready | _ => s end in
      match s_phase s' with
      | Ready => (s', if h then [ONotif] else [])
      | _ => (s', [])
      end
  | NExit => (set_running s false, [OStop])
  | NOther h =>
      match s_phase s with
      | Ready => (s, if h then [ONotif] else [])
      | _ => (s, [])
      end
  end.

(** 32-bit wrap-around of [next_id += 1] (release build): req_queue.rs:114-118. *)
Definition wrap32 (z : Z) : Z := ((z + 2147483648) mod 4294967296 - 2147483648)%Z.

(** req_queue.rs:112-126 [alloc_request_id], [register], through
    server/lsp_srv.rs:36-55 [send_lsp_request_]. *)
Definition send_request (k : nat) (s : st) : st * list out :=
  let id := s_next s in
  let s' := set_outgoing s (wrap32 (id + 1))
    ((id, k) :: filter (fun x => negb (Z.eqb id (fst x))) (s_out s)) in
  (s', if s_open s then [OReq id k] else []).

(** server.rs:264-272 [complete_lsp_request], req_queue.rs:129-131, guarded by
    the state test at server/lsp_srv.rs:256-266. *)
Definition on_response (id : req_id) (v : nat) (s : st) : st * list out :=
  match s_phase s, id with
  | Ready, IdNum z =>
      match find (fun x => Z.eqb z (fst x)) (s_out s) with
      | Some (_, k) =>
          (set_outgoing s (s_next s) (filter (fun x => negb (Z.eqb z (fst x))) (s_out s)), [OCall k v])
      | None => (s, [])
      end
  | _, _ => (s, [])
  end.

(** Completion of a spawned task, server.rs:356-362. *)
Definition on_finish (tag : nat) (r : payload) (s : st) : st * list out :=
  match find (fun x => Nat.eqb tag (fst x)) (s_tasks s) with
  | Some (_, id) =>
      respond id r (set_tasks s (filter (fun x => negb (Nat.eqb tag (fst x))) (s_tasks s)))
  | None => (s, [])
  end.

(** One iteration of the loop in server/lsp_srv.rs:205-272, or one step of a
    background task, or one server-to-client request.  After the loop has
    returned only background activity is left. *)
Definition step (s : st) (e : event) : st * list out :=
  match e with
  | EvFinish tag r => on_finish tag r s
  | EvSend k => send_request k s
  | EvClose => (set_open s false, [])
  | _ =>
      if s_running s then
        match e with
        | EvRequest tag id m => on_request tag id m s
        | EvNotify n => on_notification n s
        | EvResponse id v => on_response id v s
        | EvInternal handled err =>
            (* lines 231-247 *)
            match s_phase s with
            | ShuttingDown => (s, [])
            | _ => if handled && err then (set_running s false, [OStop]) else (s, [])
            end
        | EvRecvError => (set_running s false, [OStop])
        | _ => (s, [])
        end
      else (s, [])
  end.

(** A whole history: the trace pairs every event with what it caused:
    the loop of server/lsp_srv.rs:227-268. *)
Fixpoint run (s : st) (evs : list event) : st * list (event * list out) :=
  match evs with
  | [] => (s, [])
  | e :: r =>
      let (s1, o) := step s e in
      let (s2, tr) := run s1 r in (s2, (e, o) :: tr)
  end.
(** The loop of server/lsp_srv.rs:227-268 from a fresh driver. *)
Definition trace (evs : list event) : list (event * list out) := snd (run init evs).
(** The state after the loop of server/lsp_srv.rs:227-268. *)
Definition final (evs : list event) : st := fst (run init evs).
