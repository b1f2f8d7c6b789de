(** Model of the debug adapter: crates/tinymist/src/dap.rs, crates/tinymist/src/dap/request.rs,
    crates/tinymist/src/dap/init.rs, crates/tinymist/src/server.rs:307-325 and the driver
    crates/sync-lsp/src/server/dap_srv.rs, with crates/sync-lsp/src/req_queue.rs.

    What files have and what typst computes belongs to the environment. *)
From Coq Require Import List ZArith Arith Bool.
Import ListNotations.

(** What a snapshot of the project gives (dap/request.rs:107-117,196-212): the main file, the length of
    a source if it can be read, and the value of an expression at the end of a source, if both evaluate. *)
Record world := mkWorld { w_main : option nat; w_source : nat -> option nat; w_value : nat -> nat -> option nat }.
(** The project when a request arrives (dap/request.rs:96-107): the snapshot for a program and a root,
    or [None] if there is none, in which case dap/request.rs:107 panics. *)
Definition env := nat -> nat -> option world.
(** dap/request.rs:165-174 [LaunchDebugArguments]; [Malformed] is what does not deserialize to them. *)
Inductive largs := Malformed | Args (program root : nat) (stop : option bool).
(** The requests with a handler (server.rs:313-324) and [initialize]; [Other] is another command. *)
Inductive request :=
| Initialize | ConfigurationDone | Disconnect | Terminate | TerminateThreads (ids : option (list nat))
| Attach (a : largs) | Launch (a : largs) | Evaluate (e : nat) | Completions | Threads | Other (command : nat).
(** [dap::Request] (dapts); [m_valid] is whether the arguments deserialize for the command (sync-lsp/src/server.rs:675-677, dap_srv.rs:188). *)
Record message := mkMessage { m_seq : Z; m_req : request; m_valid : bool }.
(** sync-lsp/src/msg.rs:75-125 [ErrorCode], those used here. *)
Inductive error := ENotInitialized | EInvalidRequest | EMethodNotFound | EInternal | EInvalidParams.
(** The bodies of responses (dap/request.rs:183-188,214-218,233, init.rs:71-134). *)
Inductive body := BNothing | BCapabilities | BThreads (ids : list nat) | BValue (v : nat) | BTargets (l : list nat).
(** [ProcessEventStartMethod] (dapts), dap/request.rs:74,82. *)
Inductive method := MAttach | MLaunch.
(** The events sent (dap/request.rs:44-45,133-158, init.rs:140-142). *)
Inductive event := Initialized | Process (m : method) | ThreadStarted (id : nat) | Stopped (id : nat) | Terminated.
(** What the client receives: [dap::Event] with its number (dap_srv.rs:7-11) and [dap::Response] with the number of the request (sync-lsp/src/server.rs:313-317). *)
Inductive out := OEvent (seq : Z) (e : event) | OResponse (to : Z) (r : body + error).
(** dap.rs:34-49 [DebugSession], without the configuration. *)
Record session := mkSession { s_world : world; s_thread : nat; s_stop : bool; s_source : nat; s_position : nat }.
(** [State] of the driver (dap_srv.rs:143-150,182-254; it is never [Initializing]); [Crashed] is after a panic. *)
Inductive life := Uninitialized | Ready (s : option session) | ShuttingDown | Crashed.
(** The driver with its queue of requests (req_queue.rs:15-35): the next number for an event and the requests to answer. *)
Record state := mkState { life_of : life; next_id : Z; pending : list Z }.
(** req_queue.rs:25-35. *)
Definition init : state := mkState Uninitialized 0 [].
(** [req.seq as i32], dap_srv.rs:178. *)
Definition as_i32 (z : Z) : Z := ((z + 2147483648) mod 4294967296 - 2147483648)%Z.
(** What a handler does ([AsyncHandler], sync-lsp/src/server.rs:407): it panics, or changes the session, sends events and returns a result. *)
Inductive effect := Panics | Does (s : option session) (es : list event) (r : body + error).
(** dap/request.rs:51-65 [terminate_debug_thread]: whether the session ends. *)
Definition ends_threads (ids : option (list nat)) : bool :=
  match ids with None | Some [] => false | Some l => forallb (Nat.eqb 1) l end.
(** dap/request.rs:85-161 [launch_debug_]. *)
Definition launch (v : env) (m : method) (a : largs) (s : option session) : effect :=
  match a with
  | Malformed => Panics
  | Args program root stop =>
      match v program root with
      | None => Panics
      | Some w =>
          match w_main w with
          | None => Does s [] (inr EInternal)
          | Some main =>
              match w_source w main with
              | None => Does s [] (inr EInvalidRequest)
              | Some len =>
                  let n := mkSession w 1 (match stop with Some b => b | None => false end) main len in
                  Does (Some n) [Process m; ThreadStarted (s_thread n); Stopped (s_thread n)] (inl BNothing)
              end
          end
      end
  end.
(** dap/request.rs:22-234: the handlers, as server.rs:315-324 registers them; [None] is a command without a handler. *)
Definition handle (v : env) (r : request) (s : option session) : option effect :=
  match r with
  | Initialize | Other _ => None
  | ConfigurationDone => Some (Does s [] (inl BNothing))
  | Disconnect => Some (Does None [] (inl BNothing))
  | Terminate => Some (Does None [Terminated] (inl BNothing))
  | TerminateThreads ids => Some (Does (if ends_threads ids then None else s) [] (inl BNothing))
  | Attach a => Some (launch v MAttach a s)
  | Launch a => Some (launch v MLaunch a s)
  | Evaluate e =>
      Some (match s with
            | None => Does s [] (inr EInvalidRequest)
            | Some n => Does s [] (match w_value (s_world n) (s_source n) e with None => inr EInvalidParams | Some x => inl (BValue x) end)
            end)
  | Completions => Some (match s with None => Does s [] (inr EInternal) | Some _ => Does s [] (inl (BTargets [])) end)
  | Threads => Some (Does s [] (inl (BThreads [1])))
  end.
(** dap_srv.rs:7-22 [send_dap_event], for a list of events, with req_queue.rs:114-118 [alloc_request_id]. *)
Fixpoint number (n : Z) (es : list event) : Z * list out :=
  match es with
  | [] => (n, [])
  | e :: es => let '(m, os) := number (n + 1)%Z es in (m, OEvent n e :: os)
  end.
(** sync-lsp/src/server.rs:324-339 [respond], with req_queue.rs:107-109 [complete]. *)
Definition respond (id : Z) (r : body + error) (ps : list Z) : list Z * list out :=
  if existsb (Z.eqb id) ps then (filter (fun x => negb (Z.eqb x id)) ps, [OResponse id r]) else (ps, []).
(** dap_srv.rs:177-258 [on_request]: the new life, the events and the result. *)
Definition serve (v : env) (m : message) (l : life) : life * list event * option (body + error) :=
  match l, m_req m with
  | Crashed, _ => (Crashed, [], None)
  | Uninitialized, Initialize => if m_valid m then (Ready None, [Initialized], Some (inl BCapabilities)) else (l, [], Some (inr EInvalidRequest))
  | Uninitialized, _ => (l, [], Some (inr ENotInitialized))
  | (Ready _ | ShuttingDown), Initialize => (l, [], Some (inr EInvalidRequest))
  | Ready s, r =>
      match handle v r s with
      | None => (l, [], Some (inr EMethodNotFound))
      | Some f =>
          let after s := match r with Disconnect => ShuttingDown | _ => Ready s end in
          if m_valid m then match f with Panics => (Crashed, [], None) | Does s es r => (after s, es, Some r) end
          else (after s, [], Some (inr EInvalidRequest))
      end
  | ShuttingDown, _ => (l, [], Some (inr EInvalidRequest))
  end.
(** dap_srv.rs:177-258: one request, with its registration (sync-lsp/src/server.rs:291-297, req_queue.rs:74-77) and the one response
    (sync-lsp/src/server.rs:344-379: [schedule] responds to what is done, [schedule_tail] only to what is not). *)
Definition step (v : env) (m : message) (s : state) : state * list out :=
  let id := as_i32 (m_seq m) in
  let ps := id :: filter (fun x => negb (Z.eqb x id)) (pending s) in
  let '(l, es, r) := serve v m (life_of s) in
  let '(n, os) := number (next_id s) es in
  match r with
  | None => (mkState l n match life_of s with Crashed => pending s | _ => ps end, os)
  | Some r => let '(ps, o) := respond id r ps in (mkState l n ps, os ++ o)
  end.
(** dap_srv.rs:133-172: the loop over the messages. *)
Fixpoint run (s : state) (ms : list (env * message)) : state * list out :=
  match ms with
  | [] => (s, [])
  | (v, m) :: ms => let '(s, a) := step v m s in let '(s, b) := run s ms in (s, a ++ b)
  end.
(** The commands that the capabilities announce (init.rs:71-134), as the protocol ties them to the flags:
    [configurationDone], [evaluate], [completions] and those without a handler, numbered: 0 [dataBreakpointInfo], 1 [setDataBreakpoints],
    2 [breakpointLocations], 3 [stepInTargets], 4 [setFunctionBreakpoints], 5 [setExceptionBreakpoints]. *)
Definition announced : list request := [ConfigurationDone; Evaluate 0; Completions; Other 0; Other 1; Other 2; Other 3; Other 4; Other 5].
