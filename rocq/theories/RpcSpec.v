(** Vocabulary over traces: what a client can observe. *)
From Coq Require Import List ZArith Arith Bool.
From Verif Require Import RpcModel.
Import ListNotations.

Definition trace_t := list (event * list out).

Definition outs (tr : trace_t) : list out := concat (map snd tr).

(** The main loop is over. *)
Definition ends (o : list out) : bool :=
  existsb (fun x => match x with OStop | OPanic => true | _ => false end) o.
Definition alive (evs : list event) : Prop := ends (outs (trace evs)) = false.

(** Number of requests received with an id, as long as the loop runs. *)
Fixpoint requests (id : req_id) (tr : trace_t) : nat :=
  match tr with
  | [] => 0
  | (e, o) :: r =>
      (match e with EvRequest _ i _ => if req_id_eqb id i then 1 else 0 | _ => 0 end)
      + (if ends o then 0 else requests id r)
  end.

(** Number of responses sent with an id. *)
Definition is_resp (id : req_id) (o : out) : bool :=
  match o with OResp i _ => req_id_eqb id i | _ => false end.
Definition responses (id : req_id) (tr : trace_t) : nat :=
  length (filter (is_resp id) (outs tr)).

(** Number of asynchronous handlers started for an id that are not finished. *)
Fixpoint working (id : req_id) (tr : trace_t) : nat :=
  match tr with
  | [] => 0
  | (_, o) :: r =>
      length (filter (fun x => match x with
        | OSpawn t i => req_id_eqb id i &&
            negb (existsb (fun p => match fst p with EvFinish t' _ => Nat.eqb t t' | _ => false end) r)
        | _ => false end) o)
      + working id r
  end.

(** Server requests sent, with their ids; callbacks run. *)
Definition sent (tr : trace_t) : list (Z * nat) :=
  concat (map (fun o => match o with OReq i k => [(i, k)] | _ => [] end) (outs tr)).
Definition called (tr : trace_t) : list nat :=
  concat (map (fun o => match o with OCall k _ => [k] | _ => [] end) (outs tr)).
Definition allocs (evs : list event) : nat :=
  length (filter (fun e => match e with EvSend _ => true | _ => false end) evs).
Definition sends (evs : list event) : list nat :=
  concat (map (fun e => match e with EvSend k => [k] | _ => [] end) evs).

(** Tags name requests uniquely. *)
Definition tags (evs : list event) : list nat :=
  concat (map (fun e => match e with EvRequest t _ _ => [t] | _ => [] end) evs).

(** No handler loses its response ([MaybeDone::Gone]). *)
Definition hres_ok (h : hres) : Prop := h <> HSched SGone.
Definition request_ok (m : request) : Prop :=
  match m with
  | MInitialize _ r => r <> SGone
  | MShutdown h => hres_ok h
  | MExec (CCommand h) => hres_ok h
  | MExec (CResources _ (Some h)) => hres_ok h
  | MOther (Some h) => hres_ok h
  | _ => True
  end.
Definition event_ok (e : event) : Prop :=
  match e with EvRequest _ _ m => request_ok m | EvClose => False | _ => True end.

(** The client reuses an id only after it has been answered. *)
Definition distinct_in_flight (evs : list event) : Prop :=
  forall pre tag id m post, evs = pre ++ EvRequest tag id m :: post ->
    requests id (trace pre) = responses id (trace pre).

(** The handshake: initialize has succeeded, and later the client has sent the
    initialized notification. *)
Definition handshake (evs : list event) : Prop :=
  exists pre h post tag, evs = pre ++ EvNotify (NInitialized h) :: post /\
    In (OInit tag) (outs (trace pre)) /\ alive pre.
(** A shutdown request has been received after the handshake. *)
Definition shut (evs : list event) : Prop :=
  exists pre tag id h post, evs = pre ++ EvRequest tag id (MShutdown h) :: post /\
    handshake pre /\ alive pre.

(** What a client expects as the immediate answer of a request in service;
    [None]: the handler works asynchronously (or gave its response away). *)
Definition handler_answer (h : hres) : option payload :=
  match h with
  | HBadParams => Some (PErr EInvalidRequest)
  | HSched (SErr c) => Some (PErr c)
  | HSched (SDone p) => Some p
  | HSched _ => None
  | HRaw None => Some (POk VNull)
  | HRaw (Some c) => Some (PErr c)
  end.
Definition expected (m : request) : option payload :=
  match m with
  | MInitialize _ _ => Some (PErr EInvalidRequest)
  | MShutdown h | MOther (Some h) | MExec (CCommand h) => handler_answer h
  | MOther None | MExec CUnknown => Some (PErr EMethodNotFound)
  | MExec CBadParams | MExec (CResources (false :: _) _) => Some (PErr EInvalidParams)
  | MExec (CResources (true :: _) None) => Some (PErr EMethodNotFound)
  | MExec (CResources (true :: _) (Some h)) => handler_answer h
  | MExec (CResources [] _) => None
  end.
(** The responses among some effects. *)
Definition answers (o : list out) : list (req_id * payload) :=
  concat (map (fun x => match x with OResp i p => [(i, p)] | _ => [] end) o).
(** The request handler that is expected to run for a request in service. *)
Definition reaches_handler (m : request) : bool :=
  match m with
  | MShutdown h | MOther (Some h) | MExec (CCommand h) | MExec (CResources (true :: _) (Some h)) =>
      match h with HBadParams => false | _ => true end
  | _ => false
  end.
