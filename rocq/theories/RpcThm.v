(** Theorems about the request queue, response routing and life cycle of the
    language-server driver (C10-C13, C54). *)
From Coq Require Import List ZArith Arith Bool Lia.
From Verif Require Import RpcModel RpcSpec RpcProof.
Import ListNotations.

(** A complete session used by the examples: initialize, initialized, a
    synchronous request, an asynchronous one that the client answers a server
    request in between, a failing one, shutdown, exit. *)
Definition session : list event :=
  [ EvRequest 1 (IdNum 1) (MInitialize true (SDone (POk 7)));
    EvNotify (NInitialized true);
    EvRequest 2 (IdNum 2) (MOther (Some (HSched SFuture)));
    EvSend 50;
    EvRequest 3 (IdStr 9) (MExec (CCommand (HSched (SDone (POk 5)))));
    EvResponse (IdNum 0) 77;
    EvSend 51;
    EvFinish 2 (POk 6);
    EvRequest 4 (IdNum 2) (MOther None);
    EvRequest 5 (IdNum 6) (MOther (Some (HSched SFuture))) ].
Definition session_end : list event :=
  session ++ [ EvRequest 6 (IdNum 3) (MShutdown (HSched (SDone (POk 0))));
    EvRequest 7 (IdNum 4) (MOther (Some (HRaw None))) ].

(** C10: never more responses than requests, for every id and every history. *)
Theorem C10_at_most_one_response : forall id evs,
  responses id (trace evs) <= requests id (trace evs).
Proof. exact at_most_one. Qed.
Print Assumptions C10_at_most_one_response.
Example C10_nonvacuous :
  responses (IdNum 2) (trace session) = 2 /\ requests (IdNum 2) (trace session) = 2 /\
  (* reusing an id in flight loses one response but never adds one *)
  let dup := [ EvRequest 1 (IdNum 1) (MInitialize true (SDone (POk 7))); EvNotify (NInitialized true);
    EvRequest 2 (IdNum 2) (MOther (Some (HSched SFuture))); EvRequest 3 (IdNum 2) (MOther (Some (HSched SFuture)));
    EvFinish 3 (POk 1); EvFinish 2 (POk 2) ] in
  responses (IdNum 2) (trace dup) = 1 /\ requests (IdNum 2) (trace dup) = 2.
Proof. vm_compute. auto. Qed.

(** C11: as long as the process has not panicked, every request received so far
    has been answered exactly once, except the ones whose asynchronous handler
    is still working.  There is no cancellation in the driver: a
    [$/cancelRequest] is an ordinary notification ([EvNotify (NOther _)]). *)
Theorem C11_every_request_answered : forall evs,
  distinct_in_flight evs -> NoDup (tags evs) -> Forall event_ok evs ->
  ~ In OPanic (outs (trace evs)) ->
  forall id, requests id (trace evs) = responses id (trace evs) + working id (trace evs).
Proof. exact accounting. Qed.
Print Assumptions C11_every_request_answered.

(** C11, completion: when an asynchronous handler finishes, its result is sent. *)
Theorem C11_finish_answers : forall evs tag id r,
  distinct_in_flight evs -> NoDup (tags evs) -> Forall event_ok evs ->
  ~ In OPanic (outs (trace evs)) ->
  In (OSpawn tag id) (outs (trace evs)) -> (forall r', ~ In (EvFinish tag r') evs) ->
  snd (step (final evs) (EvFinish tag r)) = [OResp id r].
Proof. exact finish_answer. Qed.
Print Assumptions C11_finish_answers.

(** Decidable version of [distinct_in_flight] for the examples. *)
Fixpoint dif (pre evs : list event) : bool :=
  match evs with
  | [] => true
  | e :: r =>
      (match e with EvRequest _ id _ => Nat.eqb (requests id (trace pre)) (responses id (trace pre)) | _ => true end)
      && dif (pre ++ [e]) r
  end.
Lemma dif_ok evs : forall pre, dif pre evs = true ->
  forall p tag id m post, evs = p ++ EvRequest tag id m :: post ->
    requests id (trace (pre ++ p)) = responses id (trace (pre ++ p)).
Proof.
  induction evs as [|e evs IH]; intros pre H p tag id m post E; [destruct p; discriminate|].
  cbn in H. apply andb_prop in H as [H1 H2]. destruct p as [|x p].
  - cbn in E. inversion E; subst. rewrite app_nil_r. apply Nat.eqb_eq; auto.
  - cbn in E. inversion E; subst. replace (pre ++ x :: p) with ((pre ++ [x]) ++ p) by (rewrite <- app_assoc; reflexivity).
    eapply IH; eauto.
Qed.
Example C11_nonvacuous :
  distinct_in_flight session /\ NoDup (tags session) /\ Forall event_ok session /\
  ~ In OPanic (outs (trace session)) /\
  requests (IdNum 6) (trace session) = 1 /\ working (IdNum 6) (trace session) = 1 /\
  requests (IdNum 2) (trace session) = 2 /\ working (IdNum 2) (trace session) = 0 /\
  In (OSpawn 5 (IdNum 6)) (outs (trace session)) /\
  snd (step (final session) (EvFinish 5 (PErr (EHandler 1)))) = [OResp (IdNum 6) (PErr (EHandler 1))].
Proof.
  repeat apply conj.
  2-10: try (lazymatch goal with |- _ = _ => vm_compute; reflexivity end).
  - intros pre tag id m post E. apply (dif_ok session [] eq_refl _ _ _ _ _ E).
  - vm_compute. repeat constructor; cbn; intuition discriminate.
  - repeat constructor; try discriminate.
  - vm_compute. intuition discriminate.
  - vm_compute. tauto.
Qed.

(** C12: requests before a successful initialize are refused. *)
Theorem C12_before_initialize : forall evs tag id m,
  alive evs -> ~ In EvClose evs ->
  (forall t, ~ In (OInit t) (outs (trace evs))) -> (forall ok r, m <> MInitialize ok r) ->
  snd (step (final evs) (EvRequest tag id m)) = [OResp id (PErr ENotInitialized)].
Proof. exact before_initialize. Qed.
Print Assumptions C12_before_initialize.

(** C12: a malformed initialize is refused and does not count. *)
Theorem C12_bad_initialize : forall evs tag id r,
  alive evs -> ~ In EvClose evs -> (forall t, ~ In (OInit t) (outs (trace evs))) ->
  snd (step (final evs) (EvRequest tag id (MInitialize false r))) = [OResp id (PErr EInvalidRequest)].
Proof. exact bad_initialize. Qed.
Print Assumptions C12_bad_initialize.

(** C12: the first well-formed initialize is served... *)
Theorem C12_first_initialize : forall evs tag id v,
  alive evs -> ~ In EvClose evs -> (forall t, ~ In (OInit t) (outs (trace evs))) ->
  snd (step (final evs) (EvRequest tag id (MInitialize true (SDone (POk v))))) = [OInit tag; OResp id (POk v)].
Proof. exact first_initialize. Qed.
Print Assumptions C12_first_initialize.

(** ... and no other one. *)
Theorem C12_initialize_once : forall evs,
  length (filter (fun o => match o with OInit _ => true | _ => false end) (outs (trace evs))) <= 1.
Proof. exact init_once. Qed.
Print Assumptions C12_initialize_once.

(** C12: between initialize and the initialized notification everything is
    refused, a second initialize included. *)
Theorem C12_before_initialized : forall evs tag id m t,
  alive evs -> ~ In EvClose evs -> In (OInit t) (outs (trace evs)) -> ~ handshake evs ->
  snd (step (final evs) (EvRequest tag id m)) = [OResp id (PErr ENotInitialized)].
Proof. exact before_initialized. Qed.
Print Assumptions C12_before_initialized.

(** C12: initialize after the handshake is an invalid request. *)
Theorem C12_second_initialize : forall evs tag id ok r,
  alive evs -> ~ In EvClose evs -> handshake evs ->
  snd (step (final evs) (EvRequest tag id (MInitialize ok r))) = [OResp id (PErr EInvalidRequest)].
Proof. exact second_initialize. Qed.
Print Assumptions C12_second_initialize.

(** C12: after shutdown every request is an invalid request. *)
Theorem C12_after_shutdown : forall evs tag id m,
  alive evs -> ~ In EvClose evs -> shut evs ->
  snd (step (final evs) (EvRequest tag id m)) = [OResp id (PErr EInvalidRequest)].
Proof. exact after_shutdown. Qed.
Print Assumptions C12_after_shutdown.

(** C12: request handlers, notification handlers and response callbacks run only
    after the handshake and before (or for) the shutdown request. *)
Theorem C12_service_window : forall evs e x,
  In x (snd (step (final evs) e)) ->
  match x with OHandle _ | ONotif | OCall _ _ => true | _ => false end = true ->
  handshake (evs ++ [e]) /\ ~ shut evs.
Proof. exact service_window. Qed.
Print Assumptions C12_service_window.

(** C12: after exit, a receive error or a panic, messages have no effect. *)
Theorem C12_after_exit : forall evs e, ~ alive evs ->
  (match e with EvFinish _ _ | EvSend _ => False | _ => True end) ->
  snd (step (final evs) e) = [] /\ s_running (fst (step (final evs) e)) = false.
Proof. exact after_end. Qed.
Print Assumptions C12_after_exit.

Lemma session_handshake : handshake session.
Proof.
  exists (firstn 1 session), true, (skipn 2 session), 1. repeat split; vm_compute; auto.
Qed.
Example C12_nonvacuous :
  (* before initialize *)
  alive [] /\ ~ In EvClose [] /\ (forall t, ~ In (OInit t) (outs (trace []))) /\
  (* between initialize and initialized *)
  alive (firstn 1 session) /\ In (OInit 1) (outs (trace (firstn 1 session))) /\ ~ handshake (firstn 1 session) /\
  (* in service *)
  alive session /\ handshake session /\ In (OHandle 3) (outs (trace session)) /\
  (* after shutdown *)
  alive session_end /\ ~ In EvClose session_end /\ shut session_end /\
  (* after exit *)
  ~ alive (session_end ++ [EvNotify NExit]).
Proof.
  split; [reflexivity|]. split; [intros []|]. split; [intros t []|].
  split; [reflexivity|]. split; [vm_compute; auto|]. split.
  { intros (pre & h & post & tag & E & Hi & _). destruct pre as [|x [|y pre]]; cbn in E; try discriminate. }
  split; [reflexivity|]. split; [exact session_handshake|]. split; [vm_compute; tauto|].
  split; [reflexivity|]. split; [vm_compute; intuition discriminate|]. split.
  { exists session, 6, (IdNum 3), (HSched (SDone (POk 0))), [EvRequest 7 (IdNum 4) (MOther (Some (HRaw None)))].
    split; [reflexivity|]. split; [exact session_handshake|reflexivity]. }
  vm_compute. discriminate.
Qed.

(** C13: server request ids are pairwise different until the 32-bit counter has
    gone round. *)
Theorem C13_ids_distinct : forall evs, (Z.of_nat (allocs evs) <= 4294967296)%Z ->
  NoDup (map fst (sent (trace evs))).
Proof. exact ids_distinct. Qed.
Print Assumptions C13_ids_distinct.

(** C13: each callback runs at most once (even when ids wrap around). *)
Theorem C13_callback_once : forall evs, NoDup (sends evs) -> NoDup (called (trace evs)).
Proof. exact callback_once. Qed.
Print Assumptions C13_callback_once.

(** C13: a callback runs only on a response with the id its request was sent
    with, and gets the value of that response. *)
Theorem C13_callback_cause : forall evs e k v, ~ In EvClose evs ->
  In (OCall k v) (snd (step (final evs) e)) ->
  exists z, e = EvResponse (IdNum z) v /\ In (z, k) (sent (trace evs)).
Proof. exact call_cause. Qed.
Print Assumptions C13_callback_cause.

(** C13: in service, the first response to a request runs its callback. *)
Theorem C13_response_delivered : forall evs z k v, (Z.of_nat (allocs evs) <= 4294967296)%Z ->
  alive evs -> handshake evs -> ~ shut evs ->
  In (z, k) (sent (trace evs)) -> ~ In k (called (trace evs)) ->
  snd (step (final evs) (EvResponse (IdNum z) v)) = [OCall k v].
Proof. exact response_delivered. Qed.
Print Assumptions C13_response_delivered.

(** C13: responses with unknown ids, and repeated responses, do nothing. *)
Theorem C13_response_ignored : forall evs id v, ~ In EvClose evs -> NoDup (sends evs) ->
  (forall z k, id = IdNum z -> In (z, k) (sent (trace evs)) -> In k (called (trace evs))) ->
  snd (step (final evs) (EvResponse id v)) = [].
Proof. exact response_ignored. Qed.
Print Assumptions C13_response_ignored.

Example C13_nonvacuous :
  (Z.of_nat (allocs session) <= 4294967296)%Z /\ NoDup (sends session) /\ ~ In EvClose session /\
  sent (trace session) = [(0%Z, 50); (1%Z, 51)] /\ called (trace session) = [50] /\
  alive session /\ handshake session /\ ~ shut session /\
  snd (step (final session) (EvResponse (IdNum 1) 3)) = [OCall 51 3] /\
  snd (step (final session) (EvResponse (IdNum 0) 3)) = [] /\
  snd (step (final session) (EvResponse (IdNum 8) 3)) = [].
Proof.
  repeat apply conj; try (lazymatch goal with |- _ = _ => vm_compute; reflexivity | |- alive _ => reflexivity end).
  - vm_compute; discriminate.
  - vm_compute. repeat constructor; cbn; intuition discriminate.
  - vm_compute; intuition discriminate.
  - exact session_handshake.
  - intros (pre & tag & id & h & post & E & _).
    assert (Hi : In (EvRequest tag id (MShutdown h)) session) by (rewrite E; apply in_elt).
    vm_compute in Hi. intuition discriminate.
Qed.

(** C54: false: an execute-command request [tinymist.getResources] without
    arguments indexes an empty vector. *)
Theorem C54_no_request_panics_refuted : exists evs tag id m,
  alive evs /\ handshake evs /\ ~ shut evs /\
  In OPanic (snd (step (final evs) (EvRequest tag id m))).
Proof.
  exists session, 9, (IdNum 9), (MExec (CResources [] None)).
  split; [reflexivity|]. split; [exact session_handshake|]. split; [|vm_compute; auto].
  intros (pre & tag & id & h & post & E & _).
  assert (Hi : In (EvRequest tag id (MShutdown h)) session) by (rewrite E; apply in_elt).
  vm_compute in Hi. intuition discriminate.
Qed.
Print Assumptions C54_no_request_panics_refuted.

(** C54: nothing else makes the driver itself panic; in particular the
    [expect("already initialized")] never fires. *)
Theorem C54_only_get_resources_partial : forall evs e,
  In OPanic (snd (step (final evs) e)) ->
  exists tag id res, e = EvRequest tag id (MExec (CResources [] res)).
Proof. intros evs e H. apply panic_cause in H as (_ & _ & _ & H). exact H. Qed.
Print Assumptions C54_only_get_resources_partial.
Example C54_nonvacuous : snd (step (final session) (EvRequest 9 (IdNum 9) (MExec (CResources [true] None))))
  = [OResp (IdNum 9) (PErr EMethodNotFound)].
Proof. vm_compute. reflexivity. Qed.

(** C55: in service, a request whose answer does not need asynchronous work is
    answered at once with exactly the handler's result or the proper error, and
    the handler runs exactly when there is one and the parameters are valid. *)
Theorem C55_served : forall evs tag id m p,
  alive evs -> ~ In EvClose evs -> handshake evs -> ~ shut evs -> expected m = Some p ->
  answers (snd (step (final evs) (EvRequest tag id m))) = [(id, p)] /\
  (In (OHandle tag) (snd (step (final evs) (EvRequest tag id m))) <-> reaches_handler m = true).
Proof. exact served. Qed.
Print Assumptions C55_served.

(** C55: in service, notifications reach their handler. *)
Theorem C55_notified : forall evs, alive evs -> handshake evs -> ~ shut evs ->
  snd (step (final evs) (EvNotify (NOther true))) = [ONotif] /\
  snd (step (final evs) (EvNotify (NOther false))) = [].
Proof. exact notified. Qed.
Print Assumptions C55_notified.
Example C55_nonvacuous :
  expected (MExec (CResources [true] (Some (HRaw None)))) = Some (POk VNull) /\
  snd (step (final session) (EvRequest 9 (IdNum 9) (MExec (CResources [true] (Some (HRaw None))))))
    = [OHandle 9; OResp (IdNum 9) (POk VNull)] /\
  snd (step (final session) (EvRequest 9 (IdNum 9) (MOther (Some (HSched (SErr (EHandler 4)))))))
    = [OHandle 9; OResp (IdNum 9) (PErr (EHandler 4))].
Proof. vm_compute. auto. Qed.
