(** Theorems about the debug adapter (C173). *)
From Coq Require Import List ZArith Arith Bool Lia.
From Verif Require Import DbgModel DbgSpec DbgProof.
Import ListNotations.

(** C173: a debug session is there exactly from a launch or attach that succeeds until a message ends it; it stands at the end of the main file as it was then. *)
Theorem C173_session : forall t w main len stop,
  in_session t w main len stop <-> life_of (fst (run init t)) = Ready (Some (mkSession w 1 stop main len)).
Proof. intros t. apply (invariant t). Qed.
Print Assumptions C173_session.
(** C173: the adapter serves exactly while it is online. *)
Theorem C173_online : forall t, online t <-> exists s, life_of (fst (run init t)) = Ready s.
Proof. intros t. apply (invariant t). Qed.
Print Assumptions C173_online.
(** C173: every request gets exactly one response, to its number if that is the size of an [i32], as long as the adapter is alive. *)
Theorem C173_answered : forall t x, alive (t ++ [x]) -> small (m_seq (snd x)) -> exists r, responses (sent t x) = [(m_seq (snd x), r)].
Proof. intros t x A S. destruct (answered t x A) as (r & E). exists r. now rewrite small_i32 in E. Qed.
Print Assumptions C173_answered.
(** C173: when the adapter panics: a launch or attach, while online, with other arguments or without a project. *)
Theorem C173_crash : forall t x, ~ alive (t ++ [x]) <-> ~ alive t \/ (online t /\ crashes x).
Proof. exact crash. Qed.
Print Assumptions C173_crash.
(** C173: before the initialization and after the end there are errors only, and no events. *)
Theorem C173_away : forall t x, ~ online t -> ~ (initializes (snd x) /\ Forall (fun y => ~ initializes (snd y)) t) ->
  events (sent t x) = [] /\ forall id r, In (id, r) (responses (sent t x)) -> exists e, r = inr e.
Proof. exact away. Qed.
Print Assumptions C173_away.
(** C173: the events of a launch come in order before its response. *)
Theorem C173_launch : forall t x k w m l s, online t -> starts x k w m l s -> small (m_seq (snd x)) ->
  exists a b c, sent t x = [OEvent a (Process k); OEvent b (ThreadStarted 1); OEvent c (Stopped 1); OResponse (m_seq (snd x)) (inl BNothing)].
Proof. intros t x k w m l s O S N. destruct (online_events t x O) as [A _]. rewrite (A _ _ _ _ _ S), small_i32 by exact N. eauto. Qed.
Print Assumptions C173_launch.
(** C173: other messages send no events, but for the request to terminate. *)
Theorem C173_events : forall t x, online t -> (forall k w m l s, ~ starts x k w m l s) ->
  events (sent t x) = match m_req (snd x), m_valid (snd x) with Terminate, true => [Terminated] | _, _ => [] end.
Proof. intros t x O N. apply (online_events t x O), N. Qed.
Print Assumptions C173_events.
(** C173: an expression evaluates exactly in a session, in the project as it was when the session started. *)
Theorem C173_evaluate : forall t x e, m_req (snd x) = Evaluate e -> m_valid (snd x) = true -> online t -> small (m_seq (snd x)) -> forall y,
  responses (sent t x) = [(m_seq (snd x), inl (BValue y))] <-> exists w m l s, in_session t w m l s /\ w_value w m e = Some y.
Proof. intros t x e R V O N y. rewrite <- (evaluated t x e R V O y), small_i32 by exact N. reflexivity. Qed.
Print Assumptions C173_evaluate.
(** C173: the events of a run are numbered without gaps. *)
Theorem C173_numbered : forall t, numbers (snd (run init t)) = from 0 (length (events (snd (run init t)))).
Proof. exact numbered. Qed.
Print Assumptions C173_numbered.
(** C173: the first initialization sends the event and then the response. *)
Theorem C173_welcome : forall t x, initializes (snd x) -> Forall (fun y => ~ initializes (snd y)) t -> small (m_seq (snd x)) ->
  sent t x = [OEvent 0 Initialized; OResponse (m_seq (snd x)) (inl BCapabilities)].
Proof. intros t x I F N. rewrite (welcomed t x I F), small_i32 by exact N. reflexivity. Qed.
Print Assumptions C173_welcome.

(** A project whose main file 3 has 40 bytes, where expressions evaluate to twice their number, and one without a main file. *)
Definition good : world := mkWorld (Some 3) (fun _ => Some 40) (fun _ e => Some (e + e)).
Definition good_env : env := fun _ _ => Some good.
Definition bad_env : env := fun _ _ => Some (mkWorld None (fun _ => None) (fun _ _ => None)).
Definition say (v : env) (n : Z) (r : request) : env * message := (v, mkMessage n r true).
Definition a_trace : trace := [say good_env 1 (Evaluate 7); say good_env 2 Initialize; say good_env 3 (Launch (Args 0 1 None)); say bad_env 4 (Evaluate 7); say bad_env 5 (Attach (Args 0 1 (Some true)))].
Example C173_nonvacuous : snd (run init (a_trace ++ [say bad_env 6 (TerminateThreads (Some [1])); say bad_env 7 (Evaluate 7); say bad_env 8 Disconnect; say good_env 9 Initialize])) =
  [OResponse 1 (inr ENotInitialized); OEvent 0 Initialized; OResponse 2 (inl BCapabilities);
   OEvent 1 (Process MLaunch); OEvent 2 (ThreadStarted 1); OEvent 3 (Stopped 1); OResponse 3 (inl BNothing);
   OResponse 4 (inl (BValue 14)); OResponse 5 (inr EInternal); OResponse 6 (inl BNothing); OResponse 7 (inr EInvalidRequest); OResponse 8 (inl BNothing); OResponse 9 (inr EInvalidRequest)]
  /\ online a_trace /\ alive a_trace /\ in_session a_trace good 3 40 false /\ starts (say good_env 3 (Launch (Args 0 1 None))) MLaunch good 3 40 None.
Proof.
  split; [vm_compute; reflexivity|]. split; [apply C173_online; eexists; vm_compute; reflexivity|]. split; [unfold alive; vm_compute; discriminate|].
  split; [apply C173_session; vm_compute; reflexivity|]. split; [reflexivity|]. exists 0, 1. repeat split.
Qed.
Example C173_crash_nonvacuous : crashes (say good_env 3 (Launch Malformed)) /\ ~ alive (a_trace ++ [say good_env 3 (Launch Malformed)]).
Proof. split; [split; [reflexivity|]; exists Malformed; auto|]. intros H. apply H. vm_compute. reflexivity. Qed.

(** C173 fails: a launch whose arguments lack a field takes the adapter down instead of being answered. *)
Theorem C173_malformed_refuted : exists t x, alive t /\ small (m_seq (snd x)) /\ m_valid (snd x) = true /\ sent t x = [] /\ ~ alive (t ++ [x]).
Proof.
  exists a_trace, (say good_env 6 (Launch Malformed)). split; [exact (proj1 (proj2 (proj2 C173_nonvacuous)))|]. split; [unfold small; cbn; lia|]. split; [reflexivity|]. split; [vm_compute; reflexivity|].
  intros H. apply H. vm_compute. reflexivity.
Qed.
Print Assumptions C173_malformed_refuted.
(** C173 fails: a request with a number beyond an [i32] is answered under another number. *)
Theorem C173_wrap_refuted : exists t x id r, alive (t ++ [x]) /\ responses (sent t x) = [(id, r)] /\ id <> m_seq (snd x).
Proof.
  exists [], (say good_env 4294967297 Initialize), 1%Z, (inl BCapabilities). split; [unfold alive; vm_compute; discriminate|]. split; [vm_compute; reflexivity|discriminate].
Qed.
Print Assumptions C173_wrap_refuted.
(** C173 fails: commands that the capabilities announce are not known, at any time. *)
Theorem C173_announced_refuted : exists r, In r announced /\ forall t v n, online t -> small n -> sent t (say v n r) = [OResponse n (inr EMethodNotFound)].
Proof.
  exists (Other 2). split; [cbn; auto 10|]. intros t v n O S. apply C173_online in O as (s & O). unfold sent. rewrite step_out, O. cbn [fst snd say serve handle m_req m_seq number app]. now rewrite small_i32.
Qed.
Print Assumptions C173_announced_refuted.
(** C173, what a client is not told: terminating the thread ends the session without an event. *)
Theorem C173_silent : forall t v n, online t -> let x := say v n (TerminateThreads (Some [1])) in
  events (sent t x) = [] /\ life_of (fst (run init (t ++ [x]))) = Ready None.
Proof.
  intros t v n O x. split.
  - unfold x. rewrite C173_events; [reflexivity|exact O|]. intros k w m l s (_ & p & r & E & _). destruct k; discriminate.
  - rewrite run_snoc, step_life. apply C173_online in O as (s & O). rewrite O. reflexivity.
Qed.
Print Assumptions C173_silent.
