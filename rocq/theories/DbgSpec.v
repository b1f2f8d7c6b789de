(** What is expected of the debug adapter (C173). *)
From Coq Require Import List ZArith Arith Bool.
From Verif Require Import DbgModel.
Import ListNotations.

(** The messages received so far, the first one first, each with the project then. *)
Definition trace := list (env * message).
(** The message starts a session: a launch or an attach of a program whose main file can be read. *)
Definition starts (x : env * message) (k : method) (w : world) (main len : nat) (stop : option bool) : Prop :=
  m_valid (snd x) = true /\ exists program root,
  m_req (snd x) = match k with MLaunch => Launch (Args program root stop) | MAttach => Attach (Args program root stop) end /\
  fst x program root = Some w /\ w_main w = Some main /\ w_source w main = Some len.
(** The message ends sessions: the request to terminate, or to terminate threads if they are all the one thread there is; and to disconnect, see [offline]. *)
Definition ends (m : message) : Prop :=
  m_valid m = true /\ (m_req m = Terminate \/ exists i l, m_req m = TerminateThreads (Some (i :: l)) /\ forall j, In j (i :: l) -> j = 1).
(** The message takes the adapter offline. *)
Definition offline (m : message) : Prop := m_req m = Disconnect.
(** The message takes the adapter down, if it is online: arguments of a launch that are not as they should be, or no project. *)
Definition crashes (x : env * message) : Prop :=
  m_valid (snd x) = true /\ exists a, (m_req (snd x) = Launch a \/ m_req (snd x) = Attach a) /\
  (a = Malformed \/ exists program root stop, a = Args program root stop /\ fst x program root = None).
(** The message initializes the adapter, if it is the first. *)
Definition initializes (m : message) : Prop := m_req m = Initialize /\ m_valid m = true.
(** Online: after the initialization and before anything that ends that. *)
Definition online (t : trace) : Prop :=
  exists a x b, t = a ++ x :: b /\ Forall (fun y => ~ initializes (snd y)) a /\ initializes (snd x) /\ Forall (fun y => ~ offline (snd y) /\ ~ crashes y) b.
(** The message does nothing to sessions. *)
Definition quiet (y : env * message) : Prop := ~ offline (snd y) /\ ~ ends (snd y) /\ ~ crashes y /\ forall k w m l s, ~ starts y k w m l s.
(** In a session: a message started it when the adapter was online, and none since has ended it, started another or taken the adapter down. *)
Definition in_session (t : trace) (w : world) (main len : nat) (stop : bool) : Prop :=
  exists a x b k st, t = a ++ x :: b /\ online a /\ starts x k w main len st /\ stop = (match st with Some true => true | _ => false end) /\
  Forall quiet b.
(** Responses and events among what is sent. *)
Definition responses (l : list out) : list (Z * (body + error)) := flat_map (fun o => match o with OResponse to r => [(to, r)] | _ => [] end) l.
Definition events (l : list out) : list event := flat_map (fun o => match o with OEvent _ e => [e] | _ => [] end) l.
Definition numbers (l : list out) : list Z := flat_map (fun o => match o with OEvent n _ => [n] | _ => [] end) l.
(** The numbers from [n] on. *)
Fixpoint from (n : Z) (k : nat) : list Z := match k with O => [] | S k => n :: from (n + 1) k end.
(** Numbers of the size of an [i32]. *)
Definition small (z : Z) : Prop := (-2147483648 <= z < 2147483648)%Z.
(** What is sent for message [x] after those of [t], and whether the adapter has not panicked. *)
Definition sent (t : trace) (x : env * message) : list out := snd (step (fst x) (snd x) (fst (run init t))).
Definition alive (t : trace) : Prop := life_of (fst (run init t)) <> Crashed.
