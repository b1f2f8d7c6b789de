(** Theorems about message framing (C07-C09). *)
From Coq Require Import String List NArith Arith Bool.
From Verif Require Import NumModel MsgModel MsgSpec MsgProof.
Import ListNotations.
Open Scope list_scope.

(** C07: what is written is read back, then a clean end of stream. *)
Theorem C07_framing_roundtrip : forall ms,
  Forall wf_body ms -> read_all (write_all ms) = (ms, EndEof).
Proof. exact read_all_write. Qed.
Print Assumptions C07_framing_roundtrip.

(** C07, one frame: the reader consumes exactly the frame, whatever follows. *)
Theorem C07_frame_consumed : forall body rest,
  wf_body body -> read_msg (write_msg body ++ rest) = MMsg body rest.
Proof. exact read_write. Qed.
Print Assumptions C07_frame_consumed.

Definition tricky : bytes := lit "{}" ++ [13; 10; 13; 10; 195; 169]%N ++ lit "Content-Length: 3".
Example C07_nonvacuous : Forall wf_body [tricky; []; lit "[1]"] /\
  read_all (write_all [tricky; []; lit "[1]"]) = ([tricky; []; lit "[1]"], EndEof).
Proof.
  split; [|vm_compute; reflexivity].
  repeat constructor; try (vm_compute; reflexivity).
  - exists (lit "{}" ++ [13; 10; 13; 10; 233]%N ++ lit "Content-Length: 3"). split; [|reflexivity].
    repeat (constructor; [left; reflexivity|]). constructor.
  - exists []. split; [constructor|reflexivity].
  - exists (lit "[1]"). split; [|reflexivity].
    repeat (constructor; [left; reflexivity|]). constructor.
Qed.

(** C08: cut the stream after [n] bytes: the messages delivered are exactly the
    [k] first ones, where [k] is the number of frames lying completely in the
    first [n] bytes; then end of stream or an error. *)
Theorem C08_truncated_stream : forall ms n, Forall wf_body ms ->
  exists k e, read_all (firstn n (write_all ms)) = (firstn k ms, e) /\ e <> EndFuel /\
    k <= List.length ms /\ List.length (write_all (firstn k ms)) <= n /\
    (k = List.length ms \/ n < List.length (write_all (firstn (S k) ms))).
Proof. exact truncated_stream. Qed.
Print Assumptions C08_truncated_stream.
Example C08_nonvacuous :
  read_all (firstn 40 (write_all [lit "{}"; lit "[]"])) = ([lit "{}"], EndErr) /\
  read_all (firstn 23 (write_all [lit "{}"; lit "[]"])) = ([lit "{}"], EndEof).
Proof. split; vm_compute; reflexivity. Qed.

(** C09: other headers before or after, any letter case of the name. *)
Theorem C09_extra_headers : forall hs1 h hs2 body rest,
  Forall wf_header hs1 -> wf_header h -> Forall wf_header hs2 ->
  (forall x, In x (hs1 ++ hs2) -> ~ names_length (fst x)) ->
  names_length (fst h) ->
  snd h = show_dec (N.of_nat (List.length body)) -> wf_body body ->
  read_msg (header_lines (hs1 ++ [h] ++ hs2) ++ [13; 10]%N ++ body ++ rest) =
  read_msg (write_msg body ++ rest).
Proof. exact extra_headers. Qed.
Print Assumptions C09_extra_headers.
Example C09_nonvacuous :
  read_msg (lit "Content-Type: x" ++ [13;10]%N ++ lit "cONTENT-length: 2" ++ [13;10]%N
    ++ lit "A: b: c" ++ [13;10]%N ++ [13; 10]%N ++ lit "{}" ++ lit "tail") = MMsg (lit "{}") (lit "tail").
Proof. vm_compute; reflexivity. Qed.

(** C09: frames that are rejected. *)
Theorem C09_no_length_rejected : forall hs rest,
  Forall wf_header hs -> (forall x, In x hs -> ~ names_length (fst x)) ->
  read_msg (header_lines hs ++ [13; 10]%N ++ rest) = MErr.
Proof. exact no_length_rejected. Qed.
Print Assumptions C09_no_length_rejected.

Theorem C09_bad_header_rejected : forall hs l rest,
  Forall wf_header hs -> (forall x, In x hs -> ~ names_length (fst x)) ->
  l <> [] -> ~ In 10%N l -> sep_free l ->
  read_msg (header_lines hs ++ l ++ [13; 10]%N ++ rest) = MErr.
Proof. exact bad_header_rejected. Qed.
Print Assumptions C09_bad_header_rejected.
Example C09_rejected_nonvacuous :
  wf_header (lit "Content-Type", lit "a") /\ ~ names_length (lit "Content-Type") /\
  sep_free (lit "Content-Length:2").
Proof. exact header_examples. Qed.
