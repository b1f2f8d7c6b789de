(** The theorems about the HTTP servers: C98, C99. *)
From Coq Require Import List NArith Bool Lia.
From Verif Require Import DigModel PathModel PathProof OrigModel OrigSpec OrigProof.
Import ListNotations.
Open Scope N_scope.

(** * C98: only known pages get a websocket *)
(** Requests of pages, exactly. *)
Theorem C98_exactly : forall P good, reads P good -> forall g addr port h o, runs P addr h -> good (own h port) -> (forall x, g = Some x -> good (gitpod_origin port x)) -> good o -> canonical o ->
  forall up path, let r := mkReq (Some (print_origin o)) up path in
  (allowed g h port o -> serve P g addr port r = if up then Websocket else if text_eqb path [47] then Page else Redirect) /\
  (~ allowed g h port o -> serve P g addr port r = Closed).
Proof. exact accepts. Qed.
Print Assumptions C98_exactly.
(** A page of another host is refused, whatever it asks for, and at whatever port it is. *)
Theorem C98_foreign : forall P good, reads P good -> forall g addr port h o, runs P addr h -> good (own h port) -> (forall x, g = Some x -> good (gitpod_origin port x)) -> good o -> canonical o ->
  o_scheme o <> s_vscode -> o_host o <> h -> ~ In (o_host o) [h_local; h_loop] -> (forall x, g = Some x -> o_host o <> o_host (gitpod_origin port x)) ->
  forall up path, serve P g addr port (mkReq (Some (print_origin o)) up path) = Closed.
Proof.
  intros P good R g addr port h o A B C D E N1 N2 N3 N4 up path. apply (accepts P good R g addr port h o A B C D E up path).
  intros [-> |[X|[(_ & X)|(x & X & ->)]]]; auto.
  - apply N3. destruct X as [-> | ->]; cbn; auto.
  - now apply (N4 x).
Qed.
Print Assumptions C98_foreign.
(** So is a header that is not an origin. *)
Theorem C98_no_origin : forall P g addr port h up path, P h = None \/ (exists u, P h = Some u /\ u_path u <> [47] /\ u_path u <> []) ->
  serve P g addr port (mkReq (Some h) up path) = Closed.
Proof. intros P g addr port h up path [H|(u & H & A & B)]; [now apply unread|now apply with_path with u]. Qed.
Print Assumptions C98_no_origin.
(** The page of the server itself is served, unless its port is that of HTTP. *)
Theorem C98_own : forall P good, reads P good -> forall g addr port h, runs P addr h -> good (own h port) -> (forall x, g = Some x -> good (gitpod_origin port x)) -> port <> 80 ->
  serve P g addr port (mkReq (Some (print_origin (own h port))) true [47]) = Websocket.
Proof.
  intros P good R g addr port h A B C D. apply (accepts P good R g addr port h (own h port) A B C B); [|now left].
  unfold canonical, strip. cbn. destruct (N.eqb_spec port 80); [contradiction|]. unfold default_port. cbn. destruct (N.eqb_spec port 80); [contradiction|reflexivity].
Qed.
Print Assumptions C98_own.
(** No request makes it crash. *)
Theorem C98_no_crash : forall P g addr port h r, runs P addr h -> serve P g addr port r <> Crashed.
Proof. exact no_crash. Qed.
Print Assumptions C98_no_crash.
(** Beyond the statement: programs other than browsers may leave the header out. *)
Theorem C98_absent : forall P g addr port path, serve P g addr port (mkReq None true path) = Websocket.
Proof. reflexivity. Qed.
Print Assumptions C98_absent.
(** Beyond the statement: at port 80 browsers leave the port out, and the server refuses its own page. *)
Theorem C98_port80 : forall P good, reads P good -> forall g addr h, runs P addr h -> good (own h 80) -> (forall x, g = Some x -> good (gitpod_origin 80 x)) -> good (mkO s_http h None) ->
  ~ In h [h_local; h_loop] -> serve P g addr 80 (mkReq (Some (print_origin (mkO s_http h None))) true [47]) = Closed.
Proof.
  intros P good R g addr h A B C D E. apply (accepts P good R g addr 80 h (mkO s_http h None) A B C D); [reflexivity|].
  intros [X|[X|[(_ & X)|(x & X & Y)]]]; try discriminate. apply E. cbn in X. destruct X as [-> | ->]; cbn; auto.
Qed.
Print Assumptions C98_port80.
Definition ex_h : list chr := [48; 46; 48; 46; 48; 46; 48].
Definition ex_evil : origin := mkO s_http [101; 46; 105; 111] (Some 42).
Definition ex_addr : list chr := ex_h ++ [58; 48].
Example C98_nonvacuous : reads simple plain_origin /\ runs simple ex_addr ex_h /\ plain_origin (own ex_h 42) /\ plain_origin (gitpod_origin 42 ([119], [99; 46; 105; 111])) /\ plain_origin ex_evil /\ canonical ex_evil /\
  print_origin ex_evil = [104; 116; 116; 112; 58; 47; 47; 101; 46; 105; 111; 58; 52; 50] /\
  serve simple None ex_addr 42 (mkReq (Some (print_origin ex_evil)) true [47]) = Closed /\
  serve simple None ex_addr 42 (mkReq (Some (print_origin (own ex_h 42))) true [47]) = Websocket /\
  serve simple None ex_addr 42 (mkReq (Some (print_origin (own ex_h 42))) false [47]) = Page /\
  serve simple None ex_addr 42 (mkReq (Some (print_origin (mkO s_http h_local (Some 8080)))) true [47]) = Websocket /\
  serve simple None ex_addr 42 (mkReq (Some (print_origin (mkO s_https h_local (Some 8080)))) true [47]) = Closed /\
  serve simple None ex_addr 42 (mkReq (Some (print_origin (mkO s_vscode [105; 116] None))) false [120]) = Redirect /\
  serve simple (Some ([119], [99; 46; 105; 111])) ex_addr 42 (mkReq (Some (print_origin (gitpod_origin 42 ([119], [99; 46; 105; 111])))) true [47]) = Websocket /\
  serve simple (Some ([119], [99; 46; 105; 111])) ex_addr 42 (mkReq (Some (print_origin (gitpod_origin 43 ([119], [99; 46; 105; 111])))) true [47]) = Closed /\
  serve simple None ex_addr 42 (mkReq (Some [110; 117; 108; 108]) true [47]) = Closed /\
  serve simple None ex_addr 80 (mkReq (Some (print_origin (mkO s_http ex_h None))) true [47]) = Closed.
Proof.
  assert (PL : forall o, existsb (N.eqb 58) (o_scheme o) = false -> existsb (N.eqb 58) (o_host o) = false -> match o_port o with Some n => n <= 65535 | None => True end -> plain_origin o).
  { intros o A B C. split; [|split]; auto; intros X; [rewrite <- not_true_iff_false in A; apply A|rewrite <- not_true_iff_false in B; apply B]; apply existsb_exists; exists 58; auto. }
  split; [exact simple_reads|]. split; [now exists (mkUrl s_http (Some ex_h) (Some 0) [47])|].
  split; [apply PL; vm_compute; congruence|]. split; [apply PL; vm_compute; auto|]. split; [apply PL; vm_compute; congruence|].
  vm_compute. repeat split.
Qed.

(** * C99: the timings are sent to the editor only *)
Theorem C99_exactly : forall o head path, ~ In 58 (o_scheme o) -> let r := mkReq (Some (print_origin o)) false path in
  (o_scheme o = s_vscode -> trace r head = (if text_eqb path [47] then if head then TEmpty (print_origin o) else TTimings (print_origin o) else TRedirect (print_origin o))) /\
  (o_scheme o <> s_vscode -> trace r head = TClosed).
Proof.
  intros o head path H. cbn zeta. unfold trace. cbn [r_origin r_path]. pose proof (trace_iff o H) as I. split; intros E.
  - now rewrite (proj2 I E).
  - destruct (starts vscode_pre (print_origin o)); auto. destruct E. now apply I.
Qed.
Print Assumptions C99_exactly.
(** Whatever is sent names as its only reader the origin that asked. *)
Theorem C99_reader : forall r head, match trace r head with
  | TClosed => True
  | TEmpty a | TTimings a | TRedirect a => r_origin r = Some a /\ exists x, a = vscode_pre ++ x
  end.
Proof.
  intros r head. unfold trace. destruct (r_origin r) as [h|]; auto. destruct (starts vscode_pre h) eqn:E; auto. apply starts_spec in E.
  destruct (text_eqb (r_path r) [47]); [destruct head|]; auto.
Qed.
Print Assumptions C99_reader.
Theorem C99_absent : forall up path head, trace (mkReq None up path) head = TClosed.
Proof. reflexivity. Qed.
Print Assumptions C99_absent.
Example C99_nonvacuous : trace (mkReq (Some (print_origin (mkO s_vscode [105; 116] None))) false [47]) false = TTimings (vscode_pre ++ [105; 116]) /\
  trace (mkReq (Some (print_origin (mkO s_vscode [105; 116] None))) false [47]) true = TEmpty (vscode_pre ++ [105; 116]) /\
  trace (mkReq (Some (print_origin ex_evil)) false [47]) false = TClosed /\ trace (mkReq (Some (print_origin (mkO (s_vscode ++ [120]) [105; 116] None))) false [47]) false = TClosed.
Proof. vm_compute. auto. Qed.
