(** Theorems about the actors of a preview: C47, C82, C83, C84. *)
From Coq Require Import List NArith Arith Bool Lia.
From Verif Require Import AssocModel AssocProof DigModel DigProof PageModel SpanModel SpanSpec SpanProof PlaneModel PlaneSpec PlaneProof.
Import ListNotations.
Open Scope nat_scope.

(** A preview for the examples. *)
Definition O0 : oracles := mkO (fun _ => Some 7) (fun _ => Some 8) (fun _ => None).
Definition P0 : params := mkP false false O0.
Definition P1 : params := mkP true false O0.
Definition compiled (d : nat) : event := ENotify (mkView (Some d) Success true false).

(** * C47: the control plane keeps serving *)
(** Partial: two of the endings that are found here are requests. *)
Theorem C47_serves_partial : forall P b es, s_ed (run P (init b) es) <> Serving ->
  (exists e, In e es /\ ending e) \/ (In ECtlClose es /\ In EBoxClose es).
Proof. exact serves. Qed.
Print Assumptions C47_serves_partial.
Example C47_nonvacuous :
  let es := [EOpen 0; EFrame 0 (TextIn w_current); EFrame 0 (TextIn (w_srcpath ++ 32%N :: [91%N])); EFrame 0 Other; ECtlIn (ChangeCursor 1); ECtl;
             compiled 3; EFlush; EFlush; EMail; ECtlIn (ScrollBySpan [102; 102]%N); ECtl; EStop; EMail] in
  s_ed (run P0 (init false) es) = Stopped /\ s_ed (run P0 (init false) (removelast es)) = Serving.
Proof. vm_compute. split; reflexivity. Qed.
(** All that waits in the mailbox is answered, once and in order. *)
Theorem C47_answers : forall P s, s_ed s = Serving -> s_respopen s = true ->
  (forall m, In m (s_box s) -> m <> Shutdown /\ forall t, m <> JumpResolve t) ->
  let s' := run P s (repeat EMail (length (s_box s))) in
  s_box s' = [] /\ s_ed s' = Serving /\ s_resp s' = s_resp s ++ flat_map (fun m => some_list (answer m)) (s_box s)
  /\ s_pages s' = s_pages s /\ s_ctl s' = s_ctl s.
Proof.
  intros P s E R F. apply answers; auto. intros m I. destruct (F m I) as (F1 & F2). destruct m; cbn; intros X; auto. exact (F2 _ eq_refl).
Qed.
Print Assumptions C47_answers.
Example C47_answers_nonvacuous :
  let s := run P0 (init false) [compiled 3; EFlush; EFlush; EStatus Compiling] in
  s_box s = [StatusOf Success; StatusOf Compiling] /\ s_resp (run P0 s [EMail; EMail]) = [RStatus Success; RStatus Compiling].
Proof. split; reflexivity. Qed.
(** A request of the editor is carried out, and the loop goes on. *)
Theorem C47_request : forall P s m q, s_ed s = Serving -> s_ctl s = m :: q -> (forall t, m <> ScrollBySpan t) ->
  let s' := step P s ECtl in
  s_ed s' = Serving /\ s_ctl s' = q /\ s_box s' = s_box s /\ s_resp s' = s_resp s /\
  (forall r, forwarded m = Some r -> forall p g, s_pages s p = Some g -> pg_rlive g = true ->
     exists g', s_pages s' p = Some g' /\ queued r (pg_rq g')) /\
  (forall pos, m = PanelScrollBy pos -> forall p g, s_pages s p = Some g -> pg_live g = true ->
     exists g', s_pages s' p = Some g' /\ queued (Viewport pos) (pg_box g')) /\
  (forall f, m = SyncFiles f \/ m = UpdateFiles f \/ m = RemoveFiles f -> s_files s' = s_files s ++ [m]).
Proof.
  intros P s m q E C N. cbn [step]. rewrite (proj2 (serving_true s) E), C.
  assert (K : forall A cap (c : chan A) x, queued x (cpush cap c x)).
  { intros A cap c x. unfold cpush, queued. destruct (_ <? _); eexists; reflexivity. }
  destruct m; try (exfalso; exact (N _ eq_refl)); cbn; repeat split; auto; try (intros; discriminate);
    try (intros x [X|[X|X]]; discriminate X); try (intros x X; discriminate X).
  - intros r X p g G L. injection X as <-. rewrite G. cbn. eexists. split; [reflexivity|]. cbn. rewrite L. apply K.
  - intros r X p g G L. injection X as <-. rewrite G. cbn. eexists. split; [reflexivity|]. cbn. rewrite L. apply K.
  - intros pos X p' g G L. injection X as <-. rewrite G. cbn. eexists. split; [reflexivity|]. cbn. rewrite L. apply K.
Qed.
Print Assumptions C47_request.
Example C47_request_nonvacuous :
  let s := run P0 (init false) [EOpen 4; ECtlIn (PanelScrollTo 9)] in
  s_ctl s = [PanelScrollTo 9] /\ exists g, s_pages s 4 = Some g /\ pg_rlive g = true.
Proof. split; [reflexivity|]. eexists. split; reflexivity. Qed.
(** So is a request for the source of an id that was given out. *)
Theorem C47_span : forall P s t i q, s_ed s = Serving -> s_ctl s = ScrollBySpan t :: q -> from_hex t = Some i ->
  let s' := step P s ECtl in
  s_ed s' = Serving /\ s_ctl s' = q /\
  (forall sp, lookup (s_int s) i = Found (Some sp) -> forall p g, s_pages s p = Some g -> pg_rlive g = true ->
     exists g', s_pages s' p = Some g' /\ queued (SpanRange sp) (pg_rq g')).
Proof.
  intros P s t i q E C H. cbn [step]. rewrite (proj2 (serving_true s) E), C. cbn [serve_ctl]. unfold scroll_by_span, span_by_str.
  rewrite H. cbn [option_map s_int set_ctl]. destruct (lookup (s_int s) i) as [[sp|]|]; cbn; repeat split; auto; try (intros x X; discriminate X).
  intros x X p g G L. injection X as <-. rewrite G. cbn. eexists. split; [reflexivity|]. cbn. rewrite L.
  unfold cpush, queued. destruct (_ <? _); eexists; reflexivity.
Qed.
Print Assumptions C47_span.
Example C47_span_nonvacuous :
  let s := run P0 (init false) [EOpen 0; compiled 3; EFlush; EOutRead 0; EOutRead 0; EOutDraw 0 5 [77%N]; ECtlIn (ScrollBySpan (to_hex (new_id 2 0)))] in
  s_ctl s = [ScrollBySpan (to_hex (new_id 2 0))] /\ from_hex (to_hex (new_id 2 0)) = Some (new_id 2 0) /\ lookup (s_int s) (new_id 2 0) = Found (Some 77%N).
Proof. vm_compute. repeat split; reflexivity. Qed.
(** Asked to stop, it stops, whatever waits before. *)
Theorem C47_stop : forall P s, s_ed s = Serving -> s_ed (run P (step P s EStop) (repeat EMail (S (length (s_box s))))) <> Serving.
Proof. exact stops. Qed.
Print Assumptions C47_stop.
(** A click on the page that asks for a source location ends the loop; the whole program in standalone
    mode. *)
Theorem C47_srclocation_refuted : exists es i, (forall e, In e es -> ~ closing e) /\ proper O0 (w_srclocation ++ 32%N :: to_hex i) (ToEditor (JumpResolve (to_hex i))) /\
  In (EFrame 0 (TextIn (w_srclocation ++ 32%N :: to_hex i))) es /\
  s_ed (run P0 (init false) es) = Stopped /\ s_ed (run P1 (init true) es) = Exited.
Proof.
  exists [EOpen 0; EFrame 0 (TextIn (w_srclocation ++ 32%N :: to_hex (new_id 2 0))); EMail], (new_id 2 0).
  repeat split.
  - intros e [<-|[<-|[<-|[]]]]; exact (fun f => f).
  - constructor.
  - right. left. reflexivity.
Qed.
Print Assumptions C47_srclocation_refuted.
(** A request of the editor whose id is not a number makes the task panic. *)
Theorem C47_bad_id_refuted : exists es, (forall e, In e es -> ~ closing e) /\ s_ed (run P0 (init false) es) = Crashed.
Proof.
  exists [ECtlIn (ScrollBySpan [122%N]); ECtl]. split; [|reflexivity]. intros e [<-|[<-|[]]]; exact (fun f => f).
Qed.
Print Assumptions C47_bad_id_refuted.

(** * C82: the requests of a page *)
Theorem C82_proper : forall O t a, proper O t a -> page_text O t = a.
Proof. exact proper_text. Qed.
Print Assumptions C82_proper.
Example C82_nonvacuous : proper O0 (w_outline ++ 44%N :: print_num 10 3 ++ 32%N :: [49; 46; 53]%N) (ToPages (Viewport (3%N, (7, 0)))).
Proof. apply pr_sync_x; [unfold max64; lia|reflexivity| |]; cbn; intros H; repeat (destruct H as [H|H]; [discriminate H|]); exact H. Qed.
(** A page that keeps to the protocol stays connected; one that does not is shut out. *)
Theorem C82_stays : forall P s p t a, proper (p_oracles P) t a -> live s p = true -> live (step P s (EFrame p (TextIn t))) p = true.
Proof. exact proper_stays. Qed.
Print Assumptions C82_stays.
Theorem C82_foreign : forall P s p t, foreign t -> live s p = true -> live (step P s (EFrame p (TextIn t))) p = false.
Proof. exact foreign_ends. Qed.
Print Assumptions C82_foreign.
Example C82_foreign_nonvacuous : foreign [97%N] /\ live (run P0 (init false) [EOpen 2]) 2 = true.
Proof. split; [|reflexivity]. repeat split; try discriminate; intros (r & E); discriminate E. Qed.
(** So is a page that sends what is not text. *)
Theorem C82_binary : forall P s p f, f = BinaryIn \/ f = Broken -> live s p = true -> live (step P s (EFrame p f)) p = false.
Proof.
  intros P s p f F L. cbn [step]. unfold live in *. destruct (s_pages s p) as [g|] eqn:E; [|discriminate L]. unfold web_frame. rewrite E, L.
  destruct F as [-> | ->]; cbn [page_frame]; cbn; rewrite upd_eq; reflexivity.
Qed.
Print Assumptions C82_binary.
(** Of what a page or renderer has no time to read the oldest is lost, and it is told. *)
Theorem C82_lag : forall A cap (l : list A), 0 < cap ->
  c_items (fold_left (cpush cap) l chan0) = skipn (length l - cap) l /\ c_lagged (fold_left (cpush cap) l chan0) = (cap <? length l).
Proof.
  intros A cap l H. induction l as [|x l IH] using rev_ind; [split; [reflexivity|]; symmetry; apply Nat.ltb_ge; cbn; lia|].
  rewrite fold_left_app. cbn [fold_left]. destruct IH as (I1 & I2). unfold cpush at 1 3. rewrite I1, I2, skipn_length, app_length. cbn [length].
  destruct (Nat.ltb_spec (length l - (length l - cap)) cap) as [G|G]; cbn [c_items c_lagged]; split.
  - replace (length l - cap) with 0 by lia. replace (length l + 1 - cap) with 0 by lia. reflexivity.
  - destruct (Nat.ltb_spec cap (length l)); destruct (Nat.ltb_spec cap (length l + 1)); try reflexivity; lia.
  - replace (length l + 1 - cap) with (S (length l - cap)) by lia. rewrite skipn_app. replace (S (length l - cap) - length l) with 0 by lia. cbn [skipn].
    f_equal. clear -G H. assert (L : length l - cap < length l) by lia. revert L. generalize (length l - cap). clear. induction l as [|y l IH]; intros n L; [cbn in L; lia|].
    destruct n; [reflexivity|]. cbn in *. apply IH. lia.
  - symmetry. apply Nat.ltb_lt. lia.
Qed.
Print Assumptions C82_lag.
Example C82_lag_nonvacuous : c_items (fold_left (cpush 2) [5; 6; 7] chan0) = [6; 7] /\ c_lagged (fold_left (cpush 2) [5; 6; 7] chan0) = true.
Proof. split; reflexivity. Qed.
(** A page that lost messages goes on with the ones it has. *)
Theorem C82_lagged : forall P s p g, s_pages s p = Some g -> pg_live g = true -> c_lagged (pg_box g) = true ->
  exists g', s_pages (step P s (EWebMail p)) p = Some g' /\ pg_live g' = true /\ pg_box g' = mkCh (c_items (pg_box g)) false /\ pg_out g' = pg_out g /\ pg_svg g' = pg_svg g.
Proof. intros P s p g E L G. cbn [step]. unfold web_mail. rewrite E, L, G. cbn. rewrite upd_eq. eexists. split; [reflexivity|]. repeat split. Qed.
Print Assumptions C82_lagged.
(** Whatever a page sends, the connections of the others stay as they are. *)
Theorem C82_others : forall P s p f q g, q <> p -> s_pages s q = Some g ->
  exists g', s_pages (step P s (EFrame p f)) q = Some g' /\ pg_live g' = pg_live g /\ pg_out g' = pg_out g /\ pg_svg g' = pg_svg g.
Proof. exact frame_others. Qed.
Print Assumptions C82_others.
(** A position sent by a page reaches every page. *)
Theorem C82_viewport : forall P s p t pos q g, proper (p_oracles P) t (ToPages (Viewport pos)) -> live s p = true ->
  s_pages s q = Some g -> pg_live g = true ->
  exists g', s_pages (step P s (EFrame p (TextIn t))) q = Some g' /\ queued (Viewport pos) (pg_box g')
    /\ (length (c_items (pg_box g)) < 32 -> c_items (pg_box g') = c_items (pg_box g) ++ [Viewport pos]).
Proof. exact viewport_reaches. Qed.
Print Assumptions C82_viewport.
Example C82_viewport_nonvacuous :
  let s := run P0 (init false) [EOpen 0; EOpen 1; EFrame 0 (TextIn (w_outline ++ 44%N :: print_num 10 3)); EWebMail 1] in
  exists g, s_pages s 1 = Some g /\ pg_out g = [ViewportOut (3%N, (0, 0))].
Proof. eexists. split; reflexivity. Qed.
(** What a request of a page finds is told to the editor or to all pages. *)
Theorem C82_answered : forall P s p g r q a, s_pages s p = Some g -> pg_rlive g = true -> (forall f, pg_phase g <> Draw f) ->
  pg_rq g = mkCh (r :: q) false ->
  let s' := step P s (ERead p (Some a)) in
  (exists g', s_pages s' p = Some g' /\ pg_rq g' = mkCh q false /\ pg_out g' = pg_out g /\ pg_live g' = pg_live g) /\
  match r with
  | SpanRange _ | ElemPath _ | FrameLoc _ => (s_ed s = Serving -> s_box s' = s_box s ++ [Jump a])
  | SourceLoc _ => s_box s' = s_box s /\ forall p1 g1, s_pages s p1 = Some g1 -> pg_live g1 = true -> exists g', s_pages s' p1 = Some g' /\ queued (SrcToDoc a) (pg_box g')
  | Cursor _ => s_box s' = s_box s /\ forall p1 g1, s_pages s p1 = Some g1 -> pg_live g1 = true -> exists g', s_pages s' p1 = Some g' /\ queued (CursorPaths a) (pg_box g')
  | FullLatest | Incremental => s_box s' = s_box s
  end.
Proof.
  intros P s p g r q a E R D Q. cbn [step]. unfold render_read. rewrite E, R.
  assert (exists b, match pg_phase g with
    | Idle => if c_lagged (pg_rq g) then set_page p (set_r (mkCh (c_items (pg_rq g)) false) (Drain false) g) s
              else match c_items (pg_rq g) with [] => s | r :: q => process r (Some a) (set_page p (set_r (mkCh q false) (Drain (is_full r)) g) s) end
    | Drain full => if c_lagged (pg_rq g) then set_page p (set_r (mkCh (c_items (pg_rq g)) false) (Draw full) g) s
              else match c_items (pg_rq g) with [] => set_page p (set_r (pg_rq g) (Draw full) g) s
                   | r :: q => process r (Some a) (set_page p (set_r (mkCh q false) (Drain (full || is_full r)) g) s) end
    | Draw _ => s end = process r (Some a) (set_page p (set_r (mkCh q false) b g) s)) as (b & ->).
  { rewrite Q. cbn [c_lagged c_items]. destruct (pg_phase g) as [|f|f]; [eexists; reflexivity|eexists; reflexivity|destruct (D f eq_refl)]. }
  assert (K : forall A cap (c : chan A) x, queued x (cpush cap c x)).
  { intros A cap c x. unfold cpush, queued. destruct (_ <? _); eexists; reflexivity. }
  assert (W : forall w p1 g1, s_pages s p1 = Some g1 -> pg_live g1 = true ->
     exists g', s_pages (to_pages w (set_page p (set_r (mkCh q false) b g) s)) p1 = Some g' /\ queued w (pg_box g')).
  { intros w p1 g1 E1 L1. cbn. destruct (Nat.eq_dec p1 p) as [-> |N].
    - rewrite upd_eq. cbn. eexists. split; [reflexivity|]. cbn. assert (g1 = g) as -> by congruence. rewrite L1. apply K.
    - rewrite upd_neq by exact N. rewrite E1. cbn. eexists. split; [reflexivity|]. cbn. rewrite L1. apply K. }
  assert (T : forall x, s_pages (to_editor x (set_page p (set_r (mkCh q false) b g) s)) p = Some (set_r (mkCh q false) b g)).
  { intros x. unfold to_editor. destruct (serving _); cbn; apply upd_eq. }
  assert (T' : forall x, exists g', s_pages (to_pages x (set_page p (set_r (mkCh q false) b g) s)) p = Some g' /\ pg_rq g' = mkCh q false /\ pg_out g' = pg_out g /\ pg_live g' = pg_live g).
  { intros x. cbn. rewrite upd_eq. cbn. eexists. split; [reflexivity|]. repeat split. }
  assert (U : forall x, s_ed s = Serving -> s_box (to_editor x (set_page p (set_r (mkCh q false) b g) s)) = s_box s ++ [x]).
  { intros x S. unfold to_editor. rewrite (proj2 (serving_true (set_page p (set_r (mkCh q false) b g) s)) S). reflexivity. }
  destruct r; cbn [process]; (split; [first [apply T' | eexists; split; [first [apply T|apply upd_eq]|repeat split]]|]); try reflexivity; try (intros S; exact (U _ S)); split; try reflexivity; apply W.
Qed.
Print Assumptions C82_answered.
Example C82_answered_nonvacuous :
  let s := run P0 (init false) [EOpen 0; EFrame 0 (TextIn (w_srcpath ++ 32%N :: [91%N])); EFrame 0 (TextIn w_current)] in
  (exists g, s_pages s 0 = Some g /\ pg_rlive g = true /\ pg_phase g = Idle /\ pg_rq g = mkCh [ElemPath 8; FullLatest] false) /\
  s_box (step P0 s (ERead 0 (Some 5))) = [Jump 5].
Proof. split; [|reflexivity]. eexists. repeat split; reflexivity. Qed.
(** What is sent to a page reaches it, once and in order. *)
Definition meant (r : wreq) (f : frame_out) : Prop :=
  match r, f with Viewport a, ViewportOut b => a = b | SrcToDoc a, JumpOut b => a = b | CursorPaths a, PathsOut b => a = b | _, _ => False end.
Theorem C82_delivered : forall P p l s g, s_pages s p = Some g -> pg_live g = true -> pg_box g = mkCh l false ->
  exists g' fs, s_pages (run P s (repeat (EWebMail p) (length l))) p = Some g' /\ pg_live g' = true /\ pg_box g' = mkCh [] false /\
    pg_out g' = pg_out g ++ fs /\ Forall2 meant l fs /\ pg_svg g' = pg_svg g.
Proof.
  induction l as [|r l IH]; intros s g E L B.
  - exists g, []. rewrite app_nil_r. cbn. repeat split; auto.
  - cbn [length repeat run fold_left]. change (fold_left (step P) (repeat (EWebMail p) (length l)) (step P s (EWebMail p))) with (run P (step P s (EWebMail p)) (repeat (EWebMail p) (length l))).
    cbn [step]. unfold web_mail. rewrite E, L, B. cbn [c_lagged c_items].
    edestruct (IH (set_page p (set_w true (mkCh l false) (pg_svg g) (pg_out g ++ [web_out r]) g) s)) as (g' & fs & A1 & A2 & A3 & A4 & A5 & A6).
    + cbn. apply upd_eq.
    + reflexivity.
    + reflexivity.
    + exists g', (web_out r :: fs). repeat split; auto.
      * rewrite A4. cbn. rewrite <- app_assoc. reflexivity.
      * constructor; [destruct r; reflexivity|exact A5].
Qed.
Print Assumptions C82_delivered.
Example C82_delivered_nonvacuous :
  let s := run P0 (init false) [EOpen 0; ECtlIn (PanelScrollBy (1%N, (2, 3))); ECtl; ECtlIn (PanelScrollBy (4%N, (5, 6))); ECtl] in
  exists g, s_pages s 0 = Some g /\ pg_live g = true /\ pg_box g = mkCh [Viewport (1%N, (2, 3)); Viewport (4%N, (5, 6))] false.
Proof. eexists. repeat split; reflexivity. Qed.

(** A panic is only for a request without its argument, or a position. *)
Theorem C82_panic_partial : forall O t, page_text O t = Panic -> ~ In 32%N t \/ begins w_outline t.
Proof. exact panic_text. Qed.
Print Assumptions C82_panic_partial.
Theorem C82_panic_refuted : exists t, forall O, page_text O t = Panic.
Proof. exists w_srclocation. reflexivity. Qed.
Print Assumptions C82_panic_refuted.
Example C82_panic_sync : forall O, page_text O (w_outline ++ [44; 45; 49]%N) = Panic.
Proof. reflexivity. Qed.
(** A ping or a pong ends the connection, as it is taken for an unknown text. *)
Theorem C82_ping_refuted : exists P s p, live s p = true /\ live (step P s (EFrame p Other)) p = false.
Proof. exists P0, (run P0 (init false) [EOpen 0]), 0. split; reflexivity. Qed.
Print Assumptions C82_ping_refuted.

(** * C83: the pages show the latest document *)
(** Partial: but for a full render that answers with an older document. *)
Theorem C83_shows_partial : forall P b es0 e es p, let s0 := run P (init b) es0 in let s1 := step P s0 e in let s := run P s1 es in
  live s0 p = true -> signal s0 e -> settled s p ->
  latest s = None \/ shown s p = latest s \/ last_stale P s1 es p False.
Proof. exact shows. Qed.
Print Assumptions C83_shows_partial.
Example C83_nonvacuous :
  let es0 := [EOpen 0; EOpen 1; compiled 3] in
  let s1 := step P0 (run P0 (init false) es0) EFlush in
  let es := [ERead 1 None; EFlush; ERead 1 None; compiled 4; EDraw 1; EFlush; EFlush; ERead 1 None; ERead 1 None; EDraw 1; EWebSvg 1; EWebSvg 1] in
  let s := run P0 s1 es in
  live (run P0 (init false) es0) 1 = true /\ signal (run P0 (init false) es0) EFlush /\ settled s 1 /\ shown s 1 = Some 4 /\ latest s = Some 4.
Proof.
  vm_compute. split; [reflexivity|]. split; [eexists; reflexivity|]. split; [|split; reflexivity]. split; [exact (fun f => f)|].
  eexists. split; [reflexivity|]. repeat split; reflexivity.
Qed.
(** A page that asks for the whole document while a compilation is being shown to another may leave both
    with the older one. *)
Theorem C83_stale_refuted : exists es, let s := run P0 (init false) es in
  settled s 0 /\ latest s = Some 4 /\ shown s 0 = Some 3 /\ (forall e, In e es -> ~ closing e).
Proof.
  exists [EOpen 0; EFrame 0 (TextIn w_current); compiled 3; EFlush; EFlush; ERead 0 None; ERead 0 None; ERead 0 None; EDraw 0; EWebSvg 0;
          EOpen 1; compiled 4; EFlush; EFlush; EFrame 1 (TextIn w_current); ERead 0 None; ERead 0 None; ERead 0 None; EDraw 0; EWebSvg 0].
  cbv zeta. split; [vm_compute; split; [exact (fun f => f)|]; eexists; split; [reflexivity|]; repeat split; reflexivity|].
  split; [vm_compute; reflexivity|]. split; [vm_compute; reflexivity|]. intros e I. repeat (destruct I as [<-|I]; [exact (fun f => f)|]). destruct I.
Qed.
Print Assumptions C83_stale_refuted.
(** A renderer that has read its requests packs the latest document, as a difference to the one before unless a
    page asked for the whole. *)
Theorem C83_packs : forall P p s g d l answers, s_pages s p = Some g -> pg_live g = true -> pg_rlive g = true -> pg_phase g = Idle -> pg_rq g = mkCh l false ->
  l <> [] -> latest s = Some d -> length answers = S (length l) ->
  let whole := existsb (fun r => match r with FullLatest => true | _ => false end) l in
  exists g', s_pages (run P s (map (ERead p) answers ++ [EDraw p])) p = Some g' /\ pg_phase g' = Idle /\ pg_rq g' = mkCh [] false /\
  pg_svg g' = pg_svg g ++ [match whole, pg_cur g with true, Some c => Frame true c | _, _ => Frame false d end].
Proof. exact packs. Qed.
Print Assumptions C83_packs.
Example C83_packs_nonvacuous :
  let s := run P0 (init false) [EOpen 0; compiled 3; EFlush; EFlush] in
  exists g, s_pages s 0 = Some g /\ pg_phase g = Idle /\ pg_rq g = mkCh [Incremental] false /\ latest s = Some 3 /\
  exists g', s_pages (run P0 s [ERead 0 None; ERead 0 None; EDraw 0]) 0 = Some g' /\ pg_svg g' = [Frame false 3].
Proof. vm_compute. eexists. repeat (split; [reflexivity|]). eexists. split; reflexivity. Qed.
(** What is shown is changed by a successful compilation that the refresh style takes, and by nothing else. *)
Theorem C83_taken : forall P s e, latest (step P s e) <> latest s ->
  exists v, e = ENotify v /\ v_status v = Success /\ latest (step P s e) = v_doc v /\ (p_on_save P = true -> v_saved v = true \/ v_entry v = true).
Proof.
  intros P s e H. destruct (near_or P s e 0) as [(N & _)|[(v & ->)|[->|[(a & ->)|[->| ->]]]]]; try contradiction.
  - exists v. split; [reflexivity|]. cbn [step] in *. destruct (s_todo s); [|contradiction]. unfold notify in *.
    destruct (accepted (p_on_save P) v) eqn:A; [|contradiction]. destruct (v_status v); try contradiction.
    split; [reflexivity|]. split; [reflexivity|]. intros O. unfold accepted in A. rewrite O in A. destruct (v_saved v), (v_entry v); auto.
  - exfalso. apply H. cbn [step]. unfold flush. destruct (s_todo s) as [|[|c] l]; try reflexivity. unfold to_editor. destruct (serving _); reflexivity.
  - exfalso. apply H. cbn [step]. destruct (s_pages s 0) as [g|] eqn:E; [|unfold render_read; rewrite E; reflexivity].
    destruct (pg_rlive g) eqn:R; [|rewrite (read_dead 0 a s g E R); reflexivity].
    destruct (read_cases 0 a s g E R) as [->|(s1 & g' & -> & _ & (L & _))]; [reflexivity|exact L].
  - exfalso. apply H. cbn [step]. unfold render_draw. destruct (s_pages s 0) as [g|]; [|reflexivity]. destruct (pg_rlive g); [|reflexivity].
    destruct (pg_phase g) as [| |full]; try reflexivity. destruct (document s); [|reflexivity].
    destruct full; [destruct (pg_cur g)|]; cbv beta iota; (destruct (pg_live g); reflexivity).
  - exfalso. apply H. cbn [step]. destruct (s_pages s 0); reflexivity.
Qed.
Print Assumptions C83_taken.
Example C83_taken_nonvacuous : latest (step P0 (init false) (compiled 3)) <> latest (init false).
Proof. discriminate. Qed.
(** And such a compilation is taken. *)
Theorem C83_taking : forall P s v, s_todo s = [] -> v_status v = Success -> (p_on_save P = true -> v_saved v = true \/ v_entry v = true) ->
  latest (step P s (ENotify v)) = v_doc v /\ In SendIncremental (s_todo (step P s (ENotify v))).
Proof.
  intros P s v T V H. cbn [step]. rewrite T. unfold notify. assert (accepted (p_on_save P) v = true) as ->.
  { unfold accepted. destruct (p_on_save P); [|destruct (v_entry v); reflexivity]. destruct (H eq_refl) as [-> | ->]; [destruct (v_entry v)|]; reflexivity. }
  rewrite V. split; [reflexivity|left; reflexivity].
Qed.
Print Assumptions C83_taking.

(** What was packed for a page reaches it, once and in order. *)
Theorem C83_delivered : forall P p l s g, s_pages s p = Some g -> pg_live g = true -> pg_svg g = l ->
  exists g', s_pages (run P s (repeat (EWebSvg p) (length l))) p = Some g' /\ pg_live g' = true /\ pg_svg g' = [] /\ pg_out g' = pg_out g ++ l /\ pg_box g' = pg_box g.
Proof.
  induction l as [|r l IH]; intros s g E L B.
  - exists g. rewrite app_nil_r. cbn. repeat split; auto.
  - cbn [length repeat run fold_left]. change (fold_left (step P) (repeat (EWebSvg p) (length l)) (step P s (EWebSvg p))) with (run P (step P s (EWebSvg p)) (repeat (EWebSvg p) (length l))).
    cbn [step]. unfold web_svg. rewrite E, L, B.
    edestruct (IH (set_page p (set_w true (pg_box g) l (pg_out g ++ [r]) g) s)) as (g' & A1 & A2 & A3 & A4 & A5).
    + cbn. apply upd_eq.
    + reflexivity.
    + reflexivity.
    + exists g'. repeat split; auto. rewrite A4. cbn. rewrite <- app_assoc. reflexivity.
Qed.
Print Assumptions C83_delivered.
(** The outline of the latest document is told to the editor. *)
Theorem C83_outline : forall P s p g d o l, s_pages s p = Some g -> pg_olive g = true -> pg_ophase g = Draw d -> latest s <> None -> s_ed s = Serving ->
  let s' := step P s (EOutDraw p o l) in
  s_box s' = s_box s ++ [OutlineOf o] /\ latest s' = latest s /\ s_ed s' = Serving /\ s_int s' = irun (reset (s_int s)) (map Intern l) /\
  exists g', s_pages s' p = Some g' /\ pg_olive g' = true /\ pg_ophase g' = Idle /\ pg_oq g' = pg_oq g.
Proof.
  intros P s p g d o l E L D N S. cbn [step]. unfold outline_draw. rewrite E, L, D. assert (exists x, document s = Some x) as (x & ->).
  { unfold latest, document in *. destruct (s_view s) as [[x|]|]; eauto; contradiction. }
  cbv zeta. unfold to_editor. assert (serving s = true) as V by (apply serving_true; exact S). 
  match goal with |- context [serving ?y] => assert (serving y = true) as -> by exact V end.
  repeat split; try assumption. cbn. rewrite upd_eq. eexists. split; [reflexivity|]. repeat split. exact V.
Qed.
Print Assumptions C83_outline.
(** And every signal leads to one. *)
Theorem C83_outline_due : forall P s p g, s_pages s p = Some g -> pg_olive g = true -> pg_ophase g = Idle -> c_lagged (pg_oq g) = false ->
  c_items (pg_oq g) <> [] ->
  let s' := run P s (repeat (EOutRead p) (S (length (c_items (pg_oq g))))) in
  exists g', s_pages s' p = Some g' /\ pg_olive g' = true /\ c_items (pg_oq g') = [] /\ (exists f, pg_ophase g' = Draw f) /\
    s_box s' = s_box s /\ latest s' = latest s /\ s_ed s' = s_ed s.
Proof.
  intros P s p g E L I G N. cbv zeta. remember (c_items (pg_oq g)) as l eqn:Q. destruct l as [|r l]; [contradiction|].
  cbn [length repeat]. change (run P s (EOutRead p :: EOutRead p :: repeat (EOutRead p) (length l))) with (run P (step P s (EOutRead p)) (EOutRead p :: repeat (EOutRead p) (length l))).
  assert (step P s (EOutRead p) = set_page p (set_o true (mkCh l false) (Drain false) g) s) as ->
    by (cbn [step]; unfold outline_read; rewrite E, L, I, G, <- Q; reflexivity).
  assert (H : forall l s g f, s_pages s p = Some g -> pg_olive g = true -> pg_ophase g = Drain f -> pg_oq g = mkCh l false ->
    let s' := run P s (EOutRead p :: repeat (EOutRead p) (length l)) in
    exists g', s_pages s' p = Some g' /\ pg_olive g' = true /\ c_items (pg_oq g') = [] /\ (exists f, pg_ophase g' = Draw f) /\
    s_box s' = s_box s /\ latest s' = latest s /\ s_ed s' = s_ed s).
  { clear. induction l as [|r l IH]; intros s g f E L I Q; cbv zeta.
    - cbn [length repeat run fold_left step]. unfold outline_read. rewrite E, L, I, Q. cbn [c_lagged c_items].
      cbn. rewrite upd_eq. eexists. split; [reflexivity|]. cbn. repeat split; eauto.
    - cbn [length repeat]. change (run P s (EOutRead p :: EOutRead p :: repeat (EOutRead p) (length l))) with (run P (step P s (EOutRead p)) (EOutRead p :: repeat (EOutRead p) (length l))).
      assert (step P s (EOutRead p) = set_page p (set_o true (mkCh l false) (Drain f) g) s) as ->
        by (cbn [step]; unfold outline_read; rewrite E, L, I, Q; reflexivity).
      edestruct (IH (set_page p (set_o true (mkCh l false) (Drain f) g) s)) as (g' & A); [cbn; apply upd_eq|reflexivity|reflexivity|reflexivity|].
      exists g'. exact A. }
  edestruct (H l (set_page p (set_o true (mkCh l false) (Drain false) g) s)) as (g' & A); [cbn; apply upd_eq|reflexivity|reflexivity|reflexivity|].
  exists g'. exact A.
Qed.
Print Assumptions C83_outline_due.
Example C83_outline_nonvacuous :
  let s := run P0 (init false) [EOpen 0; compiled 3; EFlush] in
  exists g, s_pages s 0 = Some g /\ pg_olive g = true /\ pg_ophase g = Idle /\ c_items (pg_oq g) = [Incremental] /\
  s_box (run P0 s [EOutRead 0; EOutRead 0; EOutDraw 0 6 []]) = [OutlineOf 6].
Proof. eexists. repeat split; reflexivity. Qed.

(** * C84: the data plane ends itself only when idle *)
Theorem C84_idle : forall b es, d_over (drun b es) = Some true -> exists es1 es2, es = es1 ++ DBell :: es2 /\ d_over (drun b es1) = None
  /\ b = true /\ (forall c, In c (d_conns (drun b es1)) -> c = Ended) /\ (5000 <= since_arrival es1 0)%N.
Proof. exact idle_only. Qed.
Print Assumptions C84_idle.
Example C84_nonvacuous : d_over (drun true [DAccept; DShake 0 true; DTime 9000; DBell; DEnd 0; DBell; DReport; DTime 4000; DBell; DTime 1000; DBell]) = Some true
  /\ d_over (drun true [DAccept; DShake 0 true; DTime 9000; DBell; DEnd 0; DBell; DReport; DTime 4000; DBell; DTime 900; DBell]) = None.
Proof. split; vm_compute; reflexivity. Qed.
(** And it does, if no connection failed in its handshake. *)
Theorem C84_ends_partial : forall es, (forall c, ~ In (DShake c false) es) -> d_over (drun true es) = None -> (forall c, In c (d_conns (drun true es)) -> c = Ended) ->
  d_over (drun true (es ++ repeat DReport (d_reports (drun true es)) ++ [DTime 5000; DBell])) = Some true.
Proof.
  intros es F. apply ends_idle. apply forallb_forall. intros e I. destruct e as [|c [|]| | | | |]; try reflexivity. exfalso. exact (F c I).
Qed.
Print Assumptions C84_ends_partial.
Example C84_ends_nonvacuous : let s := drun true [DAccept; DShake 0 true; DEnd 0] in d_over s = None /\ d_conns s = [Ended] /\ d_reports s = 1.
Proof. repeat split. Qed.
(** One failed handshake, and it never does. *)
Theorem C84_leak_refuted : exists es0, d_conns (drun true es0) = [Ended] /\ forall es, d_over (drun true (es0 ++ es)) <> Some true.
Proof. exists [DAccept; DShake 0 false]. split; [reflexivity|exact leak]. Qed.
Print Assumptions C84_leak_refuted.
