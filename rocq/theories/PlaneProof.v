(** Proofs about the actors of a preview. *)
From Coq Require Import List NArith Arith Bool Lia.
From Verif Require Import AssocModel AssocProof DigModel DigProof PageModel PageSpec PageProof SpanModel PlaneModel PlaneSpec.
Import ListNotations.
Open Scope nat_scope.

(** * Texts *)
Lemma starts_with_iff w : forall s, starts_with w s = true <-> begins w s.
Proof.
  induction w as [|a w IH]; intros s; cbn [starts_with]; [split; [intros _; exists s; reflexivity|reflexivity]|].
  destruct s as [|b s]; [split; [discriminate|intros (r & E); discriminate E]|].
  rewrite andb_true_iff, N.eqb_eq, IH. split.
  - intros (-> & r & ->). exists r. reflexivity.
  - intros (r & E). cbn in E. injection E as -> ->. split; [reflexivity|exists r; reflexivity].
Qed.
Lemma starts_with_not w s : starts_with w s = false <-> ~ begins w s.
Proof. rewrite <- starts_with_iff. destruct (starts_with w s); split; congruence. Qed.
Lemma same_text_iff a : forall b, same_text a b = true <-> a = b.
Proof.
  induction a as [|x a IH]; intros [|y b]; cbn [same_text]; try (split; (reflexivity || discriminate)).
  rewrite andb_true_iff, N.eqb_eq, IH. split; [intros (-> & ->); reflexivity|intros E; injection E as -> ->; auto].
Qed.
Lemma same_text_not a b : same_text a b = false <-> a <> b.
Proof. rewrite <- same_text_iff. destruct (same_text a b); split; congruence. Qed.

(** * The control plane *)
Definition fatal (m : ereq) : Prop := match m with Shutdown | JumpResolve _ => True | _ => False end.
(** The step leaves the editor actor alone, but for a message to it. *)
Definition mild (s s' : st) : Prop :=
  s_ed s' = s_ed s /\ s_boxopen s' = s_boxopen s /\ s_ctl s' = s_ctl s /\ s_ctlopen s' = s_ctlopen s /\ s_respopen s' = s_respopen s
  /\ s_resp s' = s_resp s /\ forall m, In m (s_box s') -> In m (s_box s) \/ ~ fatal m.
Lemma mild_refl s : mild s s.
Proof. repeat split; auto. Qed.
Lemma mild_trans a b c : mild a b -> mild b c -> mild a c.
Proof.
  intros (A1 & A2 & A3 & A4 & A5 & A6 & A7) (B1 & B2 & B3 & B4 & B5 & B6 & B7).
  repeat split; try congruence. intros m I. destruct (B7 m I) as [J|J]; [apply A7, J|right; exact J].
Qed.
Lemma mild_pages x s : mild s (set_pages x s).
Proof. repeat split; auto. Qed.
Lemma mild_render r s : mild s (to_render r s).
Proof. apply mild_pages. Qed.
Lemma mild_web r s : mild s (to_pages r s).
Proof. apply mild_pages. Qed.
Lemma mild_page p g s : mild s (set_page p g s).
Proof. apply mild_pages. Qed.
Lemma mild_editor m s : ~ fatal m -> mild s (to_editor m s).
Proof.
  intros F. unfold to_editor. destruct (serving s); [|apply mild_refl]. repeat split; auto. cbn.
  intros x I. apply in_app_or in I as [I|[<-|[]]]; auto.
Qed.
Lemma mild_process r a s : mild s (process r a s).
Proof.
  unfold process. destruct a as [a|]; [|apply mild_refl].
  destruct r; try apply mild_refl; try apply mild_web; apply mild_editor; exact (fun f => f).
Qed.
Lemma mild_scroll str s s' : scroll_by_span str s = Some s' -> mild s s'.
Proof.
  unfold scroll_by_span. destruct (span_by_str _ _) as [[[sp|]|]|]; intros E; try discriminate E; injection E as <-;
    (apply mild_render || apply mild_refl).
Qed.
Lemma mild_read p a s : mild s (render_read p a s).
Proof.
  unfold render_read. destruct (s_pages s p) as [g|]; [|apply mild_refl]. destruct (pg_rlive g); [|apply mild_refl].
  destruct (pg_phase g); [| |apply mild_refl]; (destruct (c_lagged (pg_rq g)); [apply mild_page|]);
    destruct (c_items (pg_rq g)); try apply mild_refl; try apply mild_page;
    (eapply mild_trans; [apply mild_page|apply mild_process]).
Qed.
Lemma mild_draw p s : mild s (render_draw p s).
Proof.
  unfold render_draw. destruct (s_pages s p) as [g|]; [|apply mild_refl].
  destruct (pg_rlive g); [|apply mild_refl]. destruct (pg_phase g) as [| |full]; try apply mild_refl.
  destruct (document s) as [d|]; [|apply mild_page].
  destruct full; [destruct (pg_cur g)|]; cbv beta iota; (destruct (pg_live g); apply mild_page).
Qed.
Lemma mild_oread p s : mild s (outline_read p s).
Proof.
  unfold outline_read. destruct (s_pages s p) as [g|]; [|apply mild_refl]. destruct (pg_olive g); [|apply mild_refl].
  destruct (pg_ophase g); [| |apply mild_refl]; (destruct (c_lagged (pg_oq g)); [apply mild_page|]);
    destruct (c_items (pg_oq g)); try apply mild_refl; apply mild_page.
Qed.
Lemma mild_int x s : mild s (set_int x s).
Proof. repeat split; auto. Qed.
Lemma mild_odraw p o l s : mild s (outline_draw p o l s).
Proof.
  unfold outline_draw. destruct (s_pages s p) as [g|]; [|apply mild_refl].
  destruct (pg_olive g); [|apply mild_refl]. destruct (pg_ophase g) as [| |full]; try apply mild_refl.
  destruct (document s) as [d|]; [|apply mild_page].
  eapply mild_trans; [apply mild_int|]. eapply mild_trans; [apply mild_page|]. apply mild_editor. exact (fun f => f).
Qed.
Lemma mild_webmail p s : mild s (web_mail p s).
Proof.
  unfold web_mail. destruct (s_pages s p) as [g|]; [|apply mild_refl]. destruct (pg_live g); [|apply mild_refl].
  destruct (c_lagged (pg_box g)); [apply mild_page|]. destruct (c_items (pg_box g)); [apply mild_refl|apply mild_page].
Qed.
Lemma mild_websvg p s : mild s (web_svg p s).
Proof.
  unfold web_svg. destruct (s_pages s p) as [g|]; [|apply mild_refl]. destruct (pg_live g); [|apply mild_refl].
  destruct (pg_svg g); [apply mild_refl|apply mild_page].
Qed.
Lemma mild_view x s : mild s (set_view x s).
Proof. repeat split; auto. Qed.
Lemma mild_todo x s : mild s (set_todo x s).
Proof. repeat split; auto. Qed.
Lemma mild_notify b v s : mild s (notify b v s).
Proof.
  unfold notify. destruct (accepted b v); [|apply mild_refl]. destruct (v_status v); try apply mild_todo.
  eapply mild_trans; [apply mild_view|apply mild_todo].
Qed.
Lemma mild_flush s : mild s (flush s).
Proof.
  unfold flush. destruct (s_todo s) as [|[|c] l]; [apply mild_refl| |]; (eapply mild_trans; [apply mild_todo|]).
  - apply mild_render.
  - apply mild_editor. exact (fun f => f).
Qed.
(** Texts that reach the editor actor ask for a source location. *)
Lemma to_editor_text O s r : page_text O s = ToEditor r -> begins w_srclocation s /\ exists l, r = JumpResolve l.
Proof.
  unfold page_text. destruct (same_text s w_current); [discriminate|].
  destruct (starts_with w_srclocation s) eqn:S1.
  - destruct (nth_error _ 1); [|discriminate]. intros E. injection E as <-. split; [apply starts_with_iff, S1|eexists; reflexivity].
  - destruct (starts_with w_outline s).
    { destruct (nth_error _ 1); [|discriminate]. cbv zeta. destruct (parse_num _ _ _); [|discriminate].
      destruct (coord _ _); [|discriminate]. destruct (coord _ _); discriminate. }
    destruct (starts_with w_srcpath s).
    { destruct (nth_error _ 1) as [l|]; [|discriminate]. destruct (o_path O l); discriminate. }
    destruct (starts_with w_srcpoint s); [|discriminate].
    destruct (nth_error _ 1) as [l|]; [|discriminate]. destruct (o_loc O l); discriminate.
Qed.
Lemma other_closes O : page_frame O Other = Close.
Proof. reflexivity. Qed.
Lemma mild_frame O p f s : mild s (web_frame O p f s) \/ exists t l, f = TextIn t /\ begins w_srclocation t /\ web_frame O p f s = to_editor (JumpResolve l) s.
Proof.
  unfold web_frame. destruct (s_pages s p) as [g|]; [|left; apply mild_refl]. destruct (pg_live g); [|left; apply mild_refl].
  destruct (page_frame O f) as [r|r|r| | |] eqn:E; try (left; (apply mild_render || apply mild_web || apply mild_refl || apply mild_page); fail).
  destruct f as [t| | |]; try discriminate E. cbn [page_frame] in E.
  right. destruct (to_editor_text O t r E) as (B & l & ->). exists t, l. auto.
Qed.

Definition cause (es : list event) : Prop := (exists e, In e es /\ ending e) \/ (In ECtlClose es /\ In EBoxClose es).
Definition bad (m : cmsg) : Prop := match m with ScrollBySpan str => from_hex str = None | _ => False end.
Definition ctl_inv (es : list event) (s : st) : Prop :=
  (s_ed s <> Serving -> cause es) /\ (s_respopen s = false -> cause es) /\
  (s_ctlopen s = false -> In ECtlClose es) /\ (s_boxopen s = false -> In EBoxClose es) /\
  (forall m, In m (s_box s) -> fatal m -> cause es) /\ (forall m, In m (s_ctl s) -> bad m -> cause es).
Lemma cause_snoc es e : cause es -> cause (es ++ [e]).
Proof.
  intros [(x & I & E)|(A1 & B1)]; [left; exists x; split; [apply in_or_app; auto|exact E]|right; split; apply in_or_app; auto].
Qed.
Lemma cause_now es e : ending e -> cause (es ++ [e]).
Proof. intros E. left. exists e. split; [apply in_or_app; right; left; reflexivity|exact E]. Qed.
Lemma inv_mild es e s s' : ctl_inv es s -> mild s s' -> ctl_inv (es ++ [e]) s'.
Proof.
  intros (I1 & I2 & I3 & I4 & I5 & I6) (M1 & M2 & M3 & M4 & M5 & M6 & M7).
  repeat split; rewrite ?M1, ?M2, ?M3, ?M4, ?M5.
  - intros H. apply cause_snoc, I1, H.
  - intros H. apply cause_snoc, I2, H.
  - intros H. apply in_or_app. left. apply I3, H.
  - intros H. apply in_or_app. left. apply I4, H.
  - intros m J F. destruct (M7 m J) as [K|K]; [apply cause_snoc, (I5 m K F)|contradiction].
  - intros m J F. apply cause_snoc, (I6 m J F).
Qed.
Lemma inv_over es e s s' : cause (es ++ [e]) -> ctl_inv es s -> s_ctlopen s' = s_ctlopen s -> s_boxopen s' = s_boxopen s -> ctl_inv (es ++ [e]) s'.
Proof.
  intros C (I1 & I2 & I3 & I4 & I5 & I6) E1 E2. repeat split; intros; try exact C.
  - rewrite E1 in H. apply in_or_app. left. apply I3, H.
  - rewrite E2 in H. apply in_or_app. left. apply I4, H.
Qed.
Lemma serving_true s : serving s = true <-> s_ed s = Serving.
Proof. unfold serving. destruct (s_ed s); split; congruence. Qed.
Lemma span_by_str_none s str : span_by_str s str = None <-> from_hex str = None.
Proof. unfold span_by_str. destruct (from_hex str); cbn; split; congruence. Qed.
Lemma scroll_none str s : scroll_by_span str s = None -> from_hex str = None.
Proof.
  intros E. apply (span_by_str_none (s_int s)). unfold scroll_by_span in E. destruct (span_by_str _ _) as [[[?|]|]|]; congruence.
Qed.
Lemma inv_step P es s e : ctl_inv es s -> ctl_inv (es ++ [e]) (step P s e).
Proof.
  intros I. destruct e; cbn [step].
  - destruct (s_pages s p); apply (inv_mild _ _ s); auto; (apply mild_page || apply mild_refl).
  - destruct (mild_frame (p_oracles P) p f s) as [M|(t & l & -> & B & E)]; [exact (inv_mild _ _ s _ I M)|].
    rewrite E. unfold to_editor. destruct (serving s); [|apply (inv_mild _ _ s); auto; apply mild_refl].
    apply (inv_over es _ s); auto. apply cause_now. exact B.
  - exact (inv_mild _ _ s _ I (mild_webmail p s)).
  - exact (inv_mild _ _ s _ I (mild_websvg p s)).
  - exact (inv_mild _ _ s _ I (mild_read p answer s)).
  - exact (inv_mild _ _ s _ I (mild_draw p s)).
  - exact (inv_mild _ _ s _ I (mild_oread p s)).
  - exact (inv_mild _ _ s _ I (mild_odraw p o spans s)).
  - destruct (s_todo s); [exact (inv_mild _ _ s _ I (mild_notify _ v s))|exact (inv_mild _ _ s _ I (mild_refl s))].
  - exact (inv_mild _ _ s _ I (mild_flush s)).
  - exact (inv_mild _ _ s _ I (mild_editor (StatusOf c) s (fun f => f))).
  - (* mail *)
    destruct (serving s) eqn:SV; [|exact (inv_mild _ _ s _ I (mild_refl s))].
    destruct (s_box s) as [|m q] eqn:Q; [exact (inv_mild _ _ s _ I (mild_refl s))|].
    pose proof I as (I1 & I2 & I3 & I4 & I5 & I6).
    assert (Hq : mild s (set_box q s)) by (repeat split; auto; cbn; intros x J; left; rewrite Q; right; exact J).
    assert (Hans : forall r, ctl_inv (es ++ [EMail]) (let '(s, sent) := respond r (set_box q s) in if sent then s else leave (p_standalone P) s)).
    { intros r. unfold respond. cbn [s_respopen set_box]. destruct (s_respopen s) eqn:R; cbv beta iota.
      - destruct Hq as (H1 & H2 & H3 & H4 & H5 & H6 & H7). cbn in *.
        repeat split; cbn; intros; try (apply in_or_app; left); try apply cause_snoc; auto; try congruence.
        + apply (I5 m0); [rewrite Q; right; exact H|exact H0].
        + exact (I6 m0 H H0).
      - apply (inv_over es _ s); auto. apply cause_snoc, I2. reflexivity. }
    destruct m; cbn [serve_mail].
    + apply (inv_over es _ s); auto. apply cause_snoc. apply (I5 Shutdown); [rewrite Q; left; reflexivity|exact Logic.I].
    + assert (C : cause es) by (apply (I5 (JumpResolve span)); [rewrite Q; left; reflexivity|exact Logic.I]).
      destruct (scroll_by_span span (set_box q s)) as [s'|] eqn:E.
      * apply mild_scroll in E as (_ & E2 & _ & E4 & _). apply (inv_over es _ s); auto. apply cause_snoc, C.
      * apply (inv_over es _ s); auto. apply cause_snoc, C.
    + apply Hans. 
    + apply Hans.
    + apply Hans.
  - (* editor *)
    destruct (serving s) eqn:SV; [|exact (inv_mild _ _ s _ I (mild_refl s))].
    destruct (s_ctl s) as [|m q] eqn:Q; [exact (inv_mild _ _ s _ I (mild_refl s))|].
    pose proof I as (I1 & I2 & I3 & I4 & I5 & I6). rewrite Q in I6.
    assert (Hq : ctl_inv es (set_ctl q s)) by (repeat split; cbn; auto; intros x J; apply I6; right; exact J).
    destruct m; cbn [serve_ctl].
    + exact (inv_mild _ _ _ _ Hq (mild_render _ _)).
    + exact (inv_mild _ _ _ _ Hq (mild_render _ _)).
    + exact (inv_mild _ _ _ _ Hq (mild_web _ _)).
    + destruct (scroll_by_span span (set_ctl q s)) as [s'|] eqn:E.
      * exact (inv_mild _ _ _ _ Hq (mild_scroll _ _ _ E)).
      * apply (inv_over es _ s); auto. apply cause_snoc. apply (I6 (ScrollBySpan span)); [left; reflexivity|]. exact (scroll_none _ _ E).
    + apply (inv_mild _ _ _ _ Hq). repeat split; auto.
    + apply (inv_mild _ _ _ _ Hq). repeat split; auto.
    + apply (inv_mild _ _ _ _ Hq). repeat split; auto.
  - (* both closed *)
    pose proof I as (I1 & I2 & I3 & I4 & I5 & I6).
    destruct (serving s); cbn [andb]; [|exact (inv_mild _ _ s _ I (mild_refl s))].
    destruct (s_boxopen s) eqn:B; cbn [andb negb]; [exact (inv_mild _ _ s _ I (mild_refl s))|].
    destruct (s_ctlopen s) eqn:C; cbn [andb negb]; [exact (inv_mild _ _ s _ I (mild_refl s))|].
    destruct (s_box s); [|exact (inv_mild _ _ s _ I (mild_refl s))].
    destruct (s_ctl s); [|exact (inv_mild _ _ s _ I (mild_refl s))].
    apply (inv_over es _ s); auto. apply cause_snoc. right. auto.
  - destruct (serving s && s_ctlopen s); [|exact (inv_mild _ _ s _ I (mild_refl s))].
    pose proof I as (I1 & I2 & I3 & I4 & I5 & I6).
    repeat split; cbn; intros; try (apply in_or_app; left; auto; fail); try (apply cause_snoc; auto; fail).
    + apply cause_snoc. apply (I5 m0); auto.
    + apply in_app_or in H as [H|[<-|[]]]; [apply cause_snoc; apply (I6 m0); auto|].
      apply cause_now. destruct m; cbn in *; tauto.
  - unfold to_editor. destruct (serving s); [|exact (inv_mild _ _ s _ I (mild_refl s))].
    apply (inv_over es _ s); auto. apply cause_now. exact Logic.I.
  - pose proof I as (I1 & I2 & I3 & I4 & I5 & I6).
    repeat split; cbn; intros; try (apply cause_snoc; eauto; fail).
    + apply in_or_app. right. left. reflexivity.
    + apply in_or_app. left. auto.
  - apply (inv_over es _ s); auto. apply cause_now. exact Logic.I.
  - pose proof I as (I1 & I2 & I3 & I4 & I5 & I6).
    repeat split; cbn; intros; try (apply cause_snoc; eauto; fail).
    + apply in_or_app. left. auto.
    + apply in_or_app. right. left. reflexivity.
Qed.
Lemma run_app P s a b : run P s (a ++ b) = run P (run P s a) b.
Proof. apply fold_left_app. Qed.
Lemma inv_run P b es : ctl_inv es (run P (init b) es).
Proof.
  induction es as [|e es IH] using rev_ind.
  - repeat split; cbn; intros; congruence || contradiction.
  - rewrite run_app. cbn [run fold_left]. apply inv_step, IH.
Qed.
Lemma serves P b es : s_ed (run P (init b) es) <> Serving -> cause es.
Proof. apply (inv_run P b es). Qed.

(** The mailbox is answered in order. *)
Lemma answers P s : s_ed s = Serving -> s_respopen s = true -> (forall m, In m (s_box s) -> ~ fatal m) ->
  let s' := run P s (repeat EMail (length (s_box s))) in
  s_box s' = [] /\ s_ed s' = Serving /\ s_resp s' = s_resp s ++ flat_map (fun m => some_list (answer m)) (s_box s)
  /\ s_pages s' = s_pages s /\ s_ctl s' = s_ctl s.
Proof.
  remember (s_box s) as q eqn:Q. revert s Q. induction q as [|m q IH]; intros s Q Es Rs F.
  - cbn. rewrite app_nil_r. auto.
  - cbn [length repeat run fold_left]. change (fold_left (step P) (repeat EMail (length q)) (step P s EMail)) with (run P (step P s EMail) (repeat EMail (length q))).
    assert (St : exists r, answer m = Some r /\ step P s EMail = set_resp (s_resp s ++ [r]) (set_box q s)).
    { cbn [step]. rewrite (proj2 (serving_true s) Es), <- Q.
      assert (Fm : ~ fatal m) by (apply F; left; reflexivity).
      destruct m; cbn [fatal] in Fm; try tauto; cbn [serve_mail answer]; unfold respond; cbn [s_respopen set_box]; rewrite Rs; eexists; split; reflexivity. }
    destruct St as (r & Ar & ->).
    specialize (IH (set_resp (s_resp s ++ [r]) (set_box q s)) eq_refl Es Rs (fun x J => F x (or_intror J))).
    cbn in IH. cbn zeta. destruct IH as (A1 & A2 & A3 & A4 & A5). rewrite A1, A2, A3, A4, A5. cbn [flat_map]. rewrite Ar. cbn [some_list app].
    rewrite <- app_assoc. auto.
Qed.
(** Once asked to stop, it stops. *)
Lemma stops P s : s_ed s = Serving -> s_ed (run P (step P s EStop) (repeat EMail (S (length (s_box s))))) <> Serving.
Proof.
  assert (G : forall q s, s_box s = q ++ [Shutdown] -> s_ed (run P s (repeat EMail (S (length q)))) <> Serving).
  { assert (D : forall n s, s_ed s <> Serving -> s_ed (run P s (repeat EMail n)) <> Serving).
    { induction n as [|n IH]; intros s0 H; [exact H|]. cbn [repeat run fold_left].
      change (s_ed (run P (step P s0 EMail) (repeat EMail n)) <> Serving). apply IH. cbn [step].
      destruct (serving s0) eqn:SV; [apply serving_true in SV; contradiction|exact H]. }
    intros q. induction q as [|m q IH]; intros s0 B.
    - cbn. unfold serving. destruct (s_ed s0) eqn:Es; try congruence. rewrite B. cbn. destruct (p_standalone P); discriminate.
    - cbn [length]. change (repeat EMail (S (S (length q)))) with (EMail :: repeat EMail (S (length q))). cbn [run fold_left].
      change (s_ed (run P (step P s0 EMail) (repeat EMail (S (length q)))) <> Serving).
      destruct (s_ed (step P s0 EMail)) eqn:Es; try (apply D; congruence).
      apply IH. cbn [step] in *. destruct (serving s0) eqn:SV; [|apply not_true_iff_false in SV; rewrite serving_true in SV; congruence].
      rewrite B in *. cbn [app] in *. destruct m; cbn [serve_mail] in *.
      + destruct (p_standalone P); discriminate Es.
      + destruct (scroll_by_span _ _); cbn in Es; [destruct (p_standalone P)|]; discriminate Es.
      + unfold respond in *. cbn [s_respopen set_box] in *. destruct (s_respopen s0); [reflexivity|]. cbn in Es. destruct (p_standalone P); discriminate Es.
      + unfold respond in *. cbn [s_respopen set_box] in *. destruct (s_respopen s0); [reflexivity|]. cbn in Es. destruct (p_standalone P); discriminate Es.
      + unfold respond in *. cbn [s_respopen set_box] in *. destruct (s_respopen s0); [reflexivity|]. cbn in Es. destruct (p_standalone P); discriminate Es. }
  intros Es. apply G. cbn [step]. unfold to_editor. rewrite (proj2 (serving_true s) Es). reflexivity.
Qed.

(** * What a page shows *)
Lemma last_doc_app a : forall b, last_doc (a ++ b) = match last_doc b with Some d => Some d | None => last_doc a end.
Proof.
  induction a as [|f a IH]; intros b; cbn [app last_doc]; [destruct (last_doc b); reflexivity|].
  rewrite IH. destruct (last_doc b); reflexivity.
Qed.
Definition docs (g : page) : option nat := last_doc (pg_out g ++ pg_svg g).
Definition near (s s' : st) (p : nat) : Prop :=
  latest s' = latest s /\ (In SendIncremental (s_todo s) -> In SendIncremental (s_todo s')) /\
  match s_pages s p with
  | None => s_pages s' p = None
  | Some g => exists g', s_pages s' p = Some g' /\ pg_rlive g' = pg_rlive g /\ pg_phase g' = pg_phase g
      /\ (pg_rlive g = true -> c_items (pg_rq g) <> [] -> c_items (pg_rq g') <> [])
      /\ (pg_rlive g = true -> c_lagged (pg_rq g) = true -> c_lagged (pg_rq g') = true)
      /\ (pg_live g' = true -> pg_live g = true /\ docs g' = docs g)
  end.
Lemma near_same s s' p : s_pages s' p = s_pages s p -> latest s' = latest s -> s_todo s' = s_todo s -> near s s' p.
Proof.
  intros E L T. split; [exact L|]. rewrite T. split; [auto|]. rewrite E. destruct (s_pages s p) as [g|]; [|reflexivity].
  exists g. repeat split; auto.
Qed.
Lemma near_trans a b c p : near a b p -> near b c p -> near a c p.
Proof.
  intros (A1 & A2 & A3) (B1 & B2 & B3). split; [congruence|]. split; [auto|].
  destruct (s_pages a p) as [g|].
  - destruct A3 as (g1 & E1 & R1 & F1 & Q1 & L1 & D1). rewrite E1 in B3. destruct B3 as (g2 & E2 & R2 & F2 & Q2 & L2 & D2).
    exists g2. rewrite R2, F2, R1, F1. rewrite R1 in Q2, L2. repeat split; auto.
    + apply D1. apply D2. assumption.
    + rewrite (proj2 (D2 H)). apply D1. apply D2. assumption.
  - rewrite A3 in B3. exact B3.
Qed.
Lemma cpush_nonempty {A} cap (c : chan A) x : c_items (cpush cap c x) <> [].
Proof. unfold cpush. destruct (_ <? _); cbn; destruct (c_items c); try discriminate; cbn; intros E; apply app_eq_nil in E as (_ & E); discriminate E. Qed.
Lemma cpush_lagged {A} cap (c : chan A) x : c_lagged c = true -> c_lagged (cpush cap c x) = true.
Proof. unfold cpush. destruct (_ <? _); cbn; auto. Qed.
Lemma near_render r s p : near s (to_render r s) p.
Proof.
  split; [reflexivity|]. split; [auto|]. cbn [to_render s_pages set_pages]. destruct (s_pages s p) as [g|]; [|reflexivity].
  cbn [option_map]. eexists. split; [reflexivity|]. cbn. repeat split; auto.
  - intros -> _. apply cpush_nonempty.
  - intros -> L. apply cpush_lagged, L.
Qed.
Lemma near_web r s p : near s (to_pages r s) p.
Proof.
  split; [reflexivity|]. split; [auto|]. cbn [to_pages s_pages set_pages]. destruct (s_pages s p) as [g|]; [|reflexivity].
  cbn [option_map]. eexists. split; [reflexivity|]. cbn. repeat split; auto.
Qed.
Lemma near_editor m s p : near s (to_editor m s) p.
Proof. unfold to_editor. destruct (serving s); apply near_same; reflexivity. Qed.
Lemma near_other q g s p : q <> p -> near s (set_page q g s) p.
Proof. intros D. apply near_same; try reflexivity. cbn. rewrite upd_neq by congruence. reflexivity. Qed.
Lemma near_process r a s p : near s (process r a s) p.
Proof.
  unfold process. destruct a as [a|]; [|apply near_same; reflexivity].
  destruct r; (apply near_web || apply near_editor || (apply near_same; reflexivity)).
Qed.
Lemma near_scroll str s s' p : scroll_by_span str s = Some s' -> near s s' p.
Proof.
  unfold scroll_by_span. destruct (span_by_str _ _) as [[[sp|]|]|]; intros E; try discriminate E; injection E as <-;
    (apply near_render || (apply near_same; reflexivity)).
Qed.
(** A change of the page itself that is near. *)
Lemma near_page s p g g' : s_pages s p = Some g -> pg_rlive g' = pg_rlive g -> pg_phase g' = pg_phase g -> pg_rq g' = pg_rq g ->
  (pg_live g' = true -> pg_live g = true /\ docs g' = docs g) -> near s (set_page p g' s) p.
Proof.
  intros E R F Q D. split; [reflexivity|]. split; [auto|]. rewrite E. exists g'. cbn. rewrite upd_eq, Q. auto 10.
Qed.
Lemma near_webframe O q f s p : near s (web_frame O q f s) p.
Proof.
  unfold web_frame. destruct (s_pages s q) as [g|] eqn:G; [|apply near_same; reflexivity].
  destruct (pg_live g); [|apply near_same; reflexivity].
  destruct (page_frame O f); try (apply near_render || apply near_web || apply near_editor || (apply near_same; reflexivity)).
  - destruct (Nat.eq_dec q p) as [->|D]; [|apply near_other, D]. apply (near_page _ _ g); auto. cbn. discriminate.
  - destruct (Nat.eq_dec q p) as [->|D]; [|apply near_other, D]. apply (near_page _ _ g); auto. cbn. discriminate.
Qed.
Lemma near_webmail q s p : near s (web_mail q s) p.
Proof.
  unfold web_mail. destruct (s_pages s q) as [g|] eqn:G; [|apply near_same; reflexivity].
  destruct (pg_live g) eqn:L; [|apply near_same; reflexivity].
  destruct (c_lagged (pg_box g)); [|destruct (c_items (pg_box g)) as [|r l]; [apply near_same; reflexivity|]];
    (destruct (Nat.eq_dec q p) as [->|D]; [|apply near_other, D]); apply (near_page _ _ g); auto.
  intros _. split; [exact L|]. unfold docs. cbn. rewrite !last_doc_app. destruct (last_doc (pg_svg g)); [reflexivity|].
  destruct r; reflexivity.
Qed.
Lemma near_websvg q s p : near s (web_svg q s) p.
Proof.
  unfold web_svg. destruct (s_pages s q) as [g|] eqn:G; [|apply near_same; reflexivity].
  destruct (pg_live g) eqn:L; [|apply near_same; reflexivity].
  destruct (pg_svg g) as [|f l] eqn:V; [apply near_same; reflexivity|].
  destruct (Nat.eq_dec q p) as [->|D]; [|apply near_other, D]. apply (near_page _ _ g); auto.
  intros _. split; [exact L|]. unfold docs. cbn. rewrite V, <- app_assoc. reflexivity.
Qed.
Lemma near_oread q s p : near s (outline_read q s) p.
Proof.
  unfold outline_read. destruct (s_pages s q) as [g|] eqn:G; [|apply near_same; reflexivity].
  destruct (pg_olive g); [|apply near_same; reflexivity].
  destruct (pg_ophase g); [| |apply near_same; reflexivity]; (destruct (c_lagged (pg_oq g)); [|destruct (c_items (pg_oq g))]);
    try (apply near_same; reflexivity); (destruct (Nat.eq_dec q p) as [->|D]; [apply (near_page _ _ g); auto|apply near_other, D]).
Qed.
Lemma near_odraw q o l s p : near s (outline_draw q o l s) p.
Proof.
  unfold outline_draw. destruct (s_pages s q) as [g|] eqn:G; [|apply near_same; reflexivity].
  destruct (pg_olive g); [|apply near_same; reflexivity].
  destruct (pg_ophase g); try (apply near_same; reflexivity).
  destruct (document s).
  - cbv zeta. eapply near_trans; [apply (near_same s (set_int (irun (reset (s_int s)) (map Intern l)) s)); reflexivity|].
    eapply near_trans; [|apply near_editor].
    destruct (Nat.eq_dec q p) as [->|D]; [apply (near_page _ _ g); auto|apply near_other, D].
  - destruct (Nat.eq_dec q p) as [->|D]; [apply (near_page _ _ g); auto|apply near_other, D].
Qed.
Lemma near_mail b m s p : near s (serve_mail b m s) p.
Proof.
  destruct m; cbn [serve_mail]; try (apply near_same; reflexivity);
    try (unfold respond; destruct (s_respopen s); apply near_same; reflexivity).
  destruct (scroll_by_span span s) as [s'|] eqn:E; [|apply near_same; reflexivity].
  eapply near_trans; [apply (near_scroll _ _ _ _ E)|apply near_same; reflexivity].
Qed.
Lemma near_ctl m s p : near s (serve_ctl m s) p.
Proof.
  destruct m; cbn [serve_ctl]; try apply near_render; try apply near_web; try (apply near_same; reflexivity).
  destruct (scroll_by_span span s) as [s'|] eqn:E; [apply (near_scroll _ _ _ _ E)|apply near_same; reflexivity].
Qed.
Definition pend (s : st) (p : nat) : Prop :=
  In SendIncremental (s_todo s) \/
  exists g, s_pages s p = Some g /\ pg_rlive g = true /\ (c_items (pg_rq g) <> [] \/ c_lagged (pg_rq g) = true \/ pg_phase g <> Idle).
Definition fresh (s : st) (p : nat) : Prop := latest s = None \/ exists g, s_pages s p = Some g /\ docs g = latest s.
Definition good (s : st) (p : nat) : Prop := live s p = false \/ pend s p \/ fresh s p.
Lemma near_good s s' p : near s s' p -> good s p -> good s' p.
Proof.
  intros (N1 & N2 & N3) G. unfold good, live in *. destruct (s_pages s p) as [g|] eqn:E.
  - destruct N3 as (g' & E' & R & F & Q & L & D). rewrite E'. destruct (pg_live g') eqn:V; [|left; reflexivity].
    destruct (D eq_refl) as (Lg & Dg). destruct G as [G|[[G|(x & X & R1 & G)]|[G|(x & X & G)]]].
    + congruence.
    + right; left; left; auto.
    + right; left; right. rewrite E in X. injection X as <-. exists g'. rewrite R, F. intuition.
    + right; right; left. congruence.
    + right; right; right. rewrite E in X. injection X as <-. exists g'. split; [exact E'|congruence].
  - rewrite N3. left. reflexivity.
Qed.
Definition rl (s : st) (p : nat) : Prop := match s_pages s p with Some g => pg_live g = true -> pg_rlive g = true | None => True end.
Lemma near_rl s s' p : near s s' p -> rl s p -> rl s' p.
Proof.
  intros (_ & _ & N) R. unfold rl in *. destruct (s_pages s p) as [g|].
  - destruct N as (g' & -> & R1 & _ & _ & _ & D). intros V. rewrite R1. apply R, D, V.
  - rewrite N. exact Logic.I.
Qed.
(** The steps that are not near, apart from the drawing. *)
Lemma near_or P s e p : near s (step P s e) p \/ (exists v, e = ENotify v) \/ e = EFlush \/ (exists a, e = ERead p a) \/ e = EDraw p \/ e = EOpen p.
Proof.
  destruct e; cbn [step].
  - destruct (Nat.eq_dec p0 p) as [->|D]; [auto 10|]. left. destruct (s_pages s p0); [apply near_same; reflexivity|apply near_other, D].
  - left. apply near_webframe.
  - left. apply near_webmail.
  - left. apply near_websvg.
  - destruct (Nat.eq_dec p0 p) as [->|D]; [eauto 10|]. left. unfold render_read.
    destruct (s_pages s p0) as [g|]; [|apply near_same; reflexivity]. destruct (pg_rlive g); [|apply near_same; reflexivity].
    destruct (pg_phase g); [| |apply near_same; reflexivity]; (destruct (c_lagged (pg_rq g)); [apply near_other, D|]);
      destruct (c_items (pg_rq g)); try (apply near_same; reflexivity); try (apply near_other, D);
      (eapply near_trans; [apply near_other, D|apply near_process]).
  - destruct (Nat.eq_dec p0 p) as [->|D]; [auto 10|]. left. unfold render_draw.
    destruct (s_pages s p0) as [g|]; [|apply near_same; reflexivity]. destruct (pg_rlive g); [|apply near_same; reflexivity].
    destruct (pg_phase g) as [| |full]; try (apply near_same; reflexivity).
    destruct (document s) as [d|]; [|apply near_other, D].
    destruct full; [destruct (pg_cur g)|]; cbv beta iota; (destruct (pg_live g); apply near_other, D).
  - left. apply near_oread.
  - left. apply near_odraw.
  - eauto 10.
  - auto 10.
  - left. apply near_editor.
  - left. destruct (serving s); [|apply near_same; reflexivity]. destruct (s_box s); [apply near_same; reflexivity|].
    eapply near_trans; [|apply near_mail]. apply near_same; reflexivity.
  - left. destruct (serving s); [|apply near_same; reflexivity]. destruct (s_ctl s); [apply near_same; reflexivity|].
    eapply near_trans; [|apply near_ctl]. apply near_same; reflexivity.
  - left. destruct (_ && _); [|apply near_same; reflexivity]. destruct (s_box s); [destruct (s_ctl s)|]; apply near_same; reflexivity.
  - left. destruct (_ && _); apply near_same; reflexivity.
  - left. apply near_editor.
  - left. apply near_same; reflexivity.
  - left. apply near_same; reflexivity.
  - left. apply near_same; reflexivity.
Qed.
(** The signals. *)
Lemma pend_render r s p : live s p = true -> rl s p -> pend (to_render r s) p.
Proof.
  unfold live, rl. destruct (s_pages s p) as [g|] eqn:E; [|discriminate]. intros L R. right. cbn. rewrite E. cbn [option_map].
  eexists. split; [reflexivity|]. cbn. rewrite (R L). split; [reflexivity|]. left. apply cpush_nonempty.
Qed.
Lemma page_current O : page_text O w_current = ToRender FullLatest.
Proof. reflexivity. Qed.
(** Reading. *)
Lemma read_cases p a s g : s_pages s p = Some g -> pg_rlive g = true ->
  render_read p a s = s \/ exists s1 g', s1 = set_page p g' s /\ (exists q ph, g' = set_r q ph g /\ ph <> Idle) /\ near s1 (render_read p a s) p.
Proof.
  intros E R. unfold render_read. rewrite E, R.
  destruct (pg_phase g) as [|full|]; [| |left; reflexivity].
  - destruct (c_lagged (pg_rq g)).
    + right. eexists _, _. split; [reflexivity|]. split; [|apply near_same; reflexivity]. eexists _, _. split; [reflexivity|discriminate].
    + destruct (c_items (pg_rq g)); [left; reflexivity|]. right. eexists _, _. split; [reflexivity|]. split; [|apply near_process].
      eexists _, _. split; [reflexivity|discriminate].
  - destruct (c_lagged (pg_rq g)).
    + right. eexists _, _. split; [reflexivity|]. split; [|apply near_same; reflexivity]. eexists _, _. split; [reflexivity|discriminate].
    + destruct (c_items (pg_rq g)).
      * right. eexists _, _. split; [reflexivity|]. split; [|apply near_same; reflexivity]. eexists _, _. split; [reflexivity|discriminate].
      * right. eexists _, _. split; [reflexivity|]. split; [|apply near_process]. eexists _, _. split; [reflexivity|discriminate].
Qed.
Lemma read_dead p a s g : s_pages s p = Some g -> pg_rlive g = false -> render_read p a s = s.
Proof. intros E R. unfold render_read. rewrite E, R. reflexivity. Qed.
Lemma page_stays P s e p g : s_pages s p = Some g -> exists g', s_pages (step P s e) p = Some g'.
Proof.
  intros E. destruct (near_or P s e p) as [(_ & _ & N)|[(v & ->)|[->|[(a & ->)|[->| ->]]]]].
  - rewrite E in N. destruct N as (g' & N & _). eauto.
  - cbn [step]. destruct (s_todo s); [|eauto]. unfold notify. destruct (accepted _ v); [|eauto]. destruct (v_status v); cbn; eauto.
  - cbn [step]. unfold flush. destruct (s_todo s) as [|[|c] l]; [eauto| |].
    + cbn. rewrite E. cbn. eauto.
    + unfold to_editor. destruct (serving _); cbn; eauto.
  - cbn [step]. destruct (pg_rlive g) eqn:R; [|rewrite (read_dead p a s g E R); eauto].
    destruct (read_cases p a s g E R) as [->|(s1 & g' & -> & _ & (_ & _ & N))]; [eauto|].
    cbn [s_pages set_page set_pages] in N. rewrite upd_eq in N. destruct N as (g2 & N & _). eauto.
  - cbn [step]. unfold render_draw. rewrite E. destruct (pg_rlive g); [|eauto]. destruct (pg_phase g) as [| |full]; eauto.
    destruct (document s).
    + destruct full; [destruct (pg_cur g)|]; cbv beta iota; (destruct (pg_live g); cbn; rewrite upd_eq; eauto).
    + cbn. rewrite upd_eq. eauto.
  - cbn [step]. rewrite E. eauto.
Qed.
Lemma rl_step P s e p : rl s p -> rl (step P s e) p.
Proof.
  intros R. destruct (near_or P s e p) as [N|[(v & ->)|[->|[(a & ->)|[->| ->]]]]].
  - exact (near_rl _ _ _ N R).
  - cbn [step]. destruct (s_todo s); [|exact R]. unfold notify. destruct (accepted _ v); [|exact R]. destruct (v_status v); exact R.
  - cbn [step]. unfold flush. destruct (s_todo s) as [|[|c] l]; [exact R| |].
    + eapply near_rl; [apply near_render|exact R].
    + eapply near_rl; [apply near_editor|exact R].
  - cbn [step]. destruct (s_pages s p) as [g|] eqn:E.
    + destruct (pg_rlive g) eqn:Rg; [|rewrite (read_dead p a s g E Rg); exact R].
      destruct (read_cases p a s g E Rg) as [->|(s1 & g' & -> & (q & ph & -> & _) & N)]; [exact R|].
      eapply near_rl; [exact N|]. unfold rl. cbn. rewrite upd_eq. cbn. auto.
    + unfold render_read. rewrite E. exact R.
  - cbn [step]. unfold render_draw, rl in *. destruct (s_pages s p) as [g|] eqn:E; [|rewrite E; exact R].
    destruct (pg_rlive g) eqn:Rg; [|rewrite E; rewrite Rg; exact R]. destruct (pg_phase g) as [| |full]; try (rewrite E, Rg; exact R).
    destruct (document s).
    + destruct full; [destruct (pg_cur g)|]; cbv beta iota; (destruct (pg_live g) eqn:L; cbn; rewrite upd_eq; cbn; auto; congruence).
    + cbn. rewrite upd_eq. cbn. auto.
  - cbn [step]. destruct (s_pages s p) eqn:E; [exact R|]. unfold rl. cbn. rewrite upd_eq. cbn. auto.
Qed.
Lemma rl_run P p : forall es s, rl s p -> rl (run P s es) p.
Proof. induction es as [|e es IH]; intros s R; [exact R|]. cbn. apply IH, rl_step, R. Qed.
(** Everything but a drawing keeps the page good. *)
Lemma good_step P s e p : rl s p -> (exists g, s_pages s p = Some g) -> good s p -> draws s p e = false -> good (step P s e) p.
Proof.
  intros R (g & E) G D. destruct (near_or P s e p) as [N|[(v & ->)|[->|[(a & ->)|[->| ->]]]]].
  - exact (near_good _ _ _ N G).
  - cbn [step]. destruct (s_todo s) eqn:T; [|exact G]. unfold notify. destruct (accepted _ v); [|exact G].
    assert (K : forall c, good (set_todo [SendStatus c] s) p).
    { intros c. destruct G as [G|[[G|G]|G]]; [left; exact G| |right; left; right; exact G|right; right; exact G].
      rewrite T in G. contradiction. }
    destruct (v_status v); try apply K. right. left. left. left. reflexivity.
  - cbn [step]. unfold flush. destruct (s_todo s) as [|[|c] l] eqn:T; [exact G| |].
    + destruct (live s p) eqn:L.
      * right. left. apply pend_render; [exact L|exact R].
      * left. unfold live in *. cbn. rewrite E in *. cbn. exact L.
    + eapply near_good; [apply near_editor|]. destruct G as [G|[[G|G]|G]].
      * left. exact G.
      * rewrite T in G. destruct G as [G|G]; [discriminate G|]. right. left. left. exact G.
      * right. left. right. exact G.
      * right. right. exact G.
  - cbn [step]. destruct (pg_rlive g) eqn:Rg; [|rewrite (read_dead p a s g E Rg); exact G].
    destruct (read_cases p a s g E Rg) as [->|(s1 & g' & -> & (q & ph & -> & I) & N)]; [exact G|].
    eapply near_good; [exact N|]. right. left. right. eexists. cbn. rewrite upd_eq. split; [reflexivity|]. cbn. auto.
  - cbn [draws] in D. rewrite Nat.eqb_refl, E in D. cbn [andb] in D. cbn [step]. unfold render_draw. rewrite E.
    destruct (pg_rlive g); [|exact G]. destruct (pg_phase g); try exact G. discriminate D.
  - cbn [step]. rewrite E. exact G.
Qed.
(** A drawing makes it good unless it is stale. *)
Lemma draw_good s p : rl s p -> draws s p (EDraw p) = true -> good (render_draw p s) p \/ stale_draw s p.
Proof.
  intros R D. cbn [draws] in D. rewrite Nat.eqb_refl in D. destruct (s_pages s p) as [g|] eqn:E; [|discriminate D]. cbn [andb] in D.
  destruct (pg_rlive g) eqn:Rg; [|discriminate D]. destruct (pg_phase g) as [| |full] eqn:F; try discriminate D. clear D.
  unfold render_draw. rewrite E, Rg, F.
  assert (DL : document s = latest s) by (unfold document, latest; destruct (s_view s) as [[d|]|]; reflexivity).
  rewrite DL. destruct (latest s) as [d|] eqn:L; [|left; right; right; left; exact L].
  assert (K : forall f, good (if pg_live g then set_page p (set_draw (Some d) (pg_svg g ++ [Frame f d]) true g) s else set_page p (set_draw (Some d) (pg_svg g) false g) s) p).
  { intros f. destruct (pg_live g) eqn:V.
    - right. right. right. eexists. cbn [s_pages set_page set_pages]. rewrite upd_eq. split; [reflexivity|].
      unfold docs. cbn [set_draw pg_out pg_svg]. rewrite app_assoc, last_doc_app. cbn. symmetry. exact L.
    - left. unfold live. cbn. rewrite upd_eq. cbn. exact V. }
  destruct full; [|left; apply K]. destruct (pg_cur g) as [c|] eqn:C; [|left; apply K].
  destruct (Nat.eq_dec d c) as [->|D]; [left; apply K|]. right. exists g, c. rewrite L. repeat split; auto; congruence.
Qed.
Lemma last_stale_snoc P p e : forall es s b, last_stale P s (es ++ [e]) p b = if draws (run P s es) p e then stale_draw (run P s es) p else last_stale P s es p b.
Proof. induction es as [|x es IH]; intros s b; [reflexivity|]. cbn. apply IH. Qed.
Lemma good_run P p : forall es s, rl s p -> (exists g, s_pages s p = Some g) -> good s p ->
  good (run P s es) p \/ last_stale P s es p False.
Proof.
  intros es s R X G.
  assert (A1 : rl (run P s es) p /\ (exists g, s_pages (run P s es) p = Some g) /\ (good (run P s es) p \/ last_stale P s es p False)).
  { induction es as [|e es IH] using rev_ind; [auto|]. destruct IH as (R1 & (g1 & X1) & I1). rewrite run_app. cbn [run fold_left].
    split; [apply rl_step, R1|]. split; [exact (page_stays P _ e p g1 X1)|]. rewrite last_stale_snoc.
    destruct (draws (run P s es) p e) eqn:D.
    - assert (e = EDraw p) as -> by (destruct e; cbn in D; try discriminate D; apply andb_true_iff in D as (D & _); apply Nat.eqb_eq in D; subst; reflexivity).
      apply draw_good; assumption.
    - destruct I1 as [I1|I1]; [left; apply good_step; eauto|right; exact I1]. }
  tauto.
Qed.
Lemma settled_shows s p : settled s p -> good s p -> latest s = None \/ shown s p = latest s.
Proof.
  intros (T & g & E & L & Q & G & F & V) [H|[[H|(x & X & _ & H)]|[H|(x & X & H)]]].
  - unfold live in H. rewrite E in H. congruence.
  - contradiction.
  - rewrite E in X. injection X as <-. rewrite Q, G, F in H. destruct H as [H|[H|H]]; congruence.
  - left. exact H.
  - right. rewrite E in X. injection X as <-. unfold shown. rewrite E. unfold docs in H. rewrite V, app_nil_r in H. exact H.
Qed.
Lemma signal_good P s e p : rl s p -> live s p = true -> signal s e -> good (step P s e) p.
Proof.
  intros R L S. destruct e; cbn [signal] in S; try contradiction.
  - destruct f as [t| | |]; try contradiction. destruct S as (-> & Lq). right. left. cbn [step]. unfold web_frame. unfold live in Lq.
    destruct (s_pages s p0) as [g|]; [|discriminate Lq]. rewrite Lq. cbn [page_frame]. rewrite page_current. apply pend_render; assumption.
  - destruct S as (l & T). right. left. cbn [step]. unfold flush. rewrite T. apply pend_render; assumption.
Qed.
Lemma shows P b es0 e es p : let s0 := run P (init b) es0 in let s1 := step P s0 e in
  live s0 p = true -> signal s0 e -> settled (run P s1 es) p ->
  latest (run P s1 es) = None \/ shown (run P s1 es) p = latest (run P s1 es) \/ last_stale P s1 es p False.
Proof.
  intros s0 s1 L S T.
  assert (R0 : rl s0 p) by (apply rl_run; exact Logic.I).
  assert (G1 : good s1 p) by (apply signal_good; assumption).
  assert (X1 : exists g, s_pages s1 p = Some g).
  { unfold live in L. destruct (s_pages s0 p) as [g|] eqn:E; [|discriminate L]. exact (page_stays P s0 e p g E). }
  destruct (good_run P p es s1 (rl_step P s0 e p R0) X1 G1) as [G|G]; [|auto].
  destruct (settled_shows _ _ T G); auto.
Qed.

(** * The requests of a page *)
Lemma hex_chars i : Forall (fun c => (48 <= c <= 57 \/ 97 <= c <= 122)%N) (to_hex i).
Proof.
  eapply Forall_impl; [|apply (print_chars 16 (id_to_u64 i)); lia]. intros c (d & D & ->). unfold dchar. destruct (N.ltb_spec d 10); lia.
Qed.
Lemma hex_solid i : solid (to_hex i).
Proof.
  eapply Forall_impl; [|apply hex_chars]. intros c H. cbn in H. unfold is_white.
  repeat (rewrite orb_false_iff). repeat split; try (apply N.eqb_neq; lia); apply andb_false_iff; rewrite !N.leb_gt; lia.
Qed.
Lemma hex_not i c : (c < 48)%N -> ~ In c (to_hex i).
Proof. intros H I. pose proof (proj1 (Forall_forall _ _) (hex_chars i) c I) as X. cbn in X. lia. Qed.
Lemma dec_not n c : (c < 48)%N -> ~ In c (print_num 10 n).
Proof. intros H I. pose proof (proj1 (Forall_forall _ _) (dec_range n) c I) as X. cbn in X. lia. Qed.
Ltac absent := let I := fresh in cbn; intros I; repeat (destruct I as [I|I]; [discriminate I|]); exact I.
Lemma split_word c w r : ~ In c w -> ~ In c r -> split c (w ++ c :: r) = [w; r].
Proof. intros A1 B1. rewrite split_app by exact A1. rewrite split_none by exact B1. reflexivity. Qed.
Lemma begins_app w r : starts_with w (w ++ r) = true.
Proof. apply starts_with_iff. exists r. reflexivity. Qed.
Lemma sync_text O l : page_text O (w_outline ++ 44%N :: l) =
  match nth_error (split 44%N (w_outline ++ 44%N :: l)) 1 with
  | None => Panic
  | Some l => match parse_num 10%N max64 (nth 0 (split 32%N l) []), coord O (nth_error (split 32%N l) 1), coord O (nth_error (split 32%N l) 2) with
              | Some p, Some x, Some y => ToPages (Viewport (p, (x, y))) | _, _, _ => Panic end
  end.
Proof. reflexivity. Qed.
Lemma proper_text O s a : proper O s a -> page_text O s = a.
Proof.
  intros H. destruct H as [|i|n Hn|n xs x Hn Fx S1 C1|n xs x ys y Hn Fx S1 C1 Fy S2 C2|js p Fp S1|js p Fp S1].
  - reflexivity.
  - change (page_text O (w_srclocation ++ 32%N :: to_hex i)) with
      (match nth_error (split 32%N (w_srclocation ++ 32%N :: to_hex i)) 1 with None => Panic | Some l => ToEditor (JumpResolve (trim l)) end).
    rewrite split_word by (absent || (apply hex_not; lia)). cbn [nth_error].
    pose proof (trim_solid [] (to_hex i) [] (Forall_nil _) (Forall_nil _) (print_nonempty 16 _) (hex_solid i)) as T.
    rewrite app_nil_r in T. cbn [app] in T. rewrite T. reflexivity.
  - rewrite sync_text, split_word by (absent || (apply dec_not; lia)). cbn [nth_error].
    rewrite (split_none 32%N) by (apply dec_not; lia). cbn [nth nth_error coord]. rewrite parse_print by lia. reflexivity.
  - rewrite sync_text, split_word; [|absent|intros I; apply in_app_or in I as [I|[I|I]]; [revert I; apply dec_not; lia|discriminate I|contradiction]].
    cbn [nth_error]. rewrite split_word by (auto; apply dec_not; lia). cbn [nth nth_error coord]. rewrite parse_print by lia. rewrite Fx. reflexivity.
  - rewrite sync_text, split_word; [|absent|].
    2: { intros I. apply in_app_or in I as [I|[I|I]]; [revert I; apply dec_not; lia|discriminate I|].
         apply in_app_or in I as [I|[I|I]]; [contradiction|discriminate I|contradiction]. }
    cbn [nth_error]. rewrite split_app by (apply dec_not; lia). rewrite split_word by assumption.
    cbn [nth nth_error coord]. rewrite parse_print by lia. rewrite Fx, Fy. reflexivity.
  - change (page_text O (w_srcpath ++ 32%N :: js)) with
      (match nth_error (split 32%N (w_srcpath ++ 32%N :: js)) 1 with None => Panic
       | Some l => match o_path O l with Some p => ToRender (ElemPath p) | None => Nothing end end).
    rewrite split_word by (absent || assumption). cbn [nth_error]. rewrite Fp. reflexivity.
  - change (page_text O (w_srcpoint ++ 32%N :: js)) with
      (match nth_error (split 32%N (w_srcpoint ++ 32%N :: js)) 1 with None => Panic
       | Some l => match o_loc O l with Some p => ToRender (FrameLoc p) | None => Nothing end end).
    rewrite split_word by (absent || assumption). cbn [nth_error]. rewrite Fp. reflexivity.
Qed.
Lemma foreign_text O s : page_text O s = Close <-> foreign s.
Proof.
  unfold page_text, foreign. destruct (same_text s w_current) eqn:E1.
  { apply same_text_iff in E1. split; [discriminate|intros (H & _); contradiction]. }
  apply same_text_not in E1. destruct (starts_with w_srclocation s) eqn:E2.
  { apply starts_with_iff in E2. split; [destruct (nth_error _ 1); discriminate|intros (_ & H & _); contradiction]. }
  apply starts_with_not in E2. destruct (starts_with w_outline s) eqn:E3.
  { apply starts_with_iff in E3. split; [|intros (_ & _ & H & _); contradiction]. destruct (nth_error _ 1); [|discriminate].
    cbv zeta. destruct (parse_num _ _ _); [|discriminate]. destruct (coord _ _); [|discriminate]. destruct (coord _ _); discriminate. }
  apply starts_with_not in E3. destruct (starts_with w_srcpath s) eqn:E4.
  { apply starts_with_iff in E4. split; [|intros (_ & _ & _ & H & _); contradiction]. destruct (nth_error _ 1) as [l|]; [|discriminate].
    destruct (o_path O l); discriminate. }
  apply starts_with_not in E4. destruct (starts_with w_srcpoint s) eqn:E5.
  { apply starts_with_iff in E5. split; [|intros (_ & _ & _ & _ & H); contradiction]. destruct (nth_error _ 1) as [l|]; [|discriminate].
    destruct (o_loc O l); discriminate. }
  apply starts_with_not in E5. split; auto.
Qed.
(** A panic needs a request without its argument, or a position that is none. *)
Lemma second c s : In c s -> exists l, nth_error (split c s) 1 = Some l.
Proof.
  induction s as [|x s IH]; [intros []|]. cbn [split]. destruct (N.eqb_spec x c) as [->|D].
  - intros _. cbn [nth_error]. destruct (split c s) as [|p ps] eqn:E; [exfalso; exact (split_nonempty c s E)|]. exists p. reflexivity.
  - intros [I|I]; [contradiction|]. destruct (IH I) as (l & E). destruct (split c s) as [|p ps]; [discriminate E|]. exists l. exact E.
Qed.
Lemma panic_text O s : page_text O s = Panic -> (~ In 32%N s \/ begins w_outline s).
Proof.
  unfold page_text. destruct (same_text s w_current); [discriminate|].
  assert (K : nth_error (split 32%N s) 1 = None -> ~ In 32%N s) by (intros E I; destruct (second _ _ I); congruence).
  destruct (starts_with w_srclocation s); [destruct (nth_error _ 1); [discriminate|auto]|].
  destruct (starts_with w_outline s) eqn:E3; [intros _; right; apply starts_with_iff, E3|].
  destruct (starts_with w_srcpath s). { destruct (nth_error _ 1) as [l|]; [|auto]. destruct (o_path O l); discriminate. }
  destruct (starts_with w_srcpoint s); [|discriminate]. destruct (nth_error _ 1) as [l|]; [|auto]. destruct (o_loc O l); discriminate.
Qed.
(** A frame of one page leaves the connection of the others, and its own if it is proper. *)
Lemma frame_others P s p f q g : q <> p -> s_pages s q = Some g ->
  exists g', s_pages (step P s (EFrame p f)) q = Some g' /\ pg_live g' = pg_live g /\ pg_out g' = pg_out g /\ pg_svg g' = pg_svg g.
Proof.
  intros D E. cbn [step]. unfold web_frame. destruct (s_pages s p) as [h|]; [|eauto 6]. destruct (pg_live h); [|eauto 6].
  destruct (page_frame _ f) as [r|r|r| | |].
  - cbn. rewrite E. cbn. eexists. split; [reflexivity|]. auto.
  - unfold to_editor. destruct (serving s); cbn; eauto 6.
  - cbn. rewrite E. cbn. eexists. split; [reflexivity|]. auto.
  - eauto 6.
  - cbn. rewrite upd_neq by exact D. eauto 6.
  - cbn. rewrite upd_neq by exact D. eauto 6.
Qed.
Lemma proper_stays P s p t a : proper (p_oracles P) t a -> live s p = true -> live (step P s (EFrame p (TextIn t))) p = true.
Proof.
  intros H L. pose proof (proper_text _ _ _ H) as T. cbn [step]. unfold web_frame, live in *.
  destruct (s_pages s p) as [g|] eqn:E; [|discriminate L]. rewrite L. cbn [page_frame]. rewrite T.
  destruct H; cbn; rewrite ?E; cbn; try exact L. unfold to_editor. destruct (serving s); cbn; rewrite E; exact L.
Qed.
Lemma foreign_ends P s p t : foreign t -> live s p = true -> live (step P s (EFrame p (TextIn t))) p = false.
Proof.
  intros H L. apply (foreign_text (p_oracles P)) in H. cbn [step]. unfold web_frame, live in *.
  destruct (s_pages s p) as [g|] eqn:E; [|discriminate L]. rewrite L. cbn [page_frame]. rewrite H. cbn. rewrite upd_eq. reflexivity.
Qed.
(** A position sent by a page reaches every page. *)
Lemma viewport_reaches P s p t pos q g : proper (p_oracles P) t (ToPages (Viewport pos)) -> live s p = true ->
  s_pages s q = Some g -> pg_live g = true ->
  exists g', s_pages (step P s (EFrame p (TextIn t))) q = Some g' /\ queued (Viewport pos) (pg_box g')
    /\ (length (c_items (pg_box g)) < 32 -> c_items (pg_box g') = c_items (pg_box g) ++ [Viewport pos]).
Proof.
  intros H L E V. pose proof (proper_text _ _ _ H) as T. cbn [step]. unfold web_frame, live in *.
  destruct (s_pages s p) as [h|]; [|discriminate L]. rewrite L. cbn [page_frame]. rewrite T. cbn [to_pages s_pages set_pages].
  rewrite E. cbn [option_map]. eexists. split; [reflexivity|]. cbn [push_web pg_box]. rewrite V. unfold cpush, queued.
  change webview_cap with 32. destruct (Nat.ltb_spec (length (c_items (pg_box g))) 32); cbn [c_items].
  - split; [eexists; reflexivity|auto].
  - split; [eexists; reflexivity|lia].
Qed.

(** * The data plane *)
Definition not_ended (c : conn) : bool := match c with Ended => false | _ => true end.
Definition cnt (m : list conn) : nat := length (filter not_ended m).
Lemma change_cnt from_ to : forall l c l', change c from_ to l = Some l' ->
  exists x, from_ x = true /\ In x l /\ cnt l' + (if not_ended x then 1 else 0) = cnt l + (if not_ended to then 1 else 0).
Proof.
  induction l as [|x l IH]; intros [|c] l' E; cbn [change] in E; try discriminate E.
  - destruct (from_ x) eqn:F; [|discriminate E]. injection E as <-. exists x. split; [exact F|]. split; [left; reflexivity|].
    unfold cnt. cbn [filter]. destruct (not_ended x), (not_ended to); cbn [length]; lia.
  - destruct (change c from_ to l) as [l1|] eqn:C; [|discriminate E]. injection E as <-. destruct (IH c l1 C) as (y & F & I & H).
    exists y. split; [exact F|]. split; [right; exact I|]. unfold cnt in *. cbn [filter]. destruct (not_ended x); cbn [length]; lia.
Qed.
Lemma cnt_app a b : cnt (a ++ b) = cnt a + cnt b.
Proof. unfold cnt. rewrite filter_app, app_length. reflexivity. Qed.
Definition dinv (s : dp) : Prop := d_over s = None -> cnt (d_conns s) + d_reports s <= d_alive s.
Lemma dinv_step b s e : dinv s -> dinv (dstep b s e).
Proof.
  unfold dinv. intros I. unfold dstep. cbv zeta. destruct e.
  - destruct (d_over s) eqn:O; [congruence|]. intros _. cbn [d_conns d_reports d_alive]. rewrite cnt_app. specialize (I eq_refl). change (cnt [Shaking]) with 1. lia.
  - destruct (change _ _ _ _) as [l|] eqn:C; [|exact I]. cbn [d_conns d_reports d_alive d_over]. intros O. specialize (I O). apply change_cnt in C as (x & F & _ & H).
    destruct x; try discriminate F. destruct ok; cbn [not_ended] in H; lia.
  - destruct (change _ _ _ _) as [l|] eqn:C; [|exact I]. cbn [d_conns d_reports d_alive d_over]. intros O. specialize (I O). apply change_cnt in C as (x & F & _ & H).
    destruct x; try discriminate F. cbn [not_ended] in H; lia.
  - destruct (d_over s) eqn:O; [congruence|]. destruct (d_reports s) eqn:R; [rewrite O; rewrite R; exact I|].
    intros _. specialize (I eq_refl). cbn [d_conns d_reports d_alive]. lia.
  - exact I.
  - destruct (_ && _); [cbn; discriminate|exact I].
  - destruct (d_over s) eqn:O; [congruence|]. cbn. discriminate.
Qed.
Lemma drun_snoc b es e : drun b (es ++ [e]) = dstep b (drun b es) e.
Proof. unfold drun. rewrite fold_left_app. reflexivity. Qed.
Lemma dinv_run b es : dinv (drun b es).
Proof.
  induction es as [|e es IH] using rev_ind; [intros _; cbn; lia|]. rewrite drun_snoc. apply dinv_step, IH.
Qed.
Lemma cnt_zero m : cnt m = 0 -> forall c, In c m -> c = Ended.
Proof.
  unfold cnt. induction m as [|x m IH]; intros Z c; [intros []|]. cbn [filter] in Z.
  destruct x; cbn [not_ended length] in Z; try discriminate Z. intros [E|I]; [auto|exact (IH Z c I)].
Qed.
Lemma since_snoc : forall l e t, since_arrival (l ++ [e]) t = since_arrival [e] (since_arrival l t).
Proof. induction l as [|x l IH]; intros e t; [reflexivity|]. cbn [app]. destruct x; cbn [since_arrival]; rewrite IH; reflexivity. Qed.
Lemma over_back b s e : d_over (dstep b s e) = None -> d_over s = None.
Proof.
  unfold dstep. cbv zeta. destruct (d_over s) as [o|] eqn:O; [|reflexivity].
  destruct e; cbn; try congruence; try (destruct (change _ _ _ _); cbn; congruence).
Qed.
Lemma quiet_bound b es : d_over (drun b es) = None -> (d_quiet (drun b es) <= since_arrival es 0)%N.
Proof.
  induction es as [|e es IH] using rev_ind; intros O; [cbn; lia|]. rewrite drun_snoc in *. rewrite since_snoc.
  pose proof (over_back _ _ _ O) as O1. specialize (IH O1). unfold dstep in *. cbv zeta in *. rewrite O1 in *. destruct e; cbn [since_arrival].
  - cbn. lia.
  - destruct (change _ _ _ _); exact IH.
  - destruct (change _ _ _ _); exact IH.
  - destruct (d_reports (drun b es)); [exact IH|]. cbn. lia.
  - cbn [d_quiet]. lia.
  - destruct (_ && _); [cbn in O; discriminate O|exact IH].
  - cbn in O. discriminate O.
Qed.
(** The end by idleness: no connection is open, and the time has passed. *)
Lemma idle_end b es e : d_over (drun b es) = None -> d_over (drun b (es ++ [e])) = Some true ->
  b = true /\ e = DBell /\ (forall c, In c (d_conns (drun b es)) -> c = Ended) /\ (5000 <= since_arrival es 0)%N.
Proof.
  intros O E. rewrite drun_snoc in E. pose proof (dinv_run b es O) as I. pose proof (quiet_bound b es O) as Q.
  unfold dstep in E. cbv zeta in E. rewrite O in E. destruct e; cbn in E; try congruence; try (destruct (change _ _ _ _); cbn in E; congruence).
  - destruct (d_reports (drun b es)); cbn in E; congruence.
  - destruct b; [|cbn in E; congruence]. cbn [andb] in E. destruct (Nat.eqb_spec (d_alive (drun true es)) 0) as [Z|Z]; [|cbn in E; congruence].
    cbn [andb] in E. destruct (N.leb_spec idle_timeout (d_quiet (drun true es))) as [T|T]; [|congruence].
    split; [reflexivity|]. split; [reflexivity|]. split; [apply cnt_zero; lia|]. unfold idle_timeout in T. lia.
Qed.
Lemma idle_only b es : d_over (drun b es) = Some true -> exists es1 es2, es = es1 ++ DBell :: es2 /\ d_over (drun b es1) = None
  /\ b = true /\ (forall c, In c (d_conns (drun b es1)) -> c = Ended) /\ (5000 <= since_arrival es1 0)%N.
Proof.
  induction es as [|e es IH] using rev_ind; [discriminate|]. intros E. destruct (d_over (drun b es)) as [[]|] eqn:O.
  - destruct (IH eq_refl) as (a & c & -> & H). exists a, (c ++ [e]). rewrite <- app_assoc. auto.
  - rewrite drun_snoc in E. unfold dstep in E. cbv zeta in E. rewrite O in E.
    destruct e; cbn in E; try congruence; destruct (change _ _ _ _); cbn in E; congruence.
  - destruct (idle_end b es e O E) as (B & -> & H). exists es, []. auto.
Qed.
(** With all pages gone and reported, and none that failed, the timer ends the data plane. *)
Definition ended (l : list conn) : nat := length l - cnt l.
Definition clean (e : devent) : bool := match e with DShake _ false => false | _ => true end.
Lemma exact_run b es : forallb clean es = true -> d_over (drun b es) = None -> d_alive (drun b es) = cnt (d_conns (drun b es)) + d_reports (drun b es).
Proof.
  induction es as [|e es IH] using rev_ind; intros C O; [reflexivity|]. rewrite forallb_app in C. apply andb_true_iff in C as (C1 & C2).
  cbn in C2. rewrite andb_true_r in C2. rewrite drun_snoc in *. pose proof (over_back _ _ _ O) as O1. specialize (IH C1 O1).
  unfold dstep in *. cbv zeta in *. rewrite O1 in *. destruct e.
  - cbn [d_conns d_reports d_alive]. rewrite cnt_app. change (cnt [Shaking]) with 1. lia.
  - destruct (change _ _ _ _) as [l|] eqn:X; [|exact IH]. cbn [d_conns d_reports d_alive d_over]. destruct ok; [|discriminate C2]. apply change_cnt in X as (x & F & _ & H).
    destruct x; try discriminate F. cbn [not_ended] in H. lia.
  - destruct (change _ _ _ _) as [l|] eqn:X; [|exact IH]. cbn [d_conns d_reports d_alive d_over]. apply change_cnt in X as (x & F & _ & H).
    destruct x; try discriminate F. cbn [not_ended] in H. lia.
  - destruct (d_reports (drun b es)) eqn:R; [rewrite R; exact IH|]. cbn [d_alive d_conns d_reports]. lia.
  - exact IH.
  - destruct (_ && _); [cbn in O; discriminate O|exact IH].
  - cbn in O. discriminate O.
Qed.
Lemma ends_idle es : forallb clean es = true -> d_over (drun true es) = None -> (forall c, In c (d_conns (drun true es)) -> c = Ended) ->
  d_over (drun true (es ++ repeat DReport (d_reports (drun true es)) ++ [DTime 5000; DBell])) = Some true.
Proof.
  intros C O G. pose proof (exact_run true es C O) as A1.
  assert (Z : cnt (d_conns (drun true es)) = 0).
  { unfold cnt. destruct (filter not_ended (d_conns (drun true es))) as [|x l] eqn:F; [reflexivity|].
    assert (J : In x (filter not_ended (d_conns (drun true es)))) by (rewrite F; left; reflexivity).
    apply filter_In in J as (J1 & J2). rewrite (G x J1) in J2. discriminate J2. }
  rewrite Z in A1. cbn in A1.
  assert (K : forall n s, d_over s = None -> d_reports s = n -> d_alive s = n ->
     let s' := fold_left (dstep true) (repeat DReport n) s in d_over s' = None /\ d_alive s' = 0).
  { induction n as [|n IH]; intros s O1 R L; [auto|]. cbn [repeat fold_left]. apply IH; unfold dstep; cbv zeta; rewrite O1, R; cbn; auto. rewrite L. reflexivity. }
  unfold drun in *. rewrite !fold_left_app. cbn [fold_left].
  destruct (K _ _ O eq_refl A1) as (K1 & K2).
  set (s := fold_left (dstep true) (repeat DReport _) _) in *. unfold dstep at 2. cbv zeta.
  unfold dstep. cbv zeta. cbn [d_over d_alive d_quiet]. rewrite K1, K2. cbn [andb Nat.eqb].
  destruct (N.leb_spec idle_timeout (d_quiet s + 5000)) as [T|T]; [reflexivity|]. unfold idle_timeout in T. lia.
Qed.
(** A connection that failed is counted for ever. *)
Definition leaked (s : dp) : Prop := d_over s <> Some true /\ (d_over s = None -> cnt (d_conns s) + d_reports s < d_alive s).
Lemma leaked_step b s e : leaked s -> leaked (dstep b s e).
Proof.
  intros (W & I). unfold dstep. cbv zeta. destruct e.
  - destruct (d_over s) eqn:O; [split; rewrite O; [exact W|exact I]|]. specialize (I eq_refl). split; cbn [d_over d_conns d_reports d_alive]; [discriminate|].
    intros _. rewrite cnt_app. change (cnt [Shaking]) with 1. lia.
  - destruct (change _ _ _ _) as [l|] eqn:C; [|split; assumption]. split; cbn [d_over d_conns d_reports d_alive]; [exact W|]. intros O. specialize (I O).
    apply change_cnt in C as (x & F & _ & H). destruct x; try discriminate F. destruct ok; cbn [not_ended] in H; lia.
  - destruct (change _ _ _ _) as [l|] eqn:C; [|split; assumption]. split; cbn [d_over d_conns d_reports d_alive]; [exact W|]. intros O. specialize (I O).
    apply change_cnt in C as (x & F & _ & H). destruct x; try discriminate F. cbn [not_ended] in H; lia.
  - destruct (d_over s) eqn:O; [split; rewrite O; [exact W|exact I]|]. specialize (I eq_refl). destruct (d_reports s) eqn:R.
    + split; rewrite O; [discriminate|]. rewrite R. intros _. exact I.
    + split; cbn [d_over d_conns d_reports d_alive]; [discriminate|]. intros _. lia.
  - split; assumption.
  - destruct (d_over s) eqn:O; cbn [andb]; [split; rewrite O; [exact W|exact I]|]. specialize (I eq_refl).
    destruct (Nat.eqb_spec (d_alive s) 0) as [Z|Z]; [lia|]. rewrite andb_false_r. cbn [andb]. split; rewrite O; [discriminate|auto].
  - destruct (d_over s) eqn:O; [split; rewrite O; [exact W|exact I]|]. split; cbn [d_over]; [discriminate|discriminate].
Qed.
Lemma leaked_run b es : forall s, leaked s -> leaked (fold_left (dstep b) es s).
Proof. induction es as [|e es IH]; intros s L; [exact L|]. cbn. apply IH, leaked_step, L. Qed.
Lemma leak es : d_over (drun true ([DAccept; DShake 0 false] ++ es)) <> Some true.
Proof.
  unfold drun. rewrite fold_left_app. apply (leaked_run true es). split; [discriminate|]. intros _. cbn. lia.
Qed.

(** * A turn of a renderer *)
Definition turning (s s1 : st) (p : nat) (g : page) (q : list rreq) (ph : phase) : Prop :=
  s_view s1 = s_view s /\ exists g1, s_pages s1 p = Some g1 /\ pg_live g1 = pg_live g /\ pg_rlive g1 = pg_rlive g /\ pg_svg g1 = pg_svg g /\ pg_cur g1 = pg_cur g /\ pg_rq g1 = mkCh q false /\ pg_phase g1 = ph.
Lemma process_turning r a s s0 p g q ph : turning s0 s p g q ph -> turning s0 (process r a s) p g q ph.
Proof.
  intros (V & g1 & E & A1 & A2 & A3 & A4 & A5 & A6).
  assert (K : forall w, turning s0 (to_pages w s) p g q ph).
  { intros w. split; [exact V|]. exists (push_web w g1). cbn. rewrite E. cbn. repeat split; assumption. }
  assert (M : forall x, turning s0 (to_editor x s) p g q ph).
  { intros x. unfold to_editor. destruct (serving s); (split; [exact V|]); exists g1; cbn; repeat split; assumption. }
  destruct a as [a|]; cbn [process]; [|split; [exact V|]; exists g1; repeat split; assumption].
  destruct r; try apply K; try apply M; (split; [exact V|]; exists g1; repeat split; assumption).
Qed.
Definition whole_of (l : list rreq) : bool := existsb (fun r => match r with FullLatest => true | _ => false end) l.
Lemma read_turning p g a s0 s r q (b : bool) : pg_rlive g = true -> turning s0 s p g (r :: q) (Drain b) -> turning s0 (render_read p a s) p g q (Drain (b || is_full r)).
Proof.
  intros R (V & g1 & E & A1 & A2 & A3 & A4 & A5 & A6). unfold render_read. rewrite E, A2, R, A6, A5. cbn [c_lagged c_items]. apply process_turning. split; [exact V|].
  eexists. cbn. rewrite upd_eq. split; [reflexivity|]. cbn. repeat split; auto.
Qed.
Lemma drain_turning P p g s0 : pg_rlive g = true -> forall l answers s b, length answers = S (length l) -> turning s0 s p g l (Drain b) ->
  turning s0 (run P s (map (ERead p) answers)) p g [] (Draw (b || whole_of l)).
Proof.
  intros R. induction l as [|r l IH]; intros [|a answers] s b L T; try discriminate L.
  - destruct answers; [|discriminate L]. change (turning s0 (render_read p a s) p g [] (Draw (b || false))). destruct T as (V & g1 & E & A1 & A2 & A3 & A4 & A5 & A6).
    unfold render_read. rewrite E, A2, R, A6, A5. cbn [c_lagged c_items]. split; [exact V|]. eexists. cbn. rewrite upd_eq. split; [reflexivity|]. cbn. rewrite orb_false_r. repeat split; auto.
  - change (turning s0 (run P (render_read p a s) (map (ERead p) answers)) p g [] (Draw (b || (is_full r || whole_of l)))). rewrite orb_assoc. apply IH; [cbn in *; congruence|]. now apply read_turning.
Qed.
Lemma run_app_plane P : forall a s b, run P s (a ++ b) = run P (run P s a) b.
Proof. intros a s b. unfold run. apply fold_left_app. Qed.
Lemma packs P p s g d l answers : s_pages s p = Some g -> pg_live g = true -> pg_rlive g = true -> pg_phase g = Idle -> pg_rq g = mkCh l false ->
  l <> [] -> latest s = Some d -> length answers = S (length l) ->
  let whole := existsb (fun r => match r with FullLatest => true | _ => false end) l in
  exists g', s_pages (run P s (map (ERead p) answers ++ [EDraw p])) p = Some g' /\ pg_phase g' = Idle /\ pg_rq g' = mkCh [] false /\
  pg_svg g' = pg_svg g ++ [match whole, pg_cur g with true, Some c => Frame true c | _, _ => Frame false d end].
Proof.
  intros E L R I Q NE D LA whole. destruct l as [|r l]; [contradiction|]. destruct answers as [|a answers]; [discriminate LA|].
  rewrite run_app_plane. cbn [map]. change (run P s (ERead p a :: map (ERead p) answers)) with (run P (render_read p a s) (map (ERead p) answers)).
  assert (T : turning s (render_read p a s) p g l (Drain (is_full r))).
  { unfold render_read. rewrite E, R, I, Q. cbn [c_lagged c_items]. apply process_turning. split; [reflexivity|]. eexists. cbn. rewrite upd_eq. split; [reflexivity|]. cbn. repeat split; auto. }
  apply (drain_turning P p g s R l answers) in T; [|cbn in LA; congruence]. change (is_full r || whole_of l) with whole in T. destruct T as (V & g1 & A0 & A1 & A2 & A3 & A4 & A5 & A6).
  set (s1 := run P _ (map (ERead p) answers)) in *. change (run P s1 [EDraw p]) with (render_draw p s1). unfold render_draw. rewrite A0, A2, R, A6. unfold document. rewrite V.
  unfold latest in D. destruct (s_view s) as [[x|]|]; try discriminate D. injection D as ->. rewrite A4. destruct whole; [destruct (pg_cur g) as [c|]|]; rewrite A1, L; cbn; rewrite upd_eq; eexists; (split; [reflexivity|]); cbn; rewrite A3; repeat split; auto.
Qed.
