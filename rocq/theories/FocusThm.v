(** Theorems about the choice of the main file: C85, C86, C87. *)
From Coq Require Import List Bool NArith.
From Verif Require Import PathModel PathProof EntryModel EntryProof FocusModel FocusSpec FocusProof.
Import ListNotations.
Open Scope nat_scope.

Definition pa : path := [RootC; Nor [97%N]].
Definition pb : path := [RootC; Nor [98%N]].
Definition pc : path := [Nor [99%N]].
Definition O0 : oracles := mkO (fun _ => false) (fun p => negb (is_some p)).
Definition r0 : resolver := mkR (Some [RootC]) [] None.
(** The same with a default entry. *)
Definition r1 : resolver := mkR (Some [RootC]) [] (Some pb).

(** * C85: a pinned main file stays *)
(** Partial: a preview with a file of its own, and new settings, are left out. *)
Theorem C85_pinned_partial : forall O r es1 p es2, is_abs p = true -> (forall e, In e es2 -> ~ is_pin e /\ ~ takes e /\ ~ is_configure e) ->
  let s := run O r (es1 ++ Pin (Some p) :: es2) in
  s_main s = Some p /\ is_pinning O s = true /\ forall q, query_main O s q = Some p.
Proof.
  intros O r es1 p es2 A N. cbv zeta. rewrite run_app. cbn [goes fold_left].
  change (fold_left (fun s e => fst (step O s e)) es2 (fst (step O (run O r es1) (Pin (Some p))))) with (goes O (fst (step O (run O r es1) (Pin (Some p)))) es2).
  assert (s_puser (fst (step O (run O r es1) (Pin (Some p)))) = true /\ s_main (fst (step O (run O r es1) (Pin (Some p)))) = Some p) as (U & M).
  { cbn. rewrite A. split; reflexivity. }
  destruct (pinned_stays O es2 _ U N) as (E & P). rewrite E, M. split; [reflexivity|].
  assert (is_pinning O (goes O (fst (step O (run O r es1) (Pin (Some p)))) es2) = true) as I by (unfold is_pinning; rewrite P; reflexivity).
  split; [exact I|]. intros q. unfold query_main. rewrite I, E. exact M.
Qed.
Print Assumptions C85_pinned_partial.
Example C85_nonvacuous :
  let es2 := [Open pb; Hover pb 3; Focus (Some pb); Preview None true true; Unpin; Focus None; Preview (Some pb) false false] in
  is_abs pa = true /\ (forall e, In e es2 -> ~ is_pin e /\ ~ takes e /\ ~ is_configure e) /\ s_main (run O0 r0 (Pin (Some pa) :: es2)) = Some pa.
Proof.
  cbv zeta. split; [reflexivity|]. split; [|reflexivity]. intros e I. repeat (destruct I as [<-|I]; [repeat split; exact (fun f => f)|]). destruct I.
Qed.
(** Nothing else changes the main file but a focus that is allowed to. *)
Theorem C85_changes : forall O s e, s_main (fst (step O s e)) <> s_main s ->
  is_pin e \/ takes e \/ is_configure e \/
  (s_puser s = false /\ (s_pprev s = true -> s_pbrow s = true) /\ s_hasdef s = false /\
   exists p, (e = Focus p \/ (s_man s = false /\ (exists q, p = Some q /\ (activity e = Some q \/ (opened e = Some q /\ s_act s = false))))) /\ s_main (fst (step O s e)) = p).
Proof.
  intros O s e H. destruct (main_step O s e H) as [M|[M|[M|(P & M)]]]; auto. right. right. right.
  unfold pinned in P. apply orb_false_iff in P as (P & PH). apply orb_false_iff in P as (PU & PP).
  split; [exact PU|]. split; [|split; [exact PH|exact M]]. intros E. rewrite E in PP. destruct (s_pbrow s); [reflexivity|discriminate PP].
Qed.
Print Assumptions C85_changes.
Example C85_changes_nonvacuous : s_main (fst (step O0 (run O0 r0 [Open pa]) (Hover pb 3))) <> s_main (run O0 r0 [Open pa]).
Proof. discriminate. Qed.
(** A preview of the primary project that is not for browsing pins its file. *)
Theorem C85_preview_partial : forall O r es1 p es2, is_abs p = true -> (forall e, In e es2 -> ~ is_pin e /\ ~ takes e /\ ~ is_configure e /\ e <> Unpin /\ forall b t, e <> Preview None b t) ->
  let s := run O r (es1 ++ Preview (Some p) false true :: es2) in s_main s = Some p /\ (o_inactive O (Some p) = false -> forall q, query_main O s q = Some p).
Proof.
  intros O r es1 p es2 A N. cbv zeta. rewrite run_app. cbn [goes fold_left].
  change (fold_left (fun s e => fst (step O s e)) es2 (fst (step O (run O r es1) (Preview (Some p) false true)))) with (goes O (fst (step O (run O r es1) (Preview (Some p) false true))) es2).
  assert (forall s, s_main s = Some p /\ s_pprev s = true -> s_main s = Some p /\ (o_inactive O (Some p) = false -> forall q, query_main O s q = Some p)) as QM.
  { intros s (M & P). split; [exact M|]. intros I q. unfold query_main, is_pinning. rewrite P, M, I, orb_true_r. reflexivity. }
  apply QM.
  assert (s_main (fst (step O (run O r es1) (Preview (Some p) false true))) = Some p /\ s_pprev (fst (step O (run O r es1) (Preview (Some p) false true))) = true
    /\ s_pbrow (fst (step O (run O r es1) (Preview (Some p) false true))) = false) as (M & P & B).
  { cbn. rewrite A. repeat split. }
  revert M P B. generalize (fst (step O (run O r es1) (Preview (Some p) false true))).
  induction es2 as [|e es2 IH]; intros s M P B; [split; assumption|]. destruct (N e (or_introl eq_refl)) as (N1 & N2 & N3 & N4 & N5).
  cbn. apply IH; [intros x I; apply N; right; exact I| | |].
  - destruct (same_path (s_main (fst (step O s e))) (s_main s)) eqn:Q; [apply same_path_spec in Q; congruence|].
    exfalso. assert (s_main (fst (step O s e)) <> s_main s) as D by (intros D; apply same_path_spec in D; congruence).
    destruct (C85_changes O s e D) as [X|[X|[X|(_ & X & _)]]]; try contradiction. rewrite (X P) in B. discriminate B.
  - rewrite <- P. destruct e; cbn [step fst]; try reflexivity; try (apply implicit_frame); try contradiction.
    + destruct (N1 Logic.I).
    + apply (focus_frame p0 (set_man true s)).
    + unfold start_preview. destruct entry as [q|]; [|destruct (N5 _ _ eq_refl)]. destruct (is_abs q); [|reflexivity]. destruct taken; [destruct (N2 Logic.I)|reflexivity].
    + destruct (N3 Logic.I).
  - rewrite <- B. destruct e; cbn [step fst]; try reflexivity; try (apply implicit_frame); try contradiction.
    + destruct (N1 Logic.I).
    + apply (focus_frame p0 (set_man true s)).
    + unfold start_preview. destruct entry as [q|]; [|destruct (N5 _ _ eq_refl)]. destruct (is_abs q); [|reflexivity]. destruct taken; [destruct (N2 Logic.I)|reflexivity].
    + destruct (N3 Logic.I).
Qed.
Print Assumptions C85_preview_partial.
Example C85_preview_nonvacuous : s_main (run O0 r0 [Focus (Some pb); Preview (Some pa) false true; Focus (Some pb); Open pb]) = Some pa.
Proof. reflexivity. Qed.
(** While nothing is pinned, a query on a file is answered with that file as the main file. *)
Theorem C85_unpinned : forall O r es q, (forall e, In e es -> (forall p, e <> Pin (Some p)) /\ (forall p b t, e <> Preview p b t)) -> query_main O (run O r es) q = Some q.
Proof.
  intros O r es q N. assert (s_puser (run O r es) = false /\ s_pprev (run O r es) = false) as (U & P); [|unfold query_main, is_pinning; rewrite U, P; reflexivity].
  revert N. induction es as [|e es IH] using rev_ind; intros N; [split; reflexivity|]. rewrite run_snoc. destruct IH as (U & P); [intros x I; apply N; apply in_app_iff; auto|]. destruct (N e) as (N1 & N2); [apply in_app_iff; right; left; reflexivity|].
  set (s := run O r es) in *. destruct e as [f|f|f x|f|f|f x|f x|[f|]|f|f b k| |r' fo c]; cbn [step fst]; try (split; assumption).
  - destruct (implicit_frame false (Some f) s) as ((_ & _ & F1 & F2 & _) & _). split; congruence.
  - destruct (implicit_frame true (Some f) s) as ((_ & _ & F1 & F2 & _) & _). cbn. split; congruence.
  - destruct (implicit_frame true (Some f) s) as ((_ & _ & F1 & F2 & _) & _). split; congruence.
  - destruct (implicit_frame true (Some f) s) as ((_ & _ & F1 & F2 & _) & _). split; congruence.
  - destruct (N1 f eq_refl).
  - unfold pin_main_file. cbv zeta. match goal with |- context [change_main_file ?a ?b] => pose proof (change_spec a b) as C; destruct (change_main_file a b) as [s' ok] end. destruct C as (-> & _). split; [reflexivity|exact P].
  - destruct (focus_frame f (set_man true s)) as ((_ & _ & F1 & F2 & _) & _). cbn in F1, F2. split; congruence.
  - destruct (N2 f b k eq_refl).
  - split; [exact U|reflexivity].
  - unfold configure. cbv zeta. destruct (fo || restarts (o_toml O) (s_conf s) r' c); split; assumption.
Qed.
Print Assumptions C85_unpinned.
Example C85_unpinned_nonvacuous : s_main (run O0 r0 [Open pa; Focus (Some pa)]) = Some pa /\ query_main O0 (run O0 r0 [Open pa; Focus (Some pa)]) pb = Some pb /\
  query_main O0 (run O0 r0 [Open pa; Preview None true true]) pb = Some pa /\ query_main O0 (run O0 r0 [Preview None true true]) pb = Some pb.
Proof. repeat split; reflexivity. Qed.
(** A preview for browsing pins nothing while there is no main file. *)
Theorem C85_browsing : forall O s q, s_puser s = false -> o_inactive O (s_main s) = true -> query_main O s q = Some q.
Proof. intros O s q U I. unfold query_main, is_pinning. rewrite U, I. cbn. rewrite andb_false_r. reflexivity. Qed.
Print Assumptions C85_browsing.
(** A preview takes the main file from the user who pinned it. *)
Theorem C85_taken_refuted : exists es2, (forall e, In e es2 -> ~ is_pin e /\ ~ is_configure e) /\
  let s := run O0 r0 (Pin (Some pa) :: es2) in s_main s = Some pb /\ s_puser s = true.
Proof. exists [Preview (Some pb) false true; Unpin]. split; [|split; reflexivity]. intros e [<-|[<-|[]]]; split; exact (fun f => f). Qed.
Print Assumptions C85_taken_refuted.
(** A change of fonts forgets it, but not that something is pinned. *)
Theorem C85_fonts_refuted : exists es2, (forall e, In e es2 -> ~ is_pin e /\ ~ takes e) /\
  let s := run O0 r0 (Pin (Some pa) :: es2) in s_main s = None /\ s_puser s = true /\ s_main (fst (step O0 s (Focus (Some pb)))) = None.
Proof. exists [Configure r0 true []]. split; [|repeat split; reflexivity]. intros e [<-|[]]; split; exact (fun f => f). Qed.
Print Assumptions C85_fonts_refuted.
(** A pin that is refused pins what was there. *)
Theorem C85_refused_refuted : exists p, let s := run O0 r0 [Open pa] in
  snd (step O0 s (Pin (Some p))) = false /\ s_puser (fst (step O0 s (Pin (Some p)))) = true /\
  s_main (run O0 r0 [Open pa; Pin (Some p); Open pb; Focus (Some pb)]) = Some pa.
Proof. exists pc. repeat split; reflexivity. Qed.
Print Assumptions C85_refused_refuted.

(** * C86: without pins the main file is the focused one *)
(** Which file is focused: that of the last command, else of the last activity, else the last opened. *)
Theorem C86_command : forall O r es1 p es2, (forall e, In e es2 -> ~ is_focus e) -> s_foc (run O r (es1 ++ Focus p :: es2)) = p.
Proof. exact manual. Qed.
Print Assumptions C86_command.
Theorem C86_activity : forall O r es1 e p es2, activity e = Some p -> (forall x, In x (es1 ++ e :: es2) -> ~ is_focus x) -> (forall x, In x es2 -> activity x = None) ->
  s_foc (run O r (es1 ++ e :: es2)) = Some p.
Proof. exact by_activity. Qed.
Print Assumptions C86_activity.
Theorem C86_opened : forall O r es1 p es2, (forall x, In x (es1 ++ Open p :: es2) -> ~ is_focus x /\ activity x = None) -> (forall x, In x es2 -> opened x = None) ->
  s_foc (run O r (es1 ++ Open p :: es2)) = Some p.
Proof. exact by_open. Qed.
Print Assumptions C86_opened.
Example C86_focused_nonvacuous :
  s_foc (run O0 r0 [Open pb; Open pa; CloseDoc pa]) = Some pa /\ s_foc (run O0 r0 [Tokens pb; Open pa; CloseDoc pa]) = Some pb /\
  s_foc (run O0 r0 [Tokens pb; Focus (Some pa); Tokens pb; Open pb]) = Some pa.
Proof. repeat split; reflexivity. Qed.
(** Partial: no preview has brought a file of its own, and the settings stay. *)
Theorem C86_follows_partial : forall O r es, resolve_default r = None ->
  (forall e, In e es -> absolute e /\ (forall p, e <> Pin (Some p)) /\ ~ takes e /\ ~ is_configure e) ->
  s_main (run O r es) = s_foc (run O r es).
Proof.
  intros O r es D N. apply follows; [exact D|]. intros e I. destruct (N e I) as (A & N1 & N2 & N3). split; [exact A|].
  destruct e as [| | | | | | |[q|]| |[q|] b [|]| |]; try exact Logic.I; try (exfalso; exact (N1 _ eq_refl)); try (exact (N2 Logic.I)); exact (N3 Logic.I).
Qed.
Print Assumptions C86_follows_partial.
Example C86_nonvacuous :
  let es := [Preview None true true; Open pb; Hover pa 3; Pin None; Unpin; CloseDoc pa; Preview (Some pb) false false] in
  resolve_default r0 = None /\ (forall e, In e es -> absolute e /\ (forall p, e <> Pin (Some p)) /\ ~ takes e /\ ~ is_configure e) /\ s_foc (run O0 r0 es) = Some pa.
Proof.
  cbv zeta. split; [reflexivity|]. split; [|reflexivity]. intros e I.
  repeat (destruct I as [<-|I]; [repeat split; first [exact (fun f => f)|discriminate|reflexivity]|]). destruct I.
Qed.
(** With a default entry the main file is that one, whatever is focused. *)
Theorem C86_default : forall O r es p, resolve_default r = Some p -> (forall e, In e es -> ~ is_pin e /\ ~ takes e /\ ~ is_configure e) -> s_main (run O r es) = Some p.
Proof.
  intros O r es p D N. assert (s_main (run O r es) = Some p /\ s_hasdef (run O r es) = true) as (M & _); [|exact M].
  revert N. induction es as [|e es IH] using rev_ind; intros N; [cbn; rewrite D; split; reflexivity|]. rewrite run_snoc. destruct IH as (M & H); [intros x I; apply N; apply in_app_iff; auto|]. destruct (N e) as (N1 & N2 & N3); [apply in_app_iff; right; left; reflexivity|].
  set (s := run O r es) in *. split.
  - destruct (same_path (s_main (fst (step O s e))) (s_main s)) eqn:Q; [apply same_path_spec in Q; congruence|].
    exfalso. assert (s_main (fst (step O s e)) <> s_main s) as Df by (intros Df; apply same_path_spec in Df; congruence).
    destruct (C85_changes O s e Df) as [X|[X|[X|(_ & _ & X & _)]]]; try contradiction. congruence.
  - rewrite <- H. destruct e as [f|f|f x|f|f|f x|f x|f|f|[f|] b k| |r' fo c]; cbn [step fst]; try reflexivity; try (apply implicit_frame); try (destruct (N1 Logic.I)); try (destruct (N3 Logic.I)).
    + apply (focus_frame f (set_man true s)).
    + unfold start_preview. destruct (is_abs f); [|reflexivity]. destruct k; [destruct (N2 Logic.I)|reflexivity].
    + unfold start_preview. destruct b, k; reflexivity.
Qed.
Print Assumptions C86_default.
Example C86_default_nonvacuous : resolve_default r1 = Some pb /\ s_main (run O0 r1 [Open pa; Focus (Some pa); Preview None true true]) = Some pb.
Proof. split; reflexivity. Qed.
(** Unpinning gives the default entry, or the focused file. *)
Theorem C86_unpin : forall O s, let s' := fst (step O s (Pin None)) in
  s_puser s' = false /\
  (forall p, resolve_default (s_conf s) = Some p -> is_abs p = true -> s_main s' = Some p) /\
  (resolve_default (s_conf s) = None -> (forall p, s_foc s = Some p -> is_abs p = true) -> s_main s' = s_foc s).
Proof.
  intros O s. cbn [step fst]. unfold pin_main_file. cbv zeta. cbn [set_puser s_conf s_foc is_some or_else]. split; [|split].
  - match goal with |- context [change_main_file ?a ?b] => pose proof (change_spec a b) as C; destruct (change_main_file a b) as [s' ok] end. destruct C as (-> & _). reflexivity.
  - intros p E A. rewrite E. cbn [or_else]. unfold change_main_file. rewrite A. reflexivity.
  - intros E A. rewrite E. cbn [or_else]. unfold change_main_file. destruct (s_foc s) as [q|]; [rewrite (A q eq_refl)|]; reflexivity.
Qed.
Print Assumptions C86_unpin.
Example C86_unpin_nonvacuous : s_main (run O0 r0 [Pin (Some pa); Focus (Some pb); Pin None]) = Some pb /\ s_main (run O0 r1 [Pin (Some pa); Focus (Some pa); Pin None]) = Some pb.
Proof. split; reflexivity. Qed.
(** After a preview has ended its file is still the main file. *)
Theorem C86_preview_refuted : exists es, let s := run O0 r0 es in
  s_foc s = Some pa /\ s_main s = Some pb /\ s_puser s = false /\ s_pprev s = false /\ s_hasdef s = false.
Proof. exists [Open pa; Preview (Some pb) false true; Unpin]. repeat split; reflexivity. Qed.
Print Assumptions C86_preview_refuted.
(** After a change of fonts there is no main file. *)
Theorem C86_fonts_refuted : exists es, let s := run O0 r0 es in
  s_foc s = Some pa /\ s_main s = None /\ s_puser s = false /\ s_pprev s = false /\ s_hasdef s = false.
Proof. exists [Open pa; Configure r0 true []]. repeat split; reflexivity. Qed.
Print Assumptions C86_fonts_refuted.
(** A new default entry does not become the main file, but keeps focused files from it. *)
Theorem C86_default_refuted : exists es, let s := run O0 r0 es in
  resolve_default (s_conf s) = Some pb /\ s_main s = Some pa /\ s_main (fst (step O0 s (Focus (Some pc)))) = Some pa /\ s_main (fst (step O0 s (Focus (Some pb)))) = Some pa.
Proof. exists [Open pa; Configure r1 false []]. repeat split; reflexivity. Qed.
Print Assumptions C86_default_refuted.

(** * C87: the cursor told to the previews is in the focused file *)
(** It was told since the file is focused. *)
Theorem C87_position : forall O r es f x, infer_pos (run O r es) = Some (f, x) ->
  exists es1 e es2 q, es = es1 ++ e :: es2 /\ position e = Some (q, x) /\ (forall l l', es2 = l ++ l' -> s_foc (run O r (es1 ++ e :: l)) = Some f).
Proof. exact inferred. Qed.
Print Assumptions C87_position.
(** Partial: if positions are only asked for in the focused file. *)
Theorem C87_cursor_partial : forall O r es f x, infer_pos (run O r es) = Some (f, x) ->
  (forall es1 e es2 q y, es = es1 ++ e :: es2 -> position e = Some (q, y) -> s_foc (run O r (es1 ++ [e])) = Some q) ->
  exists e, In e es /\ position e = Some (f, x).
Proof.
  intros O r es f x H N. destruct (inferred O r es f x H) as (es1 & e & es2 & q & E & P & G). exists e. split; [rewrite E; apply in_or_app; right; left; reflexivity|].
  specialize (N es1 e es2 q x E P). specialize (G [] es2 eq_refl). rewrite P. congruence.
Qed.
Print Assumptions C87_cursor_partial.
(** So it is with a client that never focuses by command and asks for nothing but hovers. *)
Theorem C87_hover : forall O r es f x, infer_pos (run O r es) = Some (f, x) ->
  (forall e, In e es -> ~ is_focus e /\ forall q y, position e = Some (q, y) -> e = Hover q y) -> In (Hover f x) es.
Proof.
  intros O r es f x H N. destruct (C87_cursor_partial O r es f x H) as (e & I & P).
  - intros es1 e es2 q y E P. destruct (N e) as (_ & N2); [rewrite E; apply in_or_app; right; left; reflexivity|]. rewrite (N2 q y P) in *.
    apply (by_activity O r es1 (Hover q y) q []); [reflexivity| |intros x0 []].
    intros z I. apply in_app_or in I as [I|[<-|[]]]; [apply N; rewrite E; apply in_or_app; left; exact I|exact (fun f => f)].
  - destruct (N e I) as (_ & N2). rewrite (N2 f x P) in I. exact I.
Qed.
Print Assumptions C87_hover.
Example C87_nonvacuous : infer_pos (run O0 r0 [Open pa; Hover pa 3; Hover pb 4; Open pa]) = Some (pb, 4).
Proof. reflexivity. Qed.
(** The place of a completion or a hover in another file is told as one in the focused file. *)
Theorem C87_other_refuted : exists es x, infer_pos (run O0 r0 es) = Some (pa, x) /\ forall e, In e es -> position e <> Some (pa, x).
Proof. exists [Open pa; Hover pa 3; Complete pb 4], 4. split; [reflexivity|]. intros e [<-|[<-|[<-|[]]]]; discriminate. Qed.
Print Assumptions C87_other_refuted.
Theorem C87_manual_refuted : exists es x, infer_pos (run O0 r0 es) = Some (pa, x) /\ forall e, In e es -> position e <> Some (pa, x) /\ forall q y, position e = Some (q, y) -> e = Hover q y.
Proof. exists [Focus (Some pa); Hover pb 4], 4. split; [reflexivity|]. intros e [<-|[<-|[]]]; (split; [discriminate|]); intros q y E; [discriminate E|]. injection E as <- <-. reflexivity. Qed.
Print Assumptions C87_manual_refuted.
