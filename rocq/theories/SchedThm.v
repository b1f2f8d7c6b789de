(** Theorems about the compile scheduler (C20-C22, C63, C64). *)
From Coq Require Import List Arith Bool Lia.
From Verif Require Import AssocModel SchedModel SchedSpec SchedProof SchedMono SchedAnnounce.
Import ListNotations.

(** For the examples: no compilation counts as clean; every project changes. *)
Definition no (_ : nat) : bool := false.
Definition yes (_ : nat) : bool := true.
Definition edit : event := Interrupt (Memory yes) no.

(** ** C20 *)

(** In histories where no project is removed, restarted or reloaded during a
    compilation of it and every task change changes something: when nothing is
    in flight after the scheduler ran, every active project has no open reason
    to compile, and every change of it was followed by a compilation (or a
    justified skip) of that or a later revision. *)
Theorem C20_no_change_lost_partial : forall entry es e s o,
  tame_run (init entry) (es ++ [e]) -> schedules (fst (run (init entry) es)) e ->
  run (init entry) (es ++ [e]) = (s, o) -> quiescent s ->
  forall p, In p (projects s) -> p_entry p <> 0 -> any (p_reason p) = false /\ settled (p_id p) o.
Proof. exact no_change_lost. Qed.
Print Assumptions C20_no_change_lost_partial.
(** And the scheduler waits for a project exactly while a compilation of it is
    in flight. *)
Theorem C20_waits_only_for_running_partial : forall entry es s o, tame_run (init entry) es -> run (init entry) es = (s, o) ->
  s_dead s = false /\ forall p, In p (projects s) -> (x_compiling p = true <-> in_flight s (p_id p)).
Proof. exact compiling_in_flight. Qed.
Print Assumptions C20_waits_only_for_running_partial.

(** An edit during a compilation, a second project, a failure, and all results
    arrive. *)
Definition busy : list event :=
  [Interrupt (Compile 0) no; edit; Recreate 1 7; Finish 0 true; Deliver no; Finish 1 false; edit; Deliver no;
   Finish 0 false; Deliver no; Finish 0 true; Deliver no; Finish 0 true].
Ltac tame_tac :=
  cbn [tame_run]; repeat (split; [vm_compute; first [exact I | tauto | intuition congruence | firstorder congruence]|]); exact I.
Example C20_nonvacuous :
  tame_run (init 5) (busy ++ [Deliver no]) /\
  schedules (fst (run (init 5) busy)) (Deliver no) /\
  quiescent (fst (run (init 5) (busy ++ [Deliver no]))) /\
  map p_id (projects (fst (run (init 5) (busy ++ [Deliver no])))) = [0; 1] /\
  filter (fun x => match x with OChange _ _ | OStart _ _ => true | _ => false end) (snd (run (init 5) (busy ++ [Deliver no]))) =
    [OChange 0 2; OStart 0 2; OChange 0 3; OChange 1 1; OStart 0 3; OStart 1 1; OChange 0 4; OChange 1 2;
     OStart 1 2; OStart 0 4].
Proof.
  split; [unfold busy; cbn [app]; tame_tac|]. split; [vm_compute; discriminate|]. split; [vm_compute; auto|].
  split; vm_compute; reflexivity.
Qed.

(** Without the restriction the scheduler can get stuck: a project waits for a
    compilation although nothing is in flight, and a change is never compiled. *)
Definition stuck (s : st) (o : list out) (id rev : nat) : Prop :=
  s_dead s = false /\ quiescent s /\ (exists p, In p (projects s) /\ p_id p = id /\ p_entry p <> 0 /\ x_compiling p = true) /\
  exists a b, o = a ++ OChange id rev :: b /\ ~ In (ORemove id) b /\ forall x r, In x b -> ~ decided id r x.
(** A task change with neither inputs nor an entry. *)
Theorem C20_empty_task_change_refuted : exists es s o, run (init 5) es = (s, o) /\ stuck s o 0 3.
Proof.
  exists [Interrupt (Compile 0) no; Finish 0 true; Deliver no; Interrupt (ChangeTask 0 false None) no; Finish 0 true; edit].
  eexists. eexists. split; [vm_compute; reflexivity|].
  split; [reflexivity|]. split; [vm_compute; auto|]. split.
  - eexists. split; [left; reflexivity|]. vm_compute. repeat split; discriminate.
  - eexists [_; _; _; _; _; _; _; _; _], []. split; [vm_compute; reflexivity|]. split; [exact (fun x => x)|]. intros x r [].
Qed.
Print Assumptions C20_empty_task_change_refuted.
(** A project that is restarted during a compilation of it. *)
Theorem C20_restart_refuted : exists es s o, run (init 5) es = (s, o) /\ stuck s o 1 2.
Proof.
  exists [Recreate 1 5; Interrupt (Compile 1) no; Recreate 1 6; Finish 0 true; Deliver no; Finish 0 true; Interrupt (Compile 1) no].
  eexists. eexists. split; [vm_compute; reflexivity|].
  split; [reflexivity|]. split; [vm_compute; auto|]. split.
  - eexists. split; [right; left; reflexivity|]. vm_compute. repeat split; discriminate.
  - eexists [_; _; _; _; _; _; _; _; _; _; _], []. split; [vm_compute; reflexivity|]. split; [exact (fun x => x)|]. intros x r [].
Qed.
Print Assumptions C20_restart_refuted.
(** A reload of the projects during a compilation of the primary one. *)
Theorem C20_reload_refuted : exists es s o, run (init 5) es = (s, o) /\ stuck s o 0 3.
Proof.
  exists [Interrupt (Compile 0) no; edit; Finish 0 true; Deliver no; Reload 6; Finish 0 true; Deliver no;
          Interrupt (Compile 0) no; Finish 0 true; Deliver no; edit].
  eexists. eexists. split; [vm_compute; reflexivity|].
  split; [reflexivity|]. split; [vm_compute; auto|]. split.
  - eexists. split; [left; reflexivity|]. vm_compute. repeat split; discriminate.
  - eexists [_; _; _; _; _; _; _; _; _; _; _; _; _; _; _; _; _; _], [].
    split; [vm_compute; reflexivity|]. split; [exact (fun x => x)|]. intros x r [].
Qed.
Print Assumptions C20_reload_refuted.

(** ** C21 *)

(** Without reloads of the whole project list, the revisions of the status
    reports of a project never decrease. *)
Theorem C21_status_never_back_partial : forall entry es a b c id r k r' k',
  forallb (fun e => negb (is_reload e)) es = true ->
  snd (run (init entry) es) = a ++ OStatus id r k :: b ++ OStatus id r' k' :: c -> r <= r'.
Proof. exact status_never_back. Qed.
Print Assumptions C21_status_never_back_partial.
(** And the revisions of the results given to diagnostics, exports and preview
    strictly increase while the project is not removed. *)
Theorem C21_results_increase_partial : forall entry es a b c x y,
  forallb (fun e => negb (is_reload e)) es = true ->
  snd (run (init entry) es) = a ++ ONotify x :: b ++ ONotify y :: c -> sn_id (a_snap x) = sn_id (a_snap y) ->
  ~ In (ORemove (sn_id (a_snap x))) b -> sn_rev (a_snap x) < sn_rev (a_snap y).
Proof. exact results_increase. Qed.
Print Assumptions C21_results_increase_partial.

Definition shown (id : nat) (x : out) : option nat :=
  match x with ONotify a => if sn_id (a_snap a) =? id then Some (sn_rev (a_snap a)) else None | _ => None end.
Definition reported (id : nat) (x : out) : option nat :=
  match x with OStatus i r _ => if i =? id then Some r else None | _ => None end.
Fixpoint pick (f : out -> option nat) (o : list out) : list nat :=
  match o with [] => [] | x :: r => match f x with Some n => n :: pick f r | None => pick f r end end.
Example C21_nonvacuous :
  forallb (fun e => negb (is_reload e)) busy = true /\
  pick (shown 0) (snd (run (init 5) busy)) = [2; 3; 4] /\
  pick (reported 0) (snd (run (init 5) busy)) = [2; 2; 3; 3; 4; 4] /\
  pick (shown 1) (snd (run (init 5) busy)) = [1; 2].
Proof. repeat split; vm_compute; reflexivity. Qed.

(** Diagnostics that were cleared for a revision come back from an older one:
    the entry is made inactive during a compilation. *)
Theorem C21_cleared_diagnostics_return_refuted : exists es a b c r x,
  tame_run (init 5) es /\ plain_run (init 5) (firstn 1 es) /\
  snd (run (init 5) es) = a ++ OClear 0 r :: b ++ ONotify x :: c /\ sn_id (a_snap x) = 0 /\ sn_rev (a_snap x) < r.
Proof.
  exists [Interrupt (Compile 0) no; Interrupt (ChangeTask 0 false (Some 0)) no; Finish 0 true].
  eexists [_; _; _; _; _], [_], [], 3, _. split; [tame_tac|]. split; [cbn; auto|]. split; [vm_compute; reflexivity|].
  split; [reflexivity|]. vm_compute. lia.
Qed.
Print Assumptions C21_cleared_diagnostics_return_refuted.
(** A project that was restarted shows the result of its predecessor after its
    own: the document of the replaced entry. *)
Theorem C21_predecessor_result_refuted : exists es a b c x y,
  snd (run (init 5) es) = a ++ ONotify x :: b ++ ONotify y :: c /\
  sn_id (a_snap x) = 1 /\ sn_id (a_snap y) = 1 /\ sn_inst (a_snap y) < sn_inst (a_snap x) /\ sn_entry (a_snap y) <> sn_entry (a_snap x).
Proof.
  exists [Recreate 1 5; Interrupt (Compile 1) no; Recreate 1 6; Interrupt Forwarded no; Finish 1 true; Finish 0 true].
  eexists [_; _; _; _; _; _; _; _], [_], [], _, _. split; [vm_compute; reflexivity|].
  vm_compute. repeat split; try lia; discriminate.
Qed.
Print Assumptions C21_predecessor_result_refuted.

(** ** C22 *)

(** In tame histories where no query takes a snapshot and no entry is replaced
    during a compilation: a failing compilation serves the document of the last
    successful one since the entry was set. *)
Theorem C22_last_good_kept_partial : forall entry es s o o1 a o2,
  tame_run (init entry) es -> plain_run (init entry) es -> run (init entry) es = (s, o) ->
  o = o1 ++ ONotify a :: o2 -> a_doc a = None -> success_doc a = last_good (sn_id (a_snap a)) o1 None.
Proof. exact last_good_kept. Qed.
Print Assumptions C22_last_good_kept_partial.
Example C22_nonvacuous :
  tame_run (init 5) busy /\ plain_run (init 5) busy /\
  exists o1 a o2, snd (run (init 5) busy) = o1 ++ ONotify a :: o2 /\ a_doc a = None /\ success_doc a = Some (mkDoc 0 5 2).
Proof.
  split; [unfold busy; tame_tac|]. split; [unfold busy; cbn [plain_run]; repeat (split; [exact I|]); exact I|].
  exists (firstn 20 (snd (run (init 5) busy))). eexists. exists (skipn 21 (snd (run (init 5) busy))).
  split; [vm_compute; reflexivity|]. vm_compute. auto.
Qed.
(** A query that takes a snapshot between an edit and the result of an older
    compilation: the failing compilation of the edit serves no document although
    the older compilation succeeded. *)
Theorem C22_query_snapshot_refuted : exists es o1 a o2, tame_run (init 5) es /\
  snd (run (init 5) es) = o1 ++ ONotify a :: o2 /\ a_doc a = None /\
  last_good (sn_id (a_snap a)) o1 None = Some (mkDoc 0 5 2) /\ success_doc a = None.
Proof.
  exists [Interrupt (Compile 0) no; edit; Query; Finish 0 true; Deliver no; Finish 0 false].
  eexists [_; _; _; _; _; _; _; _; _; _], _, []. split; [tame_tac|]. split; [vm_compute; reflexivity|].
  vm_compute. auto.
Qed.
Print Assumptions C22_query_snapshot_refuted.
(** An entry replaced during a compilation: the failing compilation of the new
    entry serves the document of the old one. *)
Theorem C22_entry_change_refuted : exists es o1 a o2 d, tame_run (init 5) es /\
  snd (run (init 5) es) = o1 ++ ONotify a :: o2 /\ a_doc a = None /\
  success_doc a = Some d /\ d_entry d <> sn_entry (a_snap a).
Proof.
  exists [Interrupt (Compile 0) no; Interrupt (ChangeTask 0 false (Some 6)) no; Finish 0 true; Deliver no; Finish 0 false].
  eexists [_; _; _; _; _; _; _; _; _; _; _], _, [], _. split; [tame_tac|]. split; [vm_compute; reflexivity|].
  vm_compute. repeat split. discriminate.
Qed.
Print Assumptions C22_entry_change_refuted.

(** ** C63 *)

Theorem C63_no_panic_partial : forall entry es, tame_run (init entry) es -> s_dead (fst (run (init entry) es)) = false.
Proof. exact tame_no_panic. Qed.
Print Assumptions C63_no_panic_partial.
Example C63_nonvacuous : tame_run (init 5) busy /\ length busy = 13.
Proof. split; [unfold busy; tame_tac|reflexivity]. Qed.
(** A preview is closed, and its project removed, while it is compiled. *)
Theorem C63_settle_refuted : exists es, s_dead (fst (run (init 5) es)) = true /\ In OPanic (snd (run (init 5) es)).
Proof. exists [Recreate 1 5; Interrupt (Compile 1) no; Interrupt (Settle 1) no; Finish 0 true; Deliver no]. vm_compute. auto 20. Qed.
Print Assumptions C63_settle_refuted.
(** The projects are reloaded while a dedicated one is compiled. *)
Theorem C63_reload_refuted : exists es, s_dead (fst (run (init 5) es)) = true /\ In OPanic (snd (run (init 5) es)).
Proof. exists [Recreate 1 5; Interrupt (Compile 1) no; Reload 5; Finish 0 true; Deliver no]. vm_compute. auto 20. Qed.
Print Assumptions C63_reload_refuted.

(** ** C64 *)

(** Without reloads, and when no project id is used twice, every started
    compilation is preceded by its own status report. *)
Theorem C64_starts_are_reported_partial : forall entry es, forallb (fun e => negb (is_reload e)) es = true -> NoDup (0 :: created es) ->
  announced (snd (run (init entry) es)).
Proof. exact starts_are_reported. Qed.
Print Assumptions C64_starts_are_reported_partial.
Example C64_nonvacuous : forallb (fun e => negb (is_reload e)) busy = true /\ NoDup (0 :: created busy) /\ In (OStart 1 2) (snd (run (init 5) busy)).
Proof. split; [reflexivity|]. split; [repeat constructor; cbn; intuition discriminate|]. vm_compute. intuition. Qed.

(** A project that is closed and opened again compiles without any status
    report, although nothing of its predecessor was in flight. *)
Theorem C64_restarted_project_is_silent_refuted : exists es a b, tame_run (init 5) es /\
  snd (run (init 5) es) = a ++ ORemove 1 :: b /\ In (OStart 1 1) b /\
  (exists x, In (ONotify x) b /\ sn_id (a_snap x) = 1 /\ a_doc x <> None) /\ forall r k, ~ In (OStatus 1 r k) b.
Proof.
  exists [Recreate 1 5; Interrupt (Compile 1) no; Finish 0 true; Deliver no; Interrupt (Settle 1) no; Recreate 1 5;
          Interrupt Forwarded no; Finish 0 true].
  eexists [_; _; _; _; _; _; _; _], _. split; [tame_tac|]. split; [vm_compute; reflexivity|].
  split; [vm_compute; auto|]. split.
  - eexists. split; [right; right; left; reflexivity|]. vm_compute. split; [reflexivity|discriminate].
  - intros r k H. vm_compute in H. intuition discriminate.
Qed.
Print Assumptions C64_restarted_project_is_silent_refuted.
