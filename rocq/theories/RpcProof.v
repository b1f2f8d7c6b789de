From Coq Require Import List ZArith Arith Bool Lia Permutation.
From Verif Require Import RpcModel RpcSpec.
Import ListNotations.

Lemma req_id_eqb_spec a b : reflect (a = b) (req_id_eqb a b).
Proof.
  destruct a, b; cbn; try (constructor; congruence).
  - destruct (Z.eqb_spec z z0); constructor; congruence.
  - destruct (Nat.eqb_spec s s0); constructor; congruence.
Qed.
Lemma req_id_eqb_refl a : req_id_eqb a a = true.
Proof. destruct (req_id_eqb_spec a a); congruence. Qed.

Lemma mem_In id l : mem id l = true <-> In id l.
Proof.
  unfold mem. rewrite existsb_exists. split.
  - intros (x & Hx & E). destruct (req_id_eqb_spec id x); congruence.
  - intros H. exists id. split; auto. apply req_id_eqb_refl.
Qed.
Lemma mem_false id l : mem id l = false <-> ~ In id l.
Proof. rewrite <- mem_In. destruct (mem id l); split; congruence. Qed.
Lemma In_remove x id l : In x (remove id l) <-> In x l /\ x <> id.
Proof.
  unfold remove. rewrite filter_In. destruct (req_id_eqb_spec id x); cbn; intuition congruence.
Qed.

Lemma run_app s a b : run s (a ++ b) =
  let (s1, t1) := run s a in let (s2, t2) := run s1 b in (s2, t1 ++ t2).
Proof.
  revert s; induction a as [|e a IH]; intros s; cbn [run app].
  - destruct (run s b); reflexivity.
  - destruct (step s e) as [s1 o]. rewrite IH. destruct (run s1 a) as [s2 t1].
    destruct (run s2 b); reflexivity.
Qed.

Lemma final_snoc evs e : final (evs ++ [e]) = fst (step (final evs) e).
Proof.
  unfold final. rewrite run_app. destruct (run init evs) as [s t]. cbn [run fst].
  destruct (step s e); reflexivity.
Qed.
Lemma trace_snoc evs e : trace (evs ++ [e]) = trace evs ++ [(e, snd (step (final evs) e))].
Proof.
  unfold trace, final. rewrite run_app. destruct (run init evs) as [s t]. cbn [run fst snd].
  destruct (step s e); reflexivity.
Qed.
Lemma trace_app a b : exists t, trace (a ++ b) = trace a ++ t.
Proof.
  unfold trace. rewrite run_app. destruct (run init a) as [s t]. destruct (run s b) as [s2 t2].
  exists t2. reflexivity.
Qed.

Lemma outs_app a b : outs (a ++ b) = outs a ++ outs b.
Proof. unfold outs. rewrite map_app, concat_app. reflexivity. Qed.
Lemma outs_one e o : outs [(e, o)] = o.
Proof. unfold outs. cbn. apply app_nil_r. Qed.

Lemma ends_app a b : ends (a ++ b) = ends a || ends b.
Proof. apply existsb_app. Qed.

(** ** Effect of the building blocks *)

Lemma respond_spec id p s :
  respond id p s =
    (if mem id (s_pending s) then set_pending s (remove id (s_pending s)) else s,
     if mem id (s_pending s) && s_open s then [OResp id p] else []).
Proof. unfold respond. destruct (mem id (s_pending s)), (s_open s); reflexivity. Qed.

(** Number-valued indicator. *)
Definition b2n (b : bool) : nat := if b then 1 else 0.

Definition cresp (id : req_id) (o : list out) : nat := length (filter (is_resp id) o).
Lemma cresp_app id a b : cresp id (a ++ b) = cresp id a + cresp id b.
Proof. unfold cresp. rewrite filter_app, app_length. reflexivity. Qed.
Definition pend (id : req_id) (s : st) : nat := b2n (mem id (s_pending s)).

Lemma mem_remove id i l : mem id (remove i l) = mem id l && negb (req_id_eqb id i).
Proof.
  apply eq_true_iff_eq. rewrite mem_In, In_remove, andb_true_iff, mem_In, negb_true_iff.
  destruct (req_id_eqb_spec id i); intuition congruence.
Qed.

Ltac lele := solve [apply Nat.le_refl | cbn; lia | unfold pend; cbn; lia].
Lemma respond_count id i p s : let (s', o) := respond i p s in
  cresp id o + pend id s' <= pend id s.
Proof.
  rewrite respond_spec. unfold pend. destruct (mem i (s_pending s)) eqn:E; cbn [andb].
  - cbn [s_pending set_pending]. rewrite mem_remove.
    destruct (req_id_eqb_spec id i) as [->|Hne].
    + rewrite E. cbn. destruct (s_open s); cbn; rewrite ?req_id_eqb_refl; cbn; lia.
    + rewrite andb_true_r. destruct (s_open s); cbn; destruct (req_id_eqb_spec id i); try congruence; cbn; lia.
  - cbn. lia.
Qed.

Lemma schedule_count id tag i r s : let '(s', o, _) := schedule tag i r s in
  cresp id o + pend id s' <= pend id s.
Proof.
  destruct r as [c|p| |]; cbn [schedule].
  - lele.
  - apply (respond_count id i p s).
  - apply Nat.le_refl.
  - lele.
Qed.
Lemma tail_count id i x s : let (s', o) := schedule_tail i x s in
  cresp id o + pend id s' <= pend id s.
Proof. destruct x; cbn [schedule_tail]; try apply respond_count. lele. Qed.
Lemma handle_count id tag i h s : let '(s', o, _) := handle tag i h s in
  cresp id o + pend id s' <= pend id s.
Proof.
  destruct h as [|r|[c|]]; cbn [handle]; try (lele).
  pose proof (schedule_count id tag i r s). destruct (schedule tag i r s) as [[s' o] x]. cbn. exact H.
Qed.
Lemma finish_count id tag i r s : let (s', o) := finish_request tag i r s in
  cresp id o + pend id s' <= pend id s.
Proof.
  unfold finish_request. pose proof (schedule_count id tag i r s).
  destruct (schedule tag i r s) as [[s1 o1] x]. pose proof (tail_count id i x s1).
  destruct (schedule_tail i x s1) as [s2 o2]. rewrite cresp_app. lia.
Qed.

Lemma register_pend id i s : pend id (register_request i s) = if req_id_eqb id i then 1 else pend id s.
Proof.
  unfold pend, register_request. cbn [s_pending set_pending]. unfold mem at 1. cbn [existsb].
  fold (mem id (remove i (s_pending s))). rewrite mem_remove.
  destruct (req_id_eqb id i); cbn; [reflexivity|]. rewrite andb_true_r. reflexivity.
Qed.

Lemma set_phase_pend id s p : pend id (set_phase s p) = pend id s.
Proof. reflexivity. Qed.

Lemma exec_count id tag i c s s' o x : on_execute_command tag i c s = Some (s', o, x) ->
  cresp id o + pend id s' <= pend id s.
Proof.
  intros H.
  assert (Hh : forall h, handle tag i h s = (s', o, x) -> cresp id o + pend id s' <= pend id s).
  { intros h E. pose proof (handle_count id tag i h s) as Hc. rewrite E in Hc. exact Hc. }
  destruct c as [| |h|[|[] args] [h|]]; cbn in H; try discriminate;
    try (inversion H; subst; lele); inversion H as [E]; eapply Hh; eauto.
Qed.

Lemma on_request_count id tag i m s : let (s', o) := on_request tag i m s in
  cresp id o + pend id s' <= pend id (register_request i s).
Proof.
  unfold on_request. set (s0 := register_request i s).
  assert (F : forall r s1, pend id s1 = pend id s0 -> let (s', o) := finish_request tag i r s1 in
    cresp id o + pend id s' <= pend id s0).
  { intros r s1 E. pose proof (finish_count id tag i r s1). destruct (finish_request tag i r s1). lia. }
  destruct (s_phase s0) as [args| | |]; destruct m as [ok r|h|c|[h|]];
    try (apply F; reflexivity).
  - destruct ok; [destruct args|].
    + pose proof (F r (set_phase s0 Initializing) eq_refl).
      destruct (finish_request tag i r (set_phase s0 Initializing)). cbn. exact H.
    + lele.
    + apply F; reflexivity.
  - pose proof (handle_count id tag i h s0). destruct (handle tag i h s0) as [[s1 o1] x].
    pose proof (tail_count id i x s1). destruct (schedule_tail i x s1) as [s2 o2].
    rewrite cresp_app, set_phase_pend. lia.
  - destruct (on_execute_command tag i c s0) as [[[s1 o1] x]|] eqn:E; [|lele].
    pose proof (exec_count id _ _ _ _ _ _ _ E) as Hc.
    destruct x as [| |cc].
    + exact Hc.
    + pose proof (finish_count id tag i (SDone (POk VNull)) s1).
      destruct (finish_request tag i (SDone (POk VNull)) s1). rewrite cresp_app. lia.
    + pose proof (finish_count id tag i (SErr cc) s1).
      destruct (finish_request tag i (SErr cc) s1). rewrite cresp_app. lia.
  - pose proof (handle_count id tag i h s0). destruct (handle tag i h s0) as [[s1 o1] x].
    pose proof (tail_count id i x s1). destruct (schedule_tail i x s1) as [s2 o2].
    rewrite cresp_app. lia.
Qed.

(** How much an event adds to the number of received requests. *)
Definition adds (id : req_id) (e : event) : nat :=
  match e with EvRequest _ i _ => if req_id_eqb id i then 1 else 0 | _ => 0 end.

Lemma step_count id s e : let (s', o) := step s e in
  cresp id o + pend id s' <= (if s_running s then adds id e else 0) + pend id s.
Proof.
  destruct e; cbn [step adds]; try (destruct (s_running s); [|lele]).
  - pose proof (on_request_count id tag id0 m s). destruct (on_request tag id0 m s).
    rewrite register_pend in H. destruct (req_id_eqb id id0); lia.
  - destruct n; cbn [on_notification].
    + destruct (s_phase s) eqn:E; cbn; rewrite ?E; destruct ok; lele.
    + lele.
    + destruct (s_phase s), handler; lele.
  - unfold on_response. destruct (s_phase s), id0; try lele.
    destruct (find _ _) as [[? ?]|]; lele.
  - destruct (s_phase s); try lele; destruct (handled && err); lele.
  - unfold on_finish. destruct (find _ _) as [[? i]|]; [|destruct (s_running s); lele].
    pose proof (respond_count id i r (set_tasks s (filter (fun x => negb (Nat.eqb tag (fst x))) (s_tasks s)))).
    destruct (respond i r _). change (pend id (set_tasks s _)) with (pend id s) in H. destruct (s_running s); lia.
  - unfold send_request. cbv zeta. destruct (s_open s), (s_running s); lele.
  - destruct (s_running s); lele.
  - lele.
Qed.

(** The loop stops exactly when [OStop]/[OPanic] is observed. *)
Lemma respond_running i p s : let (s', o) := respond i p s in
  s_running s' = s_running s /\ ends o = false /\ s_phase s' = s_phase s /\ s_open s' = s_open s.
Proof. rewrite respond_spec. destruct (mem i (s_pending s)); cbn [andb]; destruct (s_open s) eqn:E; cbn; repeat split; auto. Qed.
Lemma schedule_running tag i r s : let '(s', o, _) := schedule tag i r s in
  s_running s' = s_running s /\ ends o = false /\ s_phase s' = s_phase s /\ s_open s' = s_open s.
Proof.
  destruct r as [c|p| |]; cbn [schedule]; [cbn; repeat split| |cbn; repeat split|cbn; repeat split].
  apply (respond_running i p s).
Qed.
Lemma tail_running i x s : let (s', o) := schedule_tail i x s in
  s_running s' = s_running s /\ ends o = false /\ s_phase s' = s_phase s /\ s_open s' = s_open s.
Proof. destruct x; cbn [schedule_tail]; try apply respond_running. cbn; repeat split. Qed.
Lemma handle_running tag i h s : let '(s', o, _) := handle tag i h s in
  s_running s' = s_running s /\ ends o = false /\ s_phase s' = s_phase s /\ s_open s' = s_open s.
Proof.
  destruct h as [|r|[c|]]; cbn [handle]; try (cbn; repeat split).
  pose proof (schedule_running tag i r s). destruct (schedule tag i r s) as [[s' o] x].
  unfold ends in *. cbn [existsb]. exact H.
Qed.
Lemma finish_running tag i r s : let (s', o) := finish_request tag i r s in
  s_running s' = s_running s /\ ends o = false /\ s_phase s' = s_phase s /\ s_open s' = s_open s.
Proof.
  unfold finish_request. pose proof (schedule_running tag i r s).
  destruct (schedule tag i r s) as [[s1 o1] x]. pose proof (tail_running i x s1).
  destruct (schedule_tail i x s1) as [s2 o2]. rewrite ends_app.
  destruct H as (H1 & H2 & H3 & H4), H0 as (H5 & H6 & H7 & H8).
  rewrite H2, H6. repeat split; congruence.
Qed.

Lemma let_left {A B} (X : A * B) (P Q : A -> B -> Prop) :
  (let (a, b) := X in P a b) -> let (a, b) := X in P a b \/ Q a b.
Proof. destruct X; auto. Qed.
Ltac goleft := refine (let_left _ (fun s' o => s_running s' = true && negb (ends o))
  (fun s' _ => true = false /\ s_running s' = false) _).

Lemma step_running s e : let (s', o) := step s e in
  s_running s' = s_running s && negb (ends o) \/ s_running s = false /\ s_running s' = false.
Proof.
  assert (H0 : forall s1 (o : list out), s_running s1 = s_running s /\ ends o = false ->
    s_running s1 = s_running s && negb (ends o) \/ s_running s = false /\ s_running s1 = false).
  { intros s1 o [-> ->]. left. rewrite andb_true_r. reflexivity. }
  destruct e; cbn [step].
  - destruct (s_running s) eqn:Er; [|right; auto]. goleft.
    unfold on_request. set (s0 := register_request id s).
    assert (Hs0 : s_running s0 = true) by exact Er.
    assert (F : forall r s1, s_running s1 = true -> let (s', o) := finish_request tag id r s1 in
      s_running s' = true && negb (ends o)).
    { intros r s1 E. pose proof (finish_running tag id r s1). destruct (finish_request tag id r s1).
      destruct H as (-> & -> & _). rewrite E. reflexivity. }
    assert (G : forall h (k : st -> st), (forall x, s_running (k x) = s_running x) ->
      let '(s1, o1, x) := handle tag id h s0 in
      let (s2, o2) := schedule_tail id x s1 in s_running (k s2) = true && negb (ends (o1 ++ o2))).
    { intros h k Hk. pose proof (handle_running tag id h s0) as Ha. destruct (handle tag id h s0) as [[s1 o1] x].
      pose proof (tail_running id x s1) as Hb. destruct (schedule_tail id x s1) as [s2 o2].
      destruct Ha as (H1 & H2 & _), Hb as (H3 & H4 & _). rewrite Hk, ends_app, H2, H4, H3, H1, Hs0. reflexivity. }
    destruct (s_phase s0) as [args| | |]; destruct m as [ok r|h|c|[h|]]; try (apply F; exact Hs0).
    + destruct ok; [destruct args|].
      * pose proof (F r (set_phase s0 Initializing) Hs0).
        destruct (finish_request tag id r (set_phase s0 Initializing)). exact H.
      * reflexivity.
      * apply F; exact Hs0.
    + pose proof (G h (fun x => set_phase x ShuttingDown) ltac:(reflexivity)).
      destruct (handle tag id h s0) as [[s1 o1] x]. destruct (schedule_tail id x s1). exact H.
    + destruct (on_execute_command tag id c s0) as [[[s1 o1] x]|] eqn:E; [|reflexivity].
      assert (Hx : s_running s1 = true /\ ends o1 = false).
      { assert (Hh : forall h, handle tag id h s0 = (s1, o1, x) -> s_running s1 = true /\ ends o1 = false).
        { intros h Eh. pose proof (handle_running tag id h s0) as Hr. rewrite Eh in Hr.
          destruct Hr as (-> & -> & _). auto. }
        destruct c as [| |h|[|[] args] [h|]]; cbn in E; try discriminate;
          try (inversion E; subst; cbn; auto; fail); inversion E as [E2]; eapply Hh; eauto. }
      destruct Hx as [Hx1 Hx2]. destruct x as [| |cc].
      * rewrite Hx1, Hx2. reflexivity.
      * pose proof (F (SDone (POk VNull)) s1 Hx1). destruct (finish_request tag id _ s1).
        rewrite ends_app, Hx2. exact H.
      * pose proof (F (SErr cc) s1 Hx1). destruct (finish_request tag id _ s1).
        rewrite ends_app, Hx2. exact H.
    + pose proof (G h (fun x => x) ltac:(reflexivity)).
      destruct (handle tag id h s0) as [[s1 o1] x]. destruct (schedule_tail id x s1). exact H.
  - destruct (s_running s) eqn:Er; [|right; auto]. goleft.
    destruct n; cbn [on_notification].
    + destruct (s_phase s) eqn:E; cbn; rewrite ?E; destruct ok; exact Er.
    + reflexivity.
    + destruct (s_phase s), handler; exact Er.
  - destruct (s_running s) eqn:Er; [|right; auto]. goleft. unfold on_response.
    destruct (s_phase s), id; try exact Er. destruct (find _ _) as [[? ?]|]; exact Er.
  - destruct (s_running s) eqn:Er; [|right; auto]. goleft.
    destruct (s_phase s); try exact Er; destruct (handled && err); try exact Er; reflexivity.
  - unfold on_finish. destruct (find _ _) as [[? i]|]; [|apply H0; auto].
    pose proof (respond_running i r (set_tasks s (filter (fun x => negb (Nat.eqb tag (fst x))) (s_tasks s)))).
    destruct (respond i r _). apply H0. intuition.
  - unfold send_request. cbv zeta. apply H0. destruct (s_open s); auto.
  - apply H0; auto.
  - destruct (s_running s) eqn:Er; [|right; auto]. left. reflexivity.
Qed.

Lemma run_count id evs : forall s, let (s', tr) := run s evs in
  responses id tr + pend id s' <= (if s_running s then requests id tr else 0) + pend id s.
Proof.
  induction evs as [|e evs IH]; intros s; cbn [run].
  - cbn. destruct (s_running s); lia.
  - pose proof (step_count id s e). pose proof (step_running s e).
    destruct (step s e) as [s1 o]. specialize (IH s1). destruct (run s1 evs) as [s2 tr].
    assert (responses id ((e, o) :: tr) = cresp id o + responses id tr) as ->.
    { unfold responses, cresp, outs. cbn [map concat snd]. rewrite filter_app, app_length. reflexivity. }
    cbn [requests]. fold (adds id e).
    destruct (s_running s).
    + destruct H0 as [E|[E _]]; [|discriminate]. rewrite E in IH. cbn [andb] in IH.
      destruct (ends o); cbn [negb] in IH; lia.
    + destruct H0 as [E|[_ E]]; rewrite E in IH; cbn [andb] in IH; lia.
Qed.

Lemma at_most_one id evs : responses id (trace evs) <= requests id (trace evs).
Proof.
  unfold trace. pose proof (run_count id evs init). destruct (run init evs) as [s tr].
  unfold pend in H. cbn in H. cbn [snd]. lia.
Qed.

(** ** Exact accounting *)

Definition spawns (o : list out) : list (nat * req_id) :=
  concat (map (fun x => match x with OSpawn t i => [(t, i)] | _ => [] end) o).
Lemma spawns_app a b : spawns (a ++ b) = spawns a ++ spawns b.
Proof. unfold spawns. rewrite map_app, concat_app. reflexivity. Qed.

Definition quiet (o : list out) : Prop := (forall i, cresp i o = 0) /\ spawns o = [].

(** The request has been answered, or a task for it has been started. *)
Definition answered (id : req_id) (s s' : st) (o : list out) : Prop :=
  s_tasks s' = s_tasks s /\ s_pending s' = remove id (s_pending s) /\
  (forall i, cresp i o = if req_id_eqb i id then 1 else 0) /\ spawns o = [].
Definition spawned (tag : nat) (id : req_id) (s s' : st) (o : list out) : Prop :=
  s_tasks s' = (tag, id) :: s_tasks s /\ s_pending s' = s_pending s /\
  (forall i, cresp i o = 0) /\ spawns o = [(tag, id)].
Definition eff (tag : nat) (id : req_id) (s s' : st) (o : list out) : Prop :=
  s_open s' = true /\ (answered id s s' o \/ spawned tag id s s' o).

Lemma respond_answered id p s : mem id (s_pending s) = true -> s_open s = true ->
  let (s', o) := respond id p s in s_open s' = true /\ answered id s s' o.
Proof.
  intros Hm Ho. rewrite respond_spec, Hm, Ho. split; [exact Ho|]. repeat split.
  intros i. unfold cresp. cbn. destruct (req_id_eqb i id); reflexivity.
Qed.

Definition unanswered (s s' : st) (o : list out) (x : scheduled) : Prop :=
  x <> RDone /\ s' = s /\ quiet o.

Lemma schedule_exact tag id r s : mem id (s_pending s) = true -> s_open s = true -> r <> SGone ->
  let '(s', o, x) := schedule tag id r s in
  (x = RDone /\ eff tag id s s' o) \/ unanswered s s' o x.
Proof.
  intros Hm Ho Hr. destruct r as [c|p| |]; cbn [schedule]; [| | |congruence].
  - right. repeat split; discriminate.
  - pose proof (respond_answered id p s Hm Ho). destruct (respond id p s).
    left. split; [reflexivity|]. split; [apply H|left; apply H].
  - left. split; [reflexivity|]. split; [exact Ho|]. right. repeat split.
Qed.

Lemma quiet_cons x o : (match x with OResp _ _ => False | OSpawn _ _ => False | _ => True end) ->
  quiet o -> quiet (x :: o).
Proof. intros Hx [H1 H2]. destruct x; try contradiction; split; auto. Qed.
Lemma eff_cons tag id s s' x o : (match x with OResp _ _ => False | OSpawn _ _ => False | _ => True end) ->
  eff tag id s s' o -> eff tag id s s' (x :: o).
Proof.
  intros Hx [Ho H]. split; [exact Ho|].
  destruct x; try contradiction; exact H.
Qed.
Lemma eff_app tag id s s' a o : quiet a -> eff tag id s s' o -> eff tag id s s' (a ++ o).
Proof.
  intros [Q1 Q2] [Ho H]. split; [exact Ho|].
  destruct H as [(H1 & H2 & H3 & H4)|(H1 & H2 & H3 & H4)]; [left|right].
  - repeat split; auto.
    + intros i. rewrite cresp_app, Q1, H3. reflexivity.
    + rewrite spawns_app, Q2, H4. reflexivity.
  - repeat split; auto.
    + intros i. rewrite cresp_app, Q1, H3. reflexivity.
    + rewrite spawns_app, Q2, H4. reflexivity.
Qed.

Lemma handle_exact tag id h s : mem id (s_pending s) = true -> s_open s = true -> hres_ok h ->
  let '(s', o, x) := handle tag id h s in
  (x = RDone /\ eff tag id s s' o) \/ unanswered s s' o x.
Proof.
  intros Hm Ho Hh. destruct h as [|r|[c|]]; cbn [handle].
  - right. repeat split; discriminate.
  - assert (Hr : r <> SGone) by (intros ->; apply Hh; reflexivity).
    pose proof (schedule_exact tag id r s Hm Ho Hr) as H.
    destruct (schedule tag id r s) as [[s' o] x]. destruct H as [[H1 H2]|(H1 & H2 & H3)].
    + left. split; [exact H1|]. apply eff_cons; auto.
    + right. split; [exact H1|]. split; [exact H2|]. apply quiet_cons; auto.
  - right. repeat split; discriminate.
  - right. repeat split; discriminate.
Qed.

Lemma tail_exact tag id x s : mem id (s_pending s) = true -> s_open s = true -> x <> RDone ->
  let (s', o) := schedule_tail id x s in eff tag id s s' o.
Proof.
  intros Hm Ho Hx. destruct x as [| |c]; [congruence| |]; cbn [schedule_tail].
  - pose proof (respond_answered id (POk VNull) s Hm Ho). destruct (respond _ _ _).
    split; [apply H|left; apply H].
  - pose proof (respond_answered id (PErr c) s Hm Ho). destruct (respond _ _ _).
    split; [apply H|left; apply H].
Qed.

(** Completing what [handle]/[schedule] left open. *)
Lemma complete_exact tag id s (t : st * list out * scheduled) :
  mem id (s_pending s) = true -> s_open s = true ->
  (let '(s', o, x) := t in (x = RDone /\ eff tag id s s' o) \/ unanswered s s' o x) ->
  let '(s1, o1, x) := t in
  let (s2, o2) := schedule_tail id x s1 in eff tag id s s2 (o1 ++ o2).
Proof.
  intros Hm Ho. destruct t as [[s1 o1] x]. intros [[-> H]|(Hx & -> & Hq)].
  - cbn. rewrite app_nil_r. exact H.
  - pose proof (tail_exact tag id x s Hm Ho Hx). destruct (schedule_tail id x s). apply eff_app; auto.
Qed.

Lemma finish_exact tag id r s : mem id (s_pending s) = true -> s_open s = true -> r <> SGone ->
  let (s', o) := finish_request tag id r s in eff tag id s s' o.
Proof.
  intros Hm Ho Hr. unfold finish_request.
  pose proof (complete_exact tag id s (schedule tag id r s) Hm Ho (schedule_exact tag id r s Hm Ho Hr)).
  destruct (schedule tag id r s) as [[s1 o1] x]. destruct (schedule_tail id x s1). exact H.
Qed.

Lemma register_mem id s : mem id (s_pending (register_request id s)) = true.
Proof. apply mem_In. left. reflexivity. Qed.

Lemma on_request_exact tag id m s : s_open s = true -> request_ok m ->
  let (s', o) := on_request tag id m s in
  ~ In OPanic o -> eff tag id (register_request id s) s' o.
Proof.
  intros Ho Hok. unfold on_request. set (s0 := register_request id s).
  assert (Hm : mem id (s_pending s0) = true) by apply register_mem.
  assert (Ho0 : s_open s0 = true) by exact Ho.
  assert (F : forall r s1, r <> SGone -> s_pending s1 = s_pending s0 -> s_tasks s1 = s_tasks s0 ->
    s_open s1 = true -> let (s', o) := finish_request tag id r s1 in eff tag id s0 s' o).
  { intros r s1 Hr E1 E2 E3. pose proof (finish_exact tag id r s1) as H. rewrite E1 in H.
    specialize (H Hm E3 Hr). destruct (finish_request tag id r s1).
    destruct H as [H1 [H2|H2]]; split; auto; [left|right];
      destruct H2 as (A & B & C & D); rewrite ?E1, ?E2 in *; repeat split; auto. }
  assert (G : forall h, hres_ok h ->
    let '(s1, o1, x) := handle tag id h s0 in
    let (s2, o2) := schedule_tail id x s1 in eff tag id s0 s2 (o1 ++ o2)).
  { intros h Hh. apply (complete_exact tag id s0 (handle tag id h s0) Hm Ho0).
    apply handle_exact; auto. }
  destruct (s_phase s0) as [args| | |]; destruct m as [ok r|h|c|[h|]];
    try (match goal with |- context[finish_request tag id (SDone ?p) s0] =>
      pose proof (F (SDone p) s0 ltac:(discriminate) eq_refl eq_refl Ho0) as H;
      destruct (finish_request tag id (SDone p) s0); intros _; exact H end).
  - destruct ok; [destruct args|].
    + pose proof (F r (set_phase s0 Initializing) Hok eq_refl eq_refl Ho0) as H.
      destruct (finish_request tag id r (set_phase s0 Initializing)). intros _. apply eff_cons; auto.
    + cbn. intros H. exfalso; apply H; auto.
    + pose proof (F (SDone (PErr EInvalidRequest)) s0 ltac:(discriminate) eq_refl eq_refl Ho0) as H;
      destruct (finish_request tag id _ s0); intros _; exact H.
  - pose proof (G h Hok) as H. destruct (handle tag id h s0) as [[s1 o1] x].
    destruct (schedule_tail id x s1). intros _. exact H.
  - destruct (on_execute_command tag id c s0) as [[[s1 o1] x]|] eqn:E.
    2:{ cbn. intros H. exfalso; apply H; auto. }
    assert (Hx : (x = RDone /\ eff tag id s0 s1 o1) \/ unanswered s0 s1 o1 x).
    { assert (Hh : forall h, hres_ok h -> handle tag id h s0 = (s1, o1, x) ->
        (x = RDone /\ eff tag id s0 s1 o1) \/ unanswered s0 s1 o1 x).
      { intros h Hh Eh. pose proof (handle_exact tag id h s0 Hm Ho0 Hh) as H. rewrite Eh in H. exact H. }
      destruct c as [| |h|[|[] args] [h|]]; cbn in E; try discriminate;
        try (inversion E; subst; right; repeat split; discriminate); inversion E as [E2];
        apply (Hh h); auto. }
    assert (K : forall r, r <> SGone -> x <> RDone ->
      let (s2, o2) := finish_request tag id r s1 in eff tag id s0 s2 (o1 ++ o2)).
    { intros r Hr Hxd. destruct Hx as [[-> _]|(_ & -> & Hq)]; [congruence|].
      pose proof (finish_exact tag id r s0 Hm Ho0 Hr). destruct (finish_request tag id r s0).
      apply eff_app; auto. }
    destruct x as [| |cc].
    + intros _. destruct Hx as [[_ H]|[H _]]; [exact H|congruence].
    + pose proof (K (SDone (POk VNull)) ltac:(discriminate) ltac:(discriminate)) as H.
      destruct (finish_request tag id _ s1). intros _. exact H.
    + pose proof (K (SErr cc) ltac:(discriminate) ltac:(discriminate)) as H.
      destruct (finish_request tag id _ s1). intros _. exact H.
  - pose proof (G h Hok) as H. destruct (handle tag id h s0) as [[s1 o1] x].
    destruct (schedule_tail id x s1). intros _. exact H.
Qed.

(** Requests counted along a history. *)
Lemma requests_snoc id tr e o : requests id (tr ++ [(e, o)]) =
  requests id tr + (if ends (outs tr) then 0 else adds id e).
Proof.
  induction tr as [|[e' o'] tr IH]; cbn [app requests].
  - cbn. fold (adds id e). destruct (ends o); lia.
  - change (outs ((e', o') :: tr)) with (o' ++ outs tr). rewrite ends_app.
    destruct (ends o'); cbn [orb]; [lia|]. rewrite IH. lia.
Qed.
Lemma responses_snoc id tr e o : responses id (tr ++ [(e, o)]) = responses id tr + cresp id o.
Proof.
  unfold responses. rewrite outs_app, outs_one, filter_app, app_length. reflexivity.
Qed.

Lemma running_ends evs : s_running (final evs) = negb (ends (outs (trace evs))).
Proof.
  induction evs as [|e evs IH] using rev_ind; [reflexivity|].
  rewrite final_snoc, trace_snoc, outs_app, outs_one, ends_app.
  pose proof (step_running (final evs) e). destruct (step (final evs) e) as [s' o]. cbn [fst snd].
  destruct H as [->|[H ->]]; rewrite IH in *.
  - destruct (ends (outs (trace evs))); reflexivity.
  - apply negb_false_iff in H. rewrite H. reflexivity.
Qed.

Record acc (evs : list event) : Prop := {
  acc_open : s_open (final evs) = true;
  acc_fst : NoDup (map fst (s_tasks (final evs)));
  acc_snd : NoDup (map snd (s_tasks (final evs)));
  acc_pend : forall id, In id (s_pending (final evs)) <-> In id (map snd (s_tasks (final evs)));
  acc_tags : incl (map fst (s_tasks (final evs))) (tags evs);
  acc_count : forall id, requests id (trace evs) = responses id (trace evs) + pend id (final evs)
}.

Lemma tags_app a b : tags (a ++ b) = tags a ++ tags b.
Proof. unfold tags. rewrite map_app, concat_app. reflexivity. Qed.

Lemma NoDup_app_l {A} (a b : list A) : NoDup (a ++ b) -> NoDup a.
Proof. induction a; intros H; [constructor|]. inversion H; subst. constructor; [|auto]. intros Hi; apply H2, in_or_app; auto. Qed.

Lemma NoDup_map_filter {A B} (f : A -> B) p l : NoDup (map f l) -> NoDup (map f (filter p l)).
Proof.
  induction l as [|a l IH]; intros H; [constructor|]. cbn in *. inversion H; subst.
  destruct (p a); cbn; auto. constructor; auto. intros Hi. apply H2.
  apply in_map_iff in Hi as (x & E & Hx). apply filter_In in Hx as [Hx _].
  rewrite <- E. apply in_map; auto.
Qed.

Lemma find_filter_fst tag (l : list (nat * req_id)) id t :
  NoDup (map fst l) -> NoDup (map snd l) -> find (fun x => Nat.eqb tag (fst x)) l = Some (t, id) ->
  In (tag, id) l /\
  (forall i, In i (map snd (filter (fun x => negb (Nat.eqb tag (fst x))) l)) <->
             In i (map snd l) /\ i <> id).
Proof.
  intros N1 N2 F. apply find_some in F as [Hin E]. cbn in E. apply Nat.eqb_eq in E. subst t.
  split; [exact Hin|]. intros i. rewrite !in_map_iff. split.
  - intros ((t & i') & E & Hf). cbn in E. subst i'. apply filter_In in Hf as [Hf Hn]. cbn in Hn.
    destruct (Nat.eqb_spec tag t); [discriminate|]. split; [exists (t, i); auto|].
    intros ->. apply n.
    assert (Hu : forall l : list (nat * req_id), NoDup (map snd l) -> forall a b i, In (a, i) l -> In (b, i) l -> a = b).
    { clear. induction l as [|[c j] l IH]; cbn; intros N a b i Ha Hb; [contradiction|].
      inversion N; subst. destruct Ha as [Ha|Ha], Hb as [Hb|Hb].
      - congruence.
      - inversion Ha; subst. exfalso. apply H1. apply in_map_iff. exists (b, i); auto.
      - inversion Hb; subst. exfalso. apply H1. apply in_map_iff. exists (a, i); auto.
      - eauto. }
    eapply Hu; eauto.
  - intros (((t & i') & E & Hf) & Hne). cbn in E. subst i'. exists (t, i). split; [reflexivity|].
    apply filter_In. split; [exact Hf|]. cbn. destruct (Nat.eqb_spec tag t) as [->|]; [|reflexivity].
    exfalso. apply Hne.
    assert (Hu : forall l : list (nat * req_id), NoDup (map fst l) -> forall a i j, In (a, i) l -> In (a, j) l -> i = j).
    { clear. induction l as [|[c j] l IH]; cbn; intros N a i k Ha Hb; [contradiction|].
      inversion N; subst. destruct Ha as [Ha|Ha], Hb as [Hb|Hb].
      - congruence.
      - inversion Ha; subst. exfalso. apply H1. apply in_map_iff. exists (a, k); auto.
      - inversion Hb; subst. exfalso. apply H1. apply in_map_iff. exists (a, i); auto.
      - eauto. }
    eapply Hu; eauto.
Qed.

Lemma pend_In id s : pend id s = 1 <-> In id (s_pending s).
Proof. unfold pend. rewrite <- mem_In. destruct (mem id (s_pending s)); cbn; split; intros; congruence. Qed.
Lemma pend_notIn id s : pend id s = 0 <-> ~ In id (s_pending s).
Proof. unfold pend. rewrite <- mem_In. destruct (mem id (s_pending s)); cbn; split; intros; congruence. Qed.
Lemma pend_iff id s s' : (In id (s_pending s) <-> In id (s_pending s')) -> pend id s = pend id s'.
Proof.
  intros H. unfold pend. f_equal. apply eq_true_iff_eq. rewrite !mem_In. exact H.
Qed.

(** Events other than requests and completions do not touch the queue. *)
Lemma step_other s e : (match e with EvRequest _ _ _ | EvFinish _ _ | EvClose => False | _ => True end) ->
  let (s', o) := step s e in
  s_pending s' = s_pending s /\ s_tasks s' = s_tasks s /\ s_open s' = s_open s /\ quiet o.
Proof.
  intros He. destruct e; try contradiction; cbn [step].
  - destruct (s_running s); [|repeat split]. destruct n; cbn [on_notification].
    + destruct (s_phase s) eqn:E; cbn; rewrite ?E; destruct ok; repeat split.
    + repeat split.
    + destruct (s_phase s), handler; repeat split.
  - destruct (s_running s); [|repeat split]. unfold on_response.
    destruct (s_phase s), id; try (repeat split; fail). destruct (find _ _) as [[? ?]|]; repeat split.
  - destruct (s_running s); [|repeat split]. destruct (s_phase s); try (repeat split; fail);
      destruct (handled && err); repeat split.
  - unfold send_request. cbv zeta. destruct (s_open s) eqn:E; repeat split; exact E.
  - destruct (s_running s); repeat split.
Qed.

Lemma acc_inv evs : distinct_in_flight evs -> NoDup (tags evs) -> Forall event_ok evs ->
  ~ In OPanic (outs (trace evs)) -> acc evs.
Proof.
  induction evs as [|e evs IH] using rev_ind; intros Hd Ht Hok Hp.
  - constructor; cbn; try constructor; intros; try tauto; try lia; try (intros ? []).
  - assert (IHe : acc evs).
    { apply IH.
      - intros pre tag id m post E. apply (Hd pre tag id m (post ++ [e])). rewrite E, <- app_assoc. reflexivity.
      - rewrite tags_app in Ht. eapply NoDup_app_l; eauto.
      - apply Forall_app in Hok as [H _]; exact H.
      - intros Hi. apply Hp. rewrite trace_snoc, outs_app. apply in_or_app; auto. }
    clear IH. rewrite trace_snoc, outs_app, outs_one in Hp.
    assert (Hpo : ~ In OPanic (snd (step (final evs) e))) by (intros Hi; apply Hp, in_or_app; auto).
    apply Forall_app in Hok as [_ Hoke]. inversion Hoke as [|? ? Hoke1 _]; subst.
    pose proof (running_ends evs) as Hrun.
    destruct IHe as [Iop Ifst Isnd Ipend Itags Icnt].
    (* steps that do not touch the queue *)
    assert (Same : forall s' o, step (final evs) e = (s', o) ->
       s_pending s' = s_pending (final evs) -> s_tasks s' = s_tasks (final evs) ->
       s_open s' = s_open (final evs) -> quiet o ->
       (forall id, (if ends (outs (trace evs)) then 0 else adds id e) = 0) -> acc (evs ++ [e])).
    { intros s' o E H1 H2 H3 [H4 _] H5. constructor; rewrite ?final_snoc, ?trace_snoc, ?E; cbn [fst snd].
      - congruence.
      - rewrite H2; auto.
      - rewrite H2; auto.
      - rewrite H1, H2; auto.
      - rewrite H2, tags_app. intros x Hx. apply in_or_app; auto.
      - intros id. rewrite requests_snoc, responses_snoc, H4, H5, Icnt.
        rewrite (pend_iff id s' (final evs)) by (rewrite H1; tauto). lia. }
    destruct e as [tag id m|n|id v|hd er|tag r|k| |]; try contradiction;
      try (match goal with |- acc (evs ++ [?e]) =>
        pose proof (step_other (final evs) e I) as Hs;
        destruct (step (final evs) e) as [s' o] eqn:E; destruct Hs as (A & B & C & D);
        apply (Same s' o eq_refl A B C D); intros; cbn; destruct (ends _); reflexivity end).
    + (* request *)
      cbn [step] in *. destruct (s_running (final evs)) eqn:Er.
      2:{ apply (Same (final evs) [] eq_refl eq_refl eq_refl eq_refl (conj (fun _ => eq_refl) eq_refl)).
          intros i. symmetry in Hrun. apply negb_false_iff in Hrun. rewrite Hrun. reflexivity. }
      assert (Hend : ends (outs (trace evs)) = false) by (symmetry in Hrun; apply negb_true_iff in Hrun; exact Hrun).
      pose proof (on_request_exact tag id m (final evs) Iop Hoke1) as Hx.
      assert (Hnew : ~ In id (s_pending (final evs))).
      { apply pend_notIn. pose proof (Hd evs tag id m [] eq_refl) as He. rewrite Icnt in He. lia. }
      assert (Htag : ~ In tag (map fst (s_tasks (final evs)))).
      { intros Hi. apply Itags in Hi. rewrite tags_app in Ht. cbn in Ht.
        apply NoDup_remove_2 in Ht. rewrite app_nil_r in Ht. auto. }
      clear Same. destruct (on_request tag id m (final evs)) as [s' o] eqn:E. cbn [snd] in Hpo.
      specialize (Hx Hpo). destruct Hx as [Hop [(A & B & C & D)|(A & B & C & D)]].
      * assert (Hp' : forall i, In i (s_pending s') <-> In i (s_pending (final evs))).
        { intros i. rewrite B, In_remove. cbn [register_request s_pending set_pending In].
          rewrite In_remove. destruct (req_id_eqb_spec i id) as [->|]; [tauto|].
          split; [intros [[?|?] ?]; [congruence|tauto]|tauto]. }
        cbn [register_request s_tasks set_pending] in A.
        assert (Ef : step (final evs) (EvRequest tag id m) = (s', o)) by (cbn [step]; rewrite Er; exact E).
        constructor; rewrite ?final_snoc, ?trace_snoc, ?Ef; cbn [fst snd]; rewrite ?A; auto.
        -- intros i. rewrite Hp'. auto.
        -- rewrite tags_app. intros x Hx. apply in_or_app; auto.
        -- intros i. rewrite requests_snoc, responses_snoc, C, Hend, Icnt.
           rewrite (pend_iff i s' (final evs)) by apply Hp'. cbn [adds]. lia.
      * cbn [register_request s_tasks set_pending] in A.
        assert (Hp' : forall i, In i (s_pending s') <-> In i (s_pending (final evs)) \/ i = id).
        { intros i. rewrite B. cbn [register_request s_pending set_pending In]. rewrite In_remove.
          destruct (req_id_eqb_spec i id) as [->|]; [tauto|]. split; [intros [?|?]; [congruence|tauto]|tauto]. }
        assert (Ef : step (final evs) (EvRequest tag id m) = (s', o)) by (cbn [step]; rewrite Er; exact E).
        constructor; rewrite ?final_snoc, ?trace_snoc, ?Ef; cbn [fst snd]; rewrite ?A; cbn [map fst snd]; auto.
        -- constructor; auto.
        -- constructor; auto. rewrite <- Ipend. exact Hnew.
        -- intros i. rewrite Hp', Ipend. cbn. split; [intros [?| ->]; auto|intros [<-|?]; auto].
        -- rewrite tags_app. cbn. intros x [<-|Hx]; apply in_or_app; cbn; auto.
        -- intros i. rewrite requests_snoc, responses_snoc, C, Hend, Icnt. cbn [adds].
           destruct (req_id_eqb_spec i id) as [->|Hne].
           ++ apply pend_notIn in Hnew. rewrite Hnew.
              assert (pend id s' = 1) as -> by (apply pend_In, Hp'; auto). lia.
           ++ rewrite (pend_iff i s' (final evs)); [lia|]. rewrite Hp'. tauto.
    + (* completion *)
      cbn [step] in *. unfold on_finish in *.
      destruct (find (fun x => Nat.eqb tag (fst x)) (s_tasks (final evs))) as [[t id]|] eqn:F.
      2:{ apply (Same (final evs) [] eq_refl eq_refl eq_refl eq_refl (conj (fun _ => eq_refl) eq_refl)).
          intros i. cbn. destruct (ends _); reflexivity. }
      destruct (find_filter_fst _ _ _ _ Ifst Isnd F) as [Hin Hfil].
      clear Same.
      set (s1 := set_tasks (final evs) (filter (fun x => negb (Nat.eqb tag (fst x))) (s_tasks (final evs)))) in *.
      assert (Hm : mem id (s_pending s1) = true).
      { apply mem_In. cbn. apply Ipend. apply in_map_iff. exists (tag, id); auto. }
      pose proof (respond_answered id r s1 Hm Iop) as Hx.
      destruct (respond id r s1) as [s' o] eqn:E. destruct Hx as [Hop (A & B & C & D)].
      assert (Ef : step (final evs) (EvFinish tag r) = (s', o)).
      { cbn [step]. unfold on_finish. rewrite F. exact E. }
      cbn [s1 s_tasks set_tasks s_pending] in A, B.
      constructor; rewrite ?final_snoc, ?trace_snoc, ?Ef; cbn [fst snd]; rewrite ?A; auto.
      * apply NoDup_map_filter; auto.
      * apply NoDup_map_filter; auto.
      * intros i. rewrite B, In_remove, Hfil, Ipend. tauto.
      * rewrite tags_app. intros x Hx. apply in_or_app. left. apply Itags.
        apply in_map_iff in Hx as (y & E' & Hy). apply filter_In in Hy as [Hy _]. rewrite <- E'. apply in_map; auto.
      * intros i. rewrite requests_snoc, responses_snoc, C. cbn [adds].
        assert ((if ends (outs (trace evs)) then 0 else 0) = 0) as -> by (destruct (ends _); reflexivity).
        rewrite Icnt. destruct (req_id_eqb_spec i id) as [->|Hne].
        -- assert (pend id s' = 0) as -> by (apply pend_notIn; rewrite B, In_remove; tauto).
           assert (pend id (final evs) = 1) as -> by (apply pend_In, mem_In; exact Hm). lia.
        -- rewrite (pend_iff i s' (final evs)); [lia|]. rewrite B, In_remove. tauto.
Qed.

(** Tasks and the observable [working]. *)
Definition nfin (e : event) (x : nat * req_id) : bool :=
  match e with EvFinish t _ => negb (Nat.eqb t (fst x)) | _ => true end.

Lemma filter_true {A} (l : list A) : filter (fun _ => true) l = l.
Proof. induction l; cbn; congruence. Qed.

Lemma respond_tasks i p s : let (s', o) := respond i p s in s_tasks s' = s_tasks s /\ spawns o = [].
Proof. rewrite respond_spec. destruct (mem i (s_pending s)); cbn [andb]; destruct (s_open s); repeat split. Qed.
Lemma schedule_tasks tag i r s : let '(s', o, _) := schedule tag i r s in s_tasks s' = spawns o ++ s_tasks s.
Proof.
  destruct r as [c|p| |]; cbn [schedule]; try reflexivity.
  pose proof (respond_tasks i p s). destruct (respond i p s). destruct H as [-> ->]. reflexivity.
Qed.
Lemma tail_tasks i x s : let (s', o) := schedule_tail i x s in s_tasks s' = spawns o ++ s_tasks s.
Proof.
  destruct x as [| |c]; cbn [schedule_tail]; [reflexivity| |];
    match goal with |- context[respond i ?p s] => pose proof (respond_tasks i p s); destruct (respond i p s) end;
    destruct H as [-> ->]; reflexivity.
Qed.
Lemma handle_tasks tag i h s : let '(s', o, _) := handle tag i h s in s_tasks s' = spawns o ++ s_tasks s.
Proof.
  destruct h as [|r|[c|]]; cbn [handle]; try reflexivity.
  pose proof (schedule_tasks tag i r s). destruct (schedule tag i r s) as [[s' o] x]. exact H.
Qed.
Lemma quiet_after_spawn tag i h s : let '(s1, o1, x) := handle tag i h s in
  let (s2, o2) := schedule_tail i x s1 in spawns o2 = [].
Proof.
  destruct (handle tag i h s) as [[s1 o1] x]. destruct x as [| |c]; cbn [schedule_tail]; [reflexivity| |];
    match goal with |- context[respond i ?p s1] => pose proof (respond_tasks i p s1); destruct (respond i p s1) end;
    apply H.
Qed.
Lemma finish_tasks tag i r s : let (s', o) := finish_request tag i r s in s_tasks s' = spawns o ++ s_tasks s.
Proof.
  unfold finish_request. pose proof (schedule_tasks tag i r s). destruct (schedule tag i r s) as [[s1 o1] x].
  pose proof (tail_tasks i x s1). destruct (schedule_tail i x s1) as [s2 o2] eqn:E.
  assert (spawns o2 = []).
  { destruct x as [| |c]; cbn [schedule_tail] in E; [inversion E; reflexivity| |];
    match type of E with respond i ?p s1 = _ => pose proof (respond_tasks i p s1) as Hq; rewrite E in Hq; apply Hq end. }
  rewrite spawns_app, H1, app_nil_r. rewrite H1 in H0. rewrite H0, H. reflexivity.
Qed.

Lemma on_request_tasks tag i m s : let (s', o) := on_request tag i m s in s_tasks s' = spawns o ++ s_tasks s.
Proof.
  unfold on_request. set (s0 := register_request i s). change (s_tasks s) with (s_tasks s0).
  assert (G : forall h, let '(s1, o1, x) := handle tag i h s0 in
    let (s2, o2) := schedule_tail i x s1 in s_tasks s2 = spawns (o1 ++ o2) ++ s_tasks s0).
  { intros h. pose proof (handle_tasks tag i h s0). pose proof (quiet_after_spawn tag i h s0).
    destruct (handle tag i h s0) as [[s1 o1] x]. pose proof (tail_tasks i x s1).
    destruct (schedule_tail i x s1) as [s2 o2]. rewrite spawns_app, H0, app_nil_r. rewrite H1, H0, H. reflexivity. }
  destruct (s_phase s0) as [args| | |]; destruct m as [ok r|h|c|[h|]]; try apply finish_tasks.
  - destruct ok; [destruct args|].
    + pose proof (finish_tasks tag i r (set_phase s0 Initializing)).
      destruct (finish_request tag i r (set_phase s0 Initializing)). exact H.
    + reflexivity.
    + apply finish_tasks.
  - pose proof (G h). destruct (handle tag i h s0) as [[s1 o1] x]. destruct (schedule_tail i x s1). exact H.
  - destruct (on_execute_command tag i c s0) as [[[s1 o1] x]|] eqn:E; [|reflexivity].
    assert (Hx : s_tasks s1 = spawns o1 ++ s_tasks s0 /\ (x = RDone \/ spawns o1 = [])).
    { assert (Hh : forall h, handle tag i h s0 = (s1, o1, x) -> s_tasks s1 = spawns o1 ++ s_tasks s0 /\ (x = RDone \/ spawns o1 = [])).
      { intros h Eh. pose proof (handle_tasks tag i h s0) as Ht. rewrite Eh in Ht. split; [exact Ht|].
        destruct h as [|r|[cc|]]; cbn in Eh; try (inversion Eh; subst; right; reflexivity).
        destruct r as [cc|p| |]; cbn in Eh.
        - inversion Eh; subst; right; reflexivity.
        - destruct (respond i p s0); inversion Eh; subst; left; reflexivity.
        - inversion Eh; subst; left; reflexivity.
        - inversion Eh; subst; left; reflexivity. }
      destruct c as [| |h|[|[] args] [h|]]; cbn in E; try discriminate;
        try (inversion E; subst; split; [reflexivity|right; reflexivity]); inversion E as [E2]; eapply Hh; eauto. }
    destruct Hx as [Hx1 Hx2]. destruct x as [| |cc].
    + exact Hx1.
    + pose proof (finish_tasks tag i (SDone (POk VNull)) s1). destruct (finish_request tag i _ s1).
      destruct Hx2 as [Hx2|Hx2]; [discriminate|]. rewrite spawns_app, Hx2 in *. rewrite H, Hx1. reflexivity.
    + pose proof (finish_tasks tag i (SErr cc) s1). destruct (finish_request tag i _ s1).
      destruct Hx2 as [Hx2|Hx2]; [discriminate|]. rewrite spawns_app, Hx2 in *. rewrite H, Hx1. reflexivity.
  - pose proof (G h). destruct (handle tag i h s0) as [[s1 o1] x]. destruct (schedule_tail i x s1). exact H.
Qed.

Lemma step_tasks s e : let (s', o) := step s e in s_tasks s' = spawns o ++ filter (nfin e) (s_tasks s).
Proof.
  destruct e as [tag id m|n|id v|hd er|tag r|k| |]; cbn [nfin];
    try (match goal with |- context[step s ?e] => pose proof (step_other s e I) as Hs;
           destruct (step s e); destruct Hs as (A & B & C & [D E]); rewrite B, E, filter_true; reflexivity end).
  - cbn [step]. rewrite filter_true. destruct (s_running s); [|reflexivity]. apply on_request_tasks.
  - cbn [step]. unfold on_finish. destruct (find (fun x => Nat.eqb tag (fst x)) (s_tasks s)) as [[t id]|] eqn:F.
    + pose proof (respond_tasks id r (set_tasks s (filter (fun x => negb (Nat.eqb tag (fst x))) (s_tasks s)))).
      destruct (respond id r _). destruct H as [-> ->]. reflexivity.
    + cbn. assert (forall l : list (nat * req_id), find (fun x => Nat.eqb tag (fst x)) l = None ->
        filter (fun x => negb (Nat.eqb tag (fst x))) l = l) as Hl.
      { clear. induction l as [|x l IH]; cbn; intros H; [reflexivity|].
        destruct (Nat.eqb tag (fst x)); [discriminate|]. cbn. rewrite IH; auto. }
      rewrite Hl; auto.
  - cbn. rewrite filter_true. reflexivity.
Qed.

Definition cnt (id : req_id) (l : list (nat * req_id)) : nat :=
  length (filter (fun x => req_id_eqb id (snd x)) l).
Definition unfin (tr : trace_t) (x : nat * req_id) : bool :=
  negb (existsb (fun p => match fst p with EvFinish t' _ => Nat.eqb (fst x) t' | _ => false end) tr).

Lemma filter_filter {A} (p q : A -> bool) l : filter p (filter q l) = filter (fun x => q x && p x) l.
Proof. induction l as [|a l IH]; cbn; [reflexivity|]. destruct (q a); cbn; [destruct (p a)|]; cbn; rewrite IH; reflexivity. Qed.

Lemma run_tasks id evs : forall s, let (s', tr) := run s evs in
  cnt id (s_tasks s') = working id tr + cnt id (filter (unfin tr) (s_tasks s)).
Proof.
  induction evs as [|e evs IH]; intros s; cbn [run].
  - cbn. rewrite (filter_ext (unfin []) (fun _ => true)) by reflexivity. rewrite filter_true. reflexivity.
  - pose proof (step_tasks s e) as Hs. destruct (step s e) as [s1 o].
    specialize (IH s1). destruct (run s1 evs) as [s2 tr]. rewrite IH, Hs. cbn [working].
    rewrite filter_app. unfold cnt at 1. rewrite filter_app, app_length. fold (cnt id (filter (unfin tr) (spawns o))).
    fold (cnt id (filter (unfin tr) (filter (nfin e) (s_tasks s)))).
    assert (H1 : cnt id (filter (unfin tr) (spawns o)) =
      length (filter (fun x => match x with
        | OSpawn t i => req_id_eqb id i &&
            negb (existsb (fun p => match fst p with EvFinish t' _ => Nat.eqb t t' | _ => false end) tr)
        | _ => false end) o)).
    { unfold cnt. clear. induction o as [|x o IHo]; [reflexivity|].
      destruct x; try exact IHo. cbn [spawns map concat app]. fold (spawns o).
      change (spawns (OSpawn tag id0 :: o)) with ((tag, id0) :: spawns o).
      cbn [filter]. unfold unfin at 1. cbn [fst].
      destruct (existsb _ tr); cbn [negb]; [rewrite andb_false_r; exact IHo|].
      rewrite andb_true_r. cbn [filter snd]. destruct (req_id_eqb id id0); cbn [length]; rewrite IHo; reflexivity. }
    rewrite H1. rewrite filter_filter.
    rewrite (filter_ext (fun x => nfin e x && unfin tr x) (unfin ((e, o) :: tr))).
    + lia.
    + intros x. unfold unfin. cbn [existsb fst]. unfold nfin. destruct e; cbn [orb]; try reflexivity.
      rewrite (Nat.eqb_sym tag). rewrite negb_orb. reflexivity.
Qed.

Lemma NoDup_cnt id l : NoDup (map snd l) -> cnt id l = b2n (mem id (map snd l)).
Proof.
  unfold cnt. induction l as [|[t i] l IH]; intros H; [reflexivity|]. cbn in *. inversion H; subst.
  destruct (req_id_eqb_spec id i) as [->|Hne]; cbn.
  - rewrite IH by auto. destruct (mem i (map snd l)) eqn:E; [apply mem_In in E; contradiction|reflexivity].
  - apply IH; auto.
Qed.

Lemma accounting evs : distinct_in_flight evs -> NoDup (tags evs) -> Forall event_ok evs ->
  ~ In OPanic (outs (trace evs)) ->
  forall id, requests id (trace evs) = responses id (trace evs) + working id (trace evs).
Proof.
  intros Hd Ht Hok Hp id. destruct (acc_inv evs Hd Ht Hok Hp) as [_ _ Isnd Ipend _ Icnt].
  rewrite Icnt. f_equal. pose proof (run_tasks id evs init) as H.
  unfold trace, final in *. destruct (run init evs) as [s tr]. cbn [fst snd] in *.
  cbn in H. rewrite Nat.add_0_r in H. rewrite <- H, NoDup_cnt by exact Isnd.
  unfold pend. f_equal. apply eq_true_iff_eq. rewrite !mem_In. apply Ipend.
Qed.

(** ** Results of asynchronous handlers *)

Lemma trace_events evs : map fst (trace evs) = evs.
Proof.
  induction evs as [|e evs IH] using rev_ind; [reflexivity|].
  rewrite trace_snoc, map_app, IH. reflexivity.
Qed.

Lemma spawned_running evs tag id :
  In (OSpawn tag id) (outs (trace evs)) -> (forall r, ~ In (EvFinish tag r) evs) ->
  In (tag, id) (s_tasks (final evs)).
Proof.
  induction evs as [|e evs IH] using rev_ind; intros Hi Hf; [contradiction|].
  rewrite trace_snoc, outs_app, outs_one in Hi. rewrite final_snoc.
  pose proof (step_tasks (final evs) e) as Hs. destruct (step (final evs) e) as [s' o]. cbn [fst snd] in *.
  rewrite Hs. apply in_or_app. apply in_app_or in Hi as [Hi|Hi].
  - right. apply filter_In. split.
    + apply IH; auto. intros r Hr. apply (Hf r). apply in_or_app; auto.
    + unfold nfin. destruct e; auto. cbn. destruct (Nat.eqb_spec tag0 tag) as [->|]; auto.
      exfalso. apply (Hf r). apply in_or_app; right; left; auto.
  - left. clear -Hi. induction o as [|x o IHo]; [contradiction|]. destruct Hi as [->|Hi].
    + left. reflexivity.
    + destruct x; try (apply IHo; exact Hi). right. apply IHo; exact Hi.
Qed.

Lemma finish_answer evs tag id r : distinct_in_flight evs -> NoDup (tags evs) -> Forall event_ok evs ->
  ~ In OPanic (outs (trace evs)) ->
  In (OSpawn tag id) (outs (trace evs)) -> (forall r, ~ In (EvFinish tag r) evs) ->
  snd (step (final evs) (EvFinish tag r)) = [OResp id r].
Proof.
  intros Hd Ht Hok Hp Hs Hf. destruct (acc_inv evs Hd Ht Hok Hp) as [Iop Ifst Isnd Ipend _ _].
  pose proof (spawned_running evs tag id Hs Hf) as Hin.
  cbn [step]. unfold on_finish.
  destruct (find (fun x => Nat.eqb tag (fst x)) (s_tasks (final evs))) as [[t i]|] eqn:F.
  - pose proof F as F2. apply find_some in F2 as [Hin2 E]. cbn in E. apply Nat.eqb_eq in E. subst t.
    assert (i = id) as ->.
    { revert Hin Hin2 Ifst. generalize (s_tasks (final evs)). clear.
      induction l as [|[c j] l IH]; cbn; intros Ha Hb N; [contradiction|]. inversion N; subst.
      destruct Ha as [Ha|Ha], Hb as [Hb|Hb]; try congruence.
      - inversion Ha; subst. exfalso. apply H1. apply in_map_iff. exists (tag, i); auto.
      - inversion Hb; subst. exfalso. apply H1. apply in_map_iff. exists (tag, id); auto.
      - auto. }
    rewrite respond_spec. cbn [s_pending set_tasks s_open]. rewrite Iop.
    assert (mem id (s_pending (final evs)) = true) as ->; [|reflexivity].
    apply mem_In, Ipend, in_map_iff. exists (tag, id); auto.
  - exfalso. eapply find_none in F; [|exact Hin]. cbn in F. rewrite Nat.eqb_refl in F. discriminate.
Qed.

(** ** Life cycle *)

Lemma open_alive evs : ~ In EvClose evs -> alive evs -> s_open (final evs) = true.
Proof.
  induction evs as [|e evs IH] using rev_ind; intros Hc Ha; [reflexivity|].
  unfold alive in *. rewrite trace_snoc, outs_app, outs_one, ends_app in Ha.
  apply orb_false_iff in Ha as [Ha1 Ha2]. rewrite final_snoc.
  assert (Ho : s_open (final evs) = true).
  { apply IH; auto. intros Hi; apply Hc, in_or_app; auto. }
  destruct e as [tag id m|n|id v|hd er|tag r|k| |];
    try (match goal with |- context[step ?s ?e] => pose proof (step_other s e I) as Hs;
           destruct (step s e); cbn [fst]; destruct Hs as (A & B & C & _); congruence end).
  - cbn [step] in *. destruct (s_running (final evs)); [|exact Ho].
    assert (K : let (s', o) := on_request tag id m (final evs) in ends o = false -> s_open s' = true).
    { clear Ha2. unfold on_request. set (s0 := register_request id (final evs)).
      assert (Ho0 : s_open s0 = true) by exact Ho.
      assert (F : forall r s1, s_open s1 = true -> let (s', o) := finish_request tag id r s1 in
        ends o = false -> s_open s' = true).
      { intros r s1 E. pose proof (finish_running tag id r s1). destruct (finish_request tag id r s1).
        destruct H as (_ & _ & _ & ->). auto. }
      assert (G : forall h, let '(s1, o1, x) := handle tag id h s0 in
        let (s2, o2) := schedule_tail id x s1 in s_open s2 = true).
      { intros h. pose proof (handle_running tag id h s0) as Ha. destruct (handle tag id h s0) as [[s1 o1] x].
        pose proof (tail_running id x s1) as Hb. destruct (schedule_tail id x s1) as [s2 o2].
        destruct Ha as (_ & _ & _ & A), Hb as (_ & _ & _ & B). congruence. }
      destruct (s_phase s0) as [args| | |]; destruct m as [ok r|h|c|[h|]]; try (apply F; exact Ho0).
      - destruct ok; [destruct args|].
        + pose proof (F r (set_phase s0 Initializing) Ho0).
          destruct (finish_request tag id r (set_phase s0 Initializing)). exact H.
        + cbn. discriminate.
        + apply F; exact Ho0.
      - pose proof (G h). destruct (handle tag id h s0) as [[s1 o1] x]. destruct (schedule_tail id x s1). auto.
      - destruct (on_execute_command tag id c s0) as [[[s1 o1] x]|] eqn:E; [|cbn; discriminate].
        assert (Hx : s_open s1 = true).
        { assert (Hh : forall h, handle tag id h s0 = (s1, o1, x) -> s_open s1 = true).
          { intros h Eh. pose proof (handle_running tag id h s0) as Hr. rewrite Eh in Hr.
            destruct Hr as (_ & _ & _ & ->). auto. }
          destruct c as [| |h|[|[] args] [h|]]; cbn in E; try discriminate;
            try (inversion E; subst; auto; fail); inversion E as [E2]; eapply Hh; eauto. }
        destruct x as [| |cc]; [auto| |].
        + pose proof (F (SDone (POk VNull)) s1 Hx). destruct (finish_request tag id _ s1).
          rewrite ends_app. intros He. apply orb_false_iff in He. tauto.
        + pose proof (F (SErr cc) s1 Hx). destruct (finish_request tag id _ s1).
          rewrite ends_app. intros He. apply orb_false_iff in He. tauto.
      - pose proof (G h). destruct (handle tag id h s0) as [[s1 o1] x]. destruct (schedule_tail id x s1). auto. }
    destruct (on_request tag id m (final evs)). cbn [fst snd] in *. auto.
  - cbn [step]. unfold on_finish. destruct (find _ _) as [[? i]|]; [|exact Ho].
    pose proof (respond_running i r (set_tasks (final evs) (filter (fun x => negb (Nat.eqb tag (fst x))) (s_tasks (final evs))))).
    destruct (respond i r _). cbn [fst]. destruct H as (_ & _ & _ & ->). exact Ho.
  - exfalso. apply Hc, in_or_app; right; left; auto.
Qed.

Definition is_init (o : out) : bool := match o with OInit _ => true | _ => false end.
Definition ninit (o : list out) : nat := length (filter is_init o).
Lemma ninit_app a b : ninit (a ++ b) = ninit a + ninit b.
Proof. unfold ninit. rewrite filter_app, app_length. reflexivity. Qed.
Lemma ninit_In o : 0 < ninit o <-> exists tag, In (OInit tag) o.
Proof.
  unfold ninit. split.
  - intros H. destruct (filter is_init o) as [|x l] eqn:E; [cbn in H; lia|].
    assert (Hi : In x (filter is_init o)) by (rewrite E; left; auto).
    apply filter_In in Hi as [Hi Hx]. destruct x; try discriminate. eauto.
  - intros [tag Hi]. assert (H : In (OInit tag) (filter is_init o)) by (apply filter_In; auto).
    destruct (filter is_init o); [contradiction|cbn; lia].
Qed.

(** Outputs by which handlers of the service are observed. *)
Definition service (o : out) : bool :=
  match o with OHandle _ | ONotif | OCall _ _ => true | _ => false end.
Definition noserv (o : list out) : Prop := forall x, In x o -> service x = false.

Lemma respond_out i p s : let (s', o) := respond i p s in noserv o /\ ninit o = 0.
Proof.
  rewrite respond_spec. destruct (mem i (s_pending s) && s_open s); split; try reflexivity.
  - intros x [<-|[]]; reflexivity.
  - intros x [].
Qed.
Lemma schedule_out tag i r s : let '(s', o, _) := schedule tag i r s in noserv o /\ ninit o = 0.
Proof.
  destruct r as [c|p| |]; cbn [schedule]; try (solve [split; [intros x []|reflexivity]]).
  - apply (respond_out i p s).
  - split; [|reflexivity]. intros x [<-|[]]; reflexivity.
Qed.
Lemma tail_out i x s : let (s', o) := schedule_tail i x s in noserv o /\ ninit o = 0.
Proof. destruct x; cbn [schedule_tail]; try apply respond_out. split; [intros x []|reflexivity]. Qed.
Lemma noserv_app a b : noserv a -> noserv b -> noserv (a ++ b).
Proof. intros H1 H2 x Hx. apply in_app_or in Hx as [?|?]; auto. Qed.
Lemma finish_out tag i r s : let (s', o) := finish_request tag i r s in
  noserv o /\ ninit o = 0 /\ s_phase s' = s_phase s.
Proof.
  unfold finish_request. pose proof (schedule_out tag i r s). pose proof (schedule_running tag i r s).
  destruct (schedule tag i r s) as [[s1 o1] x].
  pose proof (tail_out i x s1). pose proof (tail_running i x s1). destruct (schedule_tail i x s1) as [s2 o2].
  repeat split; [apply noserv_app; tauto|rewrite ninit_app; lia|].
  destruct H0 as (_ & _ & A & _), H2 as (_ & _ & B & _). congruence.
Qed.
Lemma handle_out tag i h s : let '(s', o, _) := handle tag i h s in ninit o = 0 /\ s_phase s' = s_phase s.
Proof.
  destruct h as [|r|[c|]]; cbn [handle]; try (split; reflexivity).
  pose proof (schedule_out tag i r s). pose proof (schedule_running tag i r s).
  destruct (schedule tag i r s) as [[s' o] x]. split; [apply H|apply H0].
Qed.
Lemma complete_out tag i h s : let '(s1, o1, x) := handle tag i h s in
  let (s2, o2) := schedule_tail i x s1 in ninit (o1 ++ o2) = 0 /\ s_phase s2 = s_phase s.
Proof.
  pose proof (handle_out tag i h s). destruct (handle tag i h s) as [[s1 o1] x].
  pose proof (tail_out i x s1). pose proof (tail_running i x s1). destruct (schedule_tail i x s1) as [s2 o2].
  rewrite ninit_app. destruct H, H0, H1 as (_ & _ & A & _). split; [lia|congruence].
Qed.

(** The change of phase made by one event. *)
Definition next_phase (p : phase) (e : event) : phase :=
  match e, p with
  | EvRequest _ _ (MInitialize true _), Uninitialized true => Initializing
  | EvRequest _ _ (MShutdown _), Ready => ShuttingDown
  | EvNotify (NInitialized _), Initializing => Ready
  | _, _ => p
  end.
Definition starts (p : phase) (e : event) : nat :=
  match e, p with
  | EvRequest _ _ (MInitialize true _), Uninitialized true => 1
  | _, _ => 0
  end.
Lemma step_phase s e : let (s', o) := step s e in
  (s_running s = true -> s_phase s' = next_phase (s_phase s) e /\ ninit o = starts (s_phase s) e) /\
  (s_running s = false -> s_phase s' = s_phase s /\ ninit o = 0) /\
  (s_running s = false -> noserv o) /\
  (s_running s = true -> next_phase (s_phase s) e <> Ready -> s_phase s <> Ready -> noserv o).
Proof.
  destruct e as [tag id m|n|id v|hd er|tag r|k| |]; cbn [step].
  - destruct (s_running s) eqn:Er.
    2:{ repeat split; try discriminate; intros; intros x []. }
    unfold on_request. set (s0 := register_request id s). change (s_phase s) with (s_phase s0).
    assert (F : forall r s1 p, s_phase s1 = p -> let (s', o) := finish_request tag id r s1 in
      noserv o /\ ninit o = 0 /\ s_phase s' = p).
    { intros r s1 p <-. apply finish_out. }
    assert (F2 : forall r p, s_phase s0 = p -> next_phase p (EvRequest tag id m) = p ->
        starts p (EvRequest tag id m) = 0 ->
        let (s', o) := finish_request tag id r s0 in
        (true = true -> s_phase s' = next_phase p (EvRequest tag id m) /\ ninit o = starts p (EvRequest tag id m)) /\
        (true = false -> s_phase s' = p /\ ninit o = 0) /\ (true = false -> noserv o) /\
        (true = true -> next_phase p (EvRequest tag id m) <> Ready -> p <> Ready -> noserv o)).
    { intros r p Ep En Es. pose proof (F r s0 p Ep). destruct (finish_request tag id r s0).
      destruct H as (H1 & H2 & H3). rewrite En, Es. repeat split; auto; discriminate. }
    destruct (s_phase s0) as [args| | |] eqn:Ep; destruct m as [ok r|h|c|[h|]];
      try (apply F2; auto; fail); try (apply F2; auto; destruct ok; reflexivity).
    + destruct ok; [destruct args|].
      * pose proof (F r (set_phase s0 Initializing) Initializing eq_refl).
        destruct (finish_request tag id r (set_phase s0 Initializing)). destruct H as (H1 & H2 & H3).
        repeat split; try discriminate; auto.
        -- unfold ninit in *. cbn. rewrite H2. reflexivity.
        -- intros _ _ _ x [<-|Hx]; auto.
      * cbn. repeat split; try discriminate; auto. intros _ _ _ x [<-|[]]; reflexivity.
      * apply F2; auto.
    + pose proof (complete_out tag id h s0). destruct (handle tag id h s0) as [[s1 o1] x].
      destruct (schedule_tail id x s1). destruct H. cbn. repeat split; try discriminate; auto. congruence.
    + destruct (on_execute_command tag id c s0) as [[[s1 o1] x]|] eqn:E.
      2:{ cbn. repeat split; try discriminate; auto. intros _ _ H; congruence. }
      assert (Hx : ninit o1 = 0 /\ s_phase s1 = s_phase s0).
      { assert (Hh : forall h, handle tag id h s0 = (s1, o1, x) -> ninit o1 = 0 /\ s_phase s1 = s_phase s0).
        { intros h Eh. pose proof (handle_out tag id h s0) as Hr. rewrite Eh in Hr. exact Hr. }
        destruct c as [| |h|[|[] args] [h|]]; cbn in E; try discriminate;
          try (inversion E; subst; split; reflexivity); inversion E as [E2]; eapply Hh; eauto. }
      destruct Hx as [Hx1 Hx2]. cbn [next_phase starts]. destruct x as [| |cc].
      * repeat split; try discriminate; auto; congruence.
      * pose proof (finish_out tag id (SDone (POk VNull)) s1). destruct (finish_request tag id _ s1).
        destruct H as (A & B & C). rewrite ninit_app. repeat split; try discriminate; try lia; congruence.
      * pose proof (finish_out tag id (SErr cc) s1). destruct (finish_request tag id _ s1).
        destruct H as (A & B & C). rewrite ninit_app. repeat split; try discriminate; try lia; congruence.
    + pose proof (complete_out tag id h s0). destruct (handle tag id h s0) as [[s1 o1] x].
      destruct (schedule_tail id x s1). destruct H. cbn. repeat split; try discriminate; auto; congruence.
  - destruct (s_running s) eqn:Er.
    2:{ repeat split; try discriminate; intros; intros x []. }
    destruct n; cbn [on_notification].
    + destruct (s_phase s) eqn:E; cbn; rewrite ?E; destruct ok; cbn;
        repeat split; try discriminate; auto; try congruence; intros; intros x [].
    + cbn. repeat split; try discriminate; auto. intros _ _ _ x [<-|[]]; reflexivity.
    + destruct (s_phase s) eqn:E, handler; cbn; rewrite ?E;
        repeat split; try discriminate; auto; try congruence; intros; intros x [].
  - destruct (s_running s) eqn:Er.
    2:{ repeat split; try discriminate; intros; intros x []. }
    unfold on_response. destruct (s_phase s) eqn:E, id; cbn; rewrite ?E;
      try (repeat split; try discriminate; auto; try congruence; intros; intros x []; fail).
    destruct (find _ _) as [[? ?]|]; cbn; rewrite ?E; repeat split; try discriminate; auto; try congruence.
  - destruct (s_running s) eqn:Er.
    2:{ repeat split; try discriminate; intros; intros x []. }
    destruct (s_phase s) eqn:E; try (destruct (hd && er)); cbn; rewrite ?E;
      repeat split; try discriminate; auto; try congruence; intros; intros x Hx;
      try (destruct Hx as [<-|[]]; reflexivity); destruct Hx.
  - unfold on_finish. destruct (find _ _) as [[? i]|].
    2:{ cbn. repeat split; auto; intros; intros x []. }
    pose proof (respond_running i r (set_tasks s (filter (fun x => negb (Nat.eqb tag (fst x))) (s_tasks s)))).
    pose proof (respond_out i r (set_tasks s (filter (fun x => negb (Nat.eqb tag (fst x))) (s_tasks s)))).
    destruct (respond i r _). destruct H as (_ & _ & A & _), H0 as [B C]. cbn in *. repeat split; auto.
  - unfold send_request. cbv zeta. destruct (s_open s); cbn; repeat split; auto; intros; intros x Hx;
      try (destruct Hx as [<-|[]]; reflexivity); destruct Hx.
  - cbn. repeat split; auto; intros; intros x [].
  - destruct (s_running s) eqn:Er; cbn; repeat split; try discriminate; auto; intros; intros x Hx;
      try (destruct Hx as [<-|[]]; reflexivity); destruct Hx.
Qed.

Record life (evs : list event) : Prop := {
  life_phase : match s_phase (final evs) with
    | Uninitialized a => a = true /\ ninit (outs (trace evs)) = 0 /\ ~ handshake evs /\ ~ shut evs
    | Initializing => ninit (outs (trace evs)) = 1 /\ ~ handshake evs /\ ~ shut evs
    | Ready => ninit (outs (trace evs)) = 1 /\ handshake evs /\ ~ shut evs
    | ShuttingDown => ninit (outs (trace evs)) = 1 /\ handshake evs /\ shut evs
    end
}.

Lemma alive_running evs : alive evs <-> s_running (final evs) = true.
Proof. unfold alive. rewrite running_ends. destruct (ends _); cbn; intuition congruence. Qed.

Lemma handshake_snoc evs e : handshake (evs ++ [e]) <->
  handshake evs \/ (exists h, e = EvNotify (NInitialized h)) /\ alive evs /\ 0 < ninit (outs (trace evs)).
Proof.
  unfold handshake. split.
  - intros (pre & h & post & tag & E & Hi & Ha).
    destruct post as [|x post] using rev_ind.
    + apply app_inj_tail in E as [-> ->]. right. split; [eauto|]. split; [exact Ha|]. apply ninit_In; eauto.
    + rewrite app_comm_cons, app_assoc in E. apply app_inj_tail in E as [-> _].
      left. exists pre, h, post, tag. auto.
  - intros [(pre & h & post & tag & -> & Hi & Ha)|((h & ->) & Ha & Hn)].
    + exists pre, h, (post ++ [e]), tag. rewrite <- app_assoc. auto.
    + apply ninit_In in Hn as [tag Ht]. exists evs, h, [], tag. auto.
Qed.
Lemma shut_snoc evs e : shut (evs ++ [e]) <->
  shut evs \/ (exists tag id h, e = EvRequest tag id (MShutdown h)) /\ alive evs /\ handshake evs.
Proof.
  unfold shut. split.
  - intros (pre & tag & id & h & post & E & Hi & Ha).
    destruct post as [|x post] using rev_ind.
    + apply app_inj_tail in E as [-> ->]. right. split; [eauto|]. auto.
    + rewrite app_comm_cons, app_assoc in E. apply app_inj_tail in E as [-> _].
      left. exists pre, tag, id, h, post. auto.
  - intros [(pre & tag & id & h & post & -> & Hi & Ha)|((tag & id & h & ->) & Ha & Hn)].
    + exists pre, tag, id, h, (post ++ [e]). rewrite <- app_assoc. auto.
    + exists evs, tag, id, h, []. auto.
Qed.

Lemma life_inv evs : life evs.
Proof.
  induction evs as [|e evs [IH]] using rev_ind.
  - constructor. cbn. repeat split.
    + intros (pre & h & post & tag & E & _). destruct pre; discriminate.
    + intros (pre & tag & id & h & post & E & _). destruct pre; discriminate.
  - constructor. rewrite final_snoc, trace_snoc, outs_app, outs_one, ninit_app.
    pose proof (step_phase (final evs) e) as Hs.
    destruct (step (final evs) e) as [s' o]. cbn [fst snd]. destruct Hs as (H1 & H2 & _).
    destruct (s_running (final evs)) eqn:Er.
    + specialize (H1 eq_refl) as [-> ->]. apply alive_running in Er.
      destruct (s_phase (final evs)) as [a| | |] eqn:Ep.
      * destruct IH as (-> & I1 & I2 & I3). rewrite I1.
        destruct e as [tag id m|n|id v|hd er|tag r|k| |]; cbn [next_phase starts];
          try (destruct m as [[] r|h|c|h]); try (destruct n);
          rewrite ?handshake_snoc, ?shut_snoc; repeat split; try tauto; try lia;
          intros [?|[Hx [? ?]]]; try tauto; try lia; try (destruct Hx as [? Hx]; discriminate).
        all: destruct Hx as (? & ? & ? & Hx); discriminate.
      * destruct IH as (I1 & I2 & I3). rewrite I1.
        destruct e as [tag id m|n|id v|hd er|tag r|k| |]; cbn [next_phase starts];
          try (destruct m as [[] r|h|c|h]); try (destruct n as [okk| |]);
          rewrite ?handshake_snoc, ?shut_snoc; repeat split; try tauto; try lia;
          try (intros [?|[Hx [? ?]]]; try tauto; try lia; try (destruct Hx as [? Hx]; discriminate);
               try (destruct Hx as (? & ? & ? & Hx); discriminate)).
        right. repeat split; eauto; lia.
      * destruct IH as (I1 & I2 & I3). rewrite I1.
        destruct e as [tag id m|n|id v|hd er|tag r|k| |]; cbn [next_phase starts];
          try (destruct m as [[] r|h|c|h]); try (destruct n as [okk| |]);
          rewrite ?handshake_snoc, ?shut_snoc; repeat split; try tauto; try lia;
          try (intros [?|[Hx [? ?]]]; try tauto; try lia; try (destruct Hx as [? Hx]; discriminate);
               try (destruct Hx as (? & ? & ? & Hx); discriminate)).
        right. repeat split; eauto.
      * destruct IH as (I1 & I2 & I3). rewrite I1.
        destruct e as [tag id m|n|id v|hd er|tag r|k| |]; cbn [next_phase starts];
          try (destruct m as [[] r|h|c|h]); try (destruct n as [okk| |]);
          rewrite ?handshake_snoc, ?shut_snoc; repeat split; try tauto; try lia.
    + specialize (H2 eq_refl) as [-> ->]. rewrite Nat.add_0_r.
      assert (Hna : ~ alive evs) by (rewrite alive_running; congruence).
      destruct (s_phase (final evs)); rewrite ?handshake_snoc, ?shut_snoc; tauto.
Qed.

Lemma init_once evs : ninit (outs (trace evs)) <= 1.
Proof. destruct (life_inv evs) as [H]. destruct (s_phase (final evs)); lia. Qed.

(** Shapes of immediate answers. *)
Lemma finish_done tag id p s : mem id (s_pending s) = true -> s_open s = true ->
  snd (finish_request tag id (SDone p) s) = [OResp id p].
Proof.
  intros Hm Ho. unfold finish_request. cbn [schedule]. rewrite respond_spec, Hm, Ho. reflexivity.
Qed.

Lemma before_initialize evs tag id m : alive evs -> ~ In EvClose evs ->
  (forall t, ~ In (OInit t) (outs (trace evs))) ->
  (forall ok r, m <> MInitialize ok r) ->
  snd (step (final evs) (EvRequest tag id m)) = [OResp id (PErr ENotInitialized)].
Proof.
  intros Ha Hc Hn Hm. pose proof (open_alive evs Hc Ha) as Ho. destruct (life_inv evs) as [L].
  apply alive_running in Ha. cbn [step]. rewrite Ha. unfold on_request.
  change (s_phase (register_request id (final evs))) with (s_phase (final evs)).
  assert (Hz : ninit (outs (trace evs)) = 0).
  { destruct (ninit (outs (trace evs))) eqn:E; [reflexivity|]. exfalso.
    assert (0 < ninit (outs (trace evs))) as Hl by lia. apply ninit_In in Hl as [t Ht]. eapply Hn; eauto. }
  destruct (s_phase (final evs)) as [a| | |]; try (exfalso; lia).
  destruct m as [ok r|h|c|h]; [exfalso; eapply Hm; eauto|..];
    apply finish_done; auto; apply register_mem.
Qed.

Lemma bad_initialize evs tag id r : alive evs -> ~ In EvClose evs ->
  (forall t, ~ In (OInit t) (outs (trace evs))) ->
  snd (step (final evs) (EvRequest tag id (MInitialize false r))) = [OResp id (PErr EInvalidRequest)].
Proof.
  intros Ha Hc Hn. pose proof (open_alive evs Hc Ha) as Ho. destruct (life_inv evs) as [L].
  apply alive_running in Ha. cbn [step]. rewrite Ha. unfold on_request.
  change (s_phase (register_request id (final evs))) with (s_phase (final evs)).
  assert (Hz : ninit (outs (trace evs)) = 0).
  { destruct (ninit (outs (trace evs))) eqn:E; [reflexivity|]. exfalso.
    assert (0 < ninit (outs (trace evs))) as Hl by lia. apply ninit_In in Hl as [t Ht]. eapply Hn; eauto. }
  destruct (s_phase (final evs)) as [a| | |]; try (exfalso; lia).
  apply finish_done; auto; apply register_mem.
Qed.

Lemma first_initialize evs tag id v : alive evs -> ~ In EvClose evs ->
  (forall t, ~ In (OInit t) (outs (trace evs))) ->
  snd (step (final evs) (EvRequest tag id (MInitialize true (SDone (POk v))))) = [OInit tag; OResp id (POk v)].
Proof.
  intros Ha Hc Hn. pose proof (open_alive evs Hc Ha) as Ho. destruct (life_inv evs) as [L].
  apply alive_running in Ha. cbn [step]. rewrite Ha. unfold on_request.
  change (s_phase (register_request id (final evs))) with (s_phase (final evs)).
  assert (Hz : ninit (outs (trace evs)) = 0).
  { destruct (ninit (outs (trace evs))) eqn:E; [reflexivity|]. exfalso.
    assert (0 < ninit (outs (trace evs))) as Hl by lia. apply ninit_In in Hl as [t Ht]. eapply Hn; eauto. }
  destruct (s_phase (final evs)) as [a| | |]; try (exfalso; lia).
  destruct L as [-> _].
  pose proof (finish_done tag id (POk v) (set_phase (register_request id (final evs)) Initializing)) as F.
  destruct (finish_request _ _ _ _). cbn [snd] in *. rewrite F; auto. apply register_mem.
Qed.

Lemma before_initialized evs tag id m t : alive evs -> ~ In EvClose evs ->
  In (OInit t) (outs (trace evs)) -> ~ handshake evs ->
  snd (step (final evs) (EvRequest tag id m)) = [OResp id (PErr ENotInitialized)].
Proof.
  intros Ha Hc Hi Hh. pose proof (open_alive evs Hc Ha) as Ho. destruct (life_inv evs) as [L].
  apply alive_running in Ha. cbn [step]. rewrite Ha. unfold on_request.
  change (s_phase (register_request id (final evs))) with (s_phase (final evs)).
  assert (0 < ninit (outs (trace evs))) as Hl by (apply ninit_In; eauto).
  destruct (s_phase (final evs)) as [a| | |]; try (exfalso; lia); try tauto.
  destruct m as [ok r|h|c|h]; apply finish_done; auto; apply register_mem.
Qed.

Lemma after_shutdown evs tag id m : alive evs -> ~ In EvClose evs -> shut evs ->
  snd (step (final evs) (EvRequest tag id m)) = [OResp id (PErr EInvalidRequest)].
Proof.
  intros Ha Hc Hs. pose proof (open_alive evs Hc Ha) as Ho. destruct (life_inv evs) as [L].
  apply alive_running in Ha. cbn [step]. rewrite Ha. unfold on_request.
  change (s_phase (register_request id (final evs))) with (s_phase (final evs)).
  destruct (s_phase (final evs)) as [a| | |]; try tauto.
  destruct m as [ok r|h|c|h]; apply finish_done; auto; apply register_mem.
Qed.

Lemma second_initialize evs tag id ok r : alive evs -> ~ In EvClose evs -> handshake evs ->
  snd (step (final evs) (EvRequest tag id (MInitialize ok r))) = [OResp id (PErr EInvalidRequest)].
Proof.
  intros Ha Hc Hs. pose proof (open_alive evs Hc Ha) as Ho. destruct (life_inv evs) as [L].
  apply alive_running in Ha. cbn [step]. rewrite Ha. unfold on_request.
  change (s_phase (register_request id (final evs))) with (s_phase (final evs)).
  destruct (s_phase (final evs)) as [a| | |]; try tauto; apply finish_done; auto; apply register_mem.
Qed.

(** Handlers, notification handlers and callbacks run only in between. *)
Lemma service_window evs e x : In x (snd (step (final evs) e)) -> service x = true ->
  handshake (evs ++ [e]) /\ ~ shut evs.
Proof.
  intros Hi Hx. pose proof (step_phase (final evs) e) as Hs. destruct (life_inv evs) as [L].
  destruct (life_inv (evs ++ [e])) as [L2]. rewrite final_snoc in L2.
  destruct (step (final evs) e) as [s' o]. cbn [fst snd] in *. destruct Hs as (H1 & _ & H3 & H4).
  assert (No : ~ noserv o) by (intros N; apply N in Hi; congruence).
  destruct (s_running (final evs)) eqn:Er; [|exfalso; apply No; auto].
  specialize (H1 eq_refl) as [H1 _]. specialize (H4 eq_refl).
  rewrite H1 in L2.
  destruct (s_phase (final evs)) as [a| | |] eqn:Ep.
  - exfalso. apply No, H4; [|discriminate]. destruct e; try discriminate; cbn; try (destruct m as [[] ?|?|?|?]; destruct a; discriminate). destruct n; discriminate.
  - split; [|tauto]. destruct (next_phase Initializing e) eqn:En; try tauto; exfalso; apply No, H4; discriminate.
  - split; [|tauto]. rewrite handshake_snoc. left; tauto.
  - exfalso. apply No, H4; [|discriminate]. destruct e; try discriminate; cbn; try (destruct m as [[] ?|?|?|?]; discriminate). destruct n; discriminate.
Qed.

Lemma after_end evs e : ~ alive evs ->
  (match e with EvFinish _ _ | EvSend _ => False | _ => True end) ->
  snd (step (final evs) e) = [] /\ s_running (fst (step (final evs) e)) = false.
Proof.
  intros Ha He. rewrite alive_running in Ha. apply not_true_is_false in Ha.
  destruct e; try contradiction; cbn [step]; rewrite ?Ha; cbn; auto.
Qed.

(** ** Server-to-client requests *)

Lemma sent_snoc tr e o : sent (tr ++ [(e, o)]) = sent tr ++
  concat (map (fun o => match o with OReq i k => [(i, k)] | _ => [] end) o).
Proof. unfold sent. rewrite outs_app, outs_one, map_app, concat_app. reflexivity. Qed.
Lemma called_snoc tr e o : called (tr ++ [(e, o)]) = called tr ++
  concat (map (fun o => match o with OCall k _ => [k] | _ => [] end) o).
Proof. unfold called. rewrite outs_app, outs_one, map_app, concat_app. reflexivity. Qed.

Definition noreq (o : list out) : Prop := forall x, In x o ->
  match x with OReq _ _ | OCall _ _ => False | _ => True end.
Lemma noreq_sent o : noreq o -> concat (map (fun o => match o with OReq i k => [(i, k)] | _ => [] end) o) = [].
Proof.
  induction o as [|x o IH]; intros H; [reflexivity|]. cbn.
  rewrite IH by (intros y Hy; apply H; right; auto). specialize (H x (or_introl eq_refl)).
  destruct x; try contradiction; reflexivity.
Qed.
Lemma noreq_called o : noreq o -> concat (map (fun o => match o with OCall k _ => [k] | _ => [] end) o) = [].
Proof.
  induction o as [|x o IH]; intros H; [reflexivity|]. cbn.
  rewrite IH by (intros y Hy; apply H; right; auto). specialize (H x (or_introl eq_refl)).
  destruct x; try contradiction; reflexivity.
Qed.
Lemma noreq_app a b : noreq a -> noreq b -> noreq (a ++ b).
Proof. intros H1 H2 x Hx. apply in_app_or in Hx as [?|?]; [apply H1|apply H2]; auto. Qed.

Definition same_out (s s' : st) (o : list out) : Prop :=
  s_next s' = s_next s /\ s_out s' = s_out s /\ noreq o.

Lemma respond_sout i p s : let (s', o) := respond i p s in same_out s s' o.
Proof.
  rewrite respond_spec. destruct (mem i (s_pending s)); cbn [andb]; destruct (s_open s); repeat split;
    intros x Hx; try (destruct Hx as [<-|[]]; exact I); destruct Hx.
Qed.
Lemma schedule_sout tag i r s : let '(s', o, _) := schedule tag i r s in same_out s s' o.
Proof.
  destruct r as [c|p| |]; cbn [schedule]; try (repeat split; intros x Hx; try (destruct Hx as [<-|[]]; exact I); destruct Hx; fail).
  apply (respond_sout i p s).
Qed.
Lemma tail_sout i x s : let (s', o) := schedule_tail i x s in same_out s s' o.
Proof. destruct x; cbn [schedule_tail]; try apply respond_sout. repeat split; intros y []. Qed.
Lemma handle_sout tag i h s : let '(s', o, _) := handle tag i h s in same_out s s' o.
Proof.
  destruct h as [|r|[c|]]; cbn [handle]; try (repeat split; intros x Hx; try (destruct Hx as [<-|[]]; exact I); destruct Hx; fail).
  pose proof (schedule_sout tag i r s). destruct (schedule tag i r s) as [[s' o] x].
  destruct H as (A & B & C). repeat split; auto. intros y [<-|Hy]; [exact I|apply C; auto].
Qed.
Lemma same_out_trans s s1 s2 a b : same_out s s1 a -> same_out s1 s2 b -> same_out s s2 (a ++ b).
Proof. intros (A & B & C) (D & E & F). repeat split; try congruence. apply noreq_app; auto. Qed.
Lemma finish_sout tag i r s : let (s', o) := finish_request tag i r s in same_out s s' o.
Proof.
  unfold finish_request. pose proof (schedule_sout tag i r s). destruct (schedule tag i r s) as [[s1 o1] x].
  pose proof (tail_sout i x s1). destruct (schedule_tail i x s1). eapply same_out_trans; eauto.
Qed.

Lemma step_sout s e : (match e with EvSend _ | EvResponse _ _ => False | _ => True end) ->
  let (s', o) := step s e in same_out s s' o.
Proof.
  intros He. assert (Nil : noreq []) by (intros x []).
  destruct e as [tag id m|n|id v|hd er|tag r|k| |]; try contradiction; cbn [step].
  - destruct (s_running s); [|repeat split; auto].
    unfold on_request. set (s0 := register_request id s).
    assert (C : forall s' o, same_out s0 s' o -> same_out s s' o) by (intros s' o H; exact H).
    assert (F : forall r, let (s', o) := finish_request tag id r s0 in same_out s s' o).
    { intros r. pose proof (finish_sout tag id r s0). destruct (finish_request tag id r s0); auto. }
    assert (G : forall h, let '(s1, o1, x) := handle tag id h s0 in
      let (s2, o2) := schedule_tail id x s1 in same_out s s2 (o1 ++ o2)).
    { intros h. pose proof (handle_sout tag id h s0). destruct (handle tag id h s0) as [[s1 o1] x].
      pose proof (tail_sout id x s1). destruct (schedule_tail id x s1). eapply C, same_out_trans; eauto. }
    destruct (s_phase s0) as [args| | |]; destruct m as [ok r|h|c|[h|]]; try apply F.
    + destruct ok; [destruct args|].
      * pose proof (finish_sout tag id r (set_phase s0 Initializing)).
        destruct (finish_request tag id r (set_phase s0 Initializing)).
        destruct H as (A & B & D). repeat split; auto. intros x [<-|Hx]; [exact I|apply D; auto].
      * repeat split. intros x [<-|[]]; exact I.
      * apply F.
    + pose proof (G h). destruct (handle tag id h s0) as [[s1 o1] x]. destruct (schedule_tail id x s1). exact H.
    + destruct (on_execute_command tag id c s0) as [[[s1 o1] x]|] eqn:E.
      2:{ repeat split. intros x [<-|[]]; exact I. }
      assert (Hx : same_out s0 s1 o1).
      { assert (Hh : forall h, handle tag id h s0 = (s1, o1, x) -> same_out s0 s1 o1).
        { intros h Eh. pose proof (handle_sout tag id h s0) as Hr. rewrite Eh in Hr. exact Hr. }
        destruct c as [| |h|[|[] args] [h|]]; cbn in E; try discriminate;
          try (inversion E; subst; repeat split; auto; fail); inversion E as [E2]; eapply Hh; eauto. }
      destruct x as [| |cc]; [exact Hx| |].
      * pose proof (finish_sout tag id (SDone (POk VNull)) s1). destruct (finish_request tag id _ s1).
        eapply C, same_out_trans; eauto.
      * pose proof (finish_sout tag id (SErr cc) s1). destruct (finish_request tag id _ s1).
        eapply C, same_out_trans; eauto.
    + pose proof (G h). destruct (handle tag id h s0) as [[s1 o1] x]. destruct (schedule_tail id x s1). exact H.
  - assert (On : noreq [ONotif]) by (intros x [<-|[]]; exact I).
    destruct (s_running s); [|repeat split; auto].
    destruct n; cbn [on_notification].
    + destruct (s_phase s) eqn:E; cbn; rewrite ?E; destruct ok; repeat split; auto.
    + repeat split. intros x [<-|[]]; exact I.
    + destruct (s_phase s), handler; repeat split; auto.
  - assert (On : noreq [OStop]) by (intros x [<-|[]]; exact I).
    destruct (s_running s); [|repeat split; auto].
    destruct (s_phase s); try (destruct (hd && er)); repeat split; auto.
  - unfold on_finish. destruct (find _ _) as [[? i]|]; [|repeat split; auto].
    pose proof (respond_sout i r (set_tasks s (filter (fun x => negb (Nat.eqb tag (fst x))) (s_tasks s)))).
    destruct (respond i r _). exact H.
  - repeat split; auto.
  - destruct (s_running s); repeat split; auto. intros x [<-|[]]; exact I.
Qed.

Lemma sends_snoc evs e : sends (evs ++ [e]) = sends evs ++ match e with EvSend k => [k] | _ => [] end.
Proof. unfold sends. rewrite map_app, concat_app. cbn. rewrite app_nil_r. reflexivity. Qed.
Lemma allocs_snoc evs e : allocs (evs ++ [e]) = allocs evs + match e with EvSend k => 1 | _ => 0 end.
Proof. unfold allocs. rewrite filter_app, app_length. destruct e; reflexivity. Qed.

Lemma step_send s k : snd (step s (EvSend k)) = if s_open s then [OReq (s_next s) k] else [].
Proof. reflexivity. Qed.

Record calls (evs : list event) : Prop := {
  ca_nodup : NoDup (called (trace evs) ++ map snd (s_out (final evs)));
  ca_sends : incl (called (trace evs) ++ map snd (s_out (final evs))) (sends evs);
  ca_keys : NoDup (map fst (s_out (final evs)))
}.

Lemma find_split (z : Z) k (l : list (Z * nat)) z' : NoDup (map fst l) ->
  find (fun x => Z.eqb z (fst x)) l = Some (z', k) ->
  z' = z /\ exists a b, l = a ++ (z, k) :: b /\ filter (fun x => negb (Z.eqb z (fst x))) l = a ++ b.
Proof.
  induction l as [|[y j] l IH]; intros Hn Hf; cbn in *; [discriminate|].
  inversion Hn as [|? ? N1 N2]; subst. destruct (Z.eqb_spec z y) as [->|Hne].
  - inversion Hf; subst. split; [reflexivity|]. exists [], l. split; [reflexivity|]. cbn.
    clear - N1. induction l as [|[a b] l IH]; [reflexivity|]. cbn in *. destruct (Z.eqb_spec z' a) as [->|]; [exfalso; tauto|].
    cbn. f_equal. apply IH. tauto.
  - destruct (IH N2 Hf) as (-> & a & b & -> & E). split; [reflexivity|]. exists ((y, j) :: a), b. cbn. rewrite E. auto.
Qed.

Lemma calls_inv evs : NoDup (sends evs) -> calls evs.
Proof.
  induction evs as [|e evs IH] using rev_ind; intros Hn.
  - constructor; cbn; try constructor. intros x [].
  - rewrite sends_snoc in Hn. pose proof (NoDup_app_l _ _ Hn) as Hn1. specialize (IH Hn1). destruct IH as [N I K].
    destruct e as [tag id m|n|id v|hd er|tag r|k| |];
      try (pose proof (step_sout (final evs) _ I) as Hs).
    1,2,4,5,7,8: rewrite app_nil_r in Hn;
      match goal with |- calls (_ ++ [?e]) => pose proof (step_sout (final evs) e Logic.I) as Hs;
        constructor; rewrite ?final_snoc, ?trace_snoc, ?called_snoc, ?sends_snoc, ?app_nil_r;
        destruct (step (final evs) e) as [s' o]; destruct Hs as (A & B & C); cbn [fst snd];
        rewrite ?B, ?(noreq_called _ C), ?app_nil_r; assumption end.
    + (* response *)
      assert (Hstay : fst (step (final evs) (EvResponse id v)) = final evs /\ snd (step (final evs) (EvResponse id v)) = [] \/
        exists z k a b, id = IdNum z /\ s_out (final evs) = a ++ (z, k) :: b /\
          s_out (fst (step (final evs) (EvResponse id v))) = a ++ b /\
          snd (step (final evs) (EvResponse id v)) = [OCall k v]).
      { cbn [step]. destruct (s_running (final evs)); [|auto]. unfold on_response.
        destruct (s_phase (final evs)), id as [z|]; auto.
        destruct (find _ _) as [[z' k]|] eqn:Ef; [|auto]. right.
        apply find_split in Ef as (-> & a & b & E1 & E2); [|exact K].
        exists z, k, a, b. cbn. rewrite E2. auto. }
      constructor; rewrite ?final_snoc, ?trace_snoc, ?called_snoc, ?sends_snoc, ?app_nil_r;
        destruct Hstay as [[Es Eo]|(z & k & a & b & _ & E1 & E2 & Eo)]; rewrite ?Eo; try rewrite Es; cbn [map concat app]; rewrite ?app_nil_r; auto;
        rewrite ?E2, ?map_app; rewrite E1, map_app in *; cbn in *.
      * clear - N. rewrite !app_assoc in *. apply NoDup_remove in N as [N1 N2].
        replace ((called (trace evs) ++ [k]) ++ map snd a) with (called (trace evs) ++ k :: map snd a)
          by (rewrite <- app_assoc; reflexivity).
        rewrite <- app_assoc. cbn. apply NoDup_Add with (a := k) (l := called (trace evs) ++ map snd a ++ map snd b).
        { apply Add_app. } rewrite app_assoc. auto.
      * intros x Hx. apply I. rewrite !in_app_iff in *. cbn in *. tauto.
      * apply NoDup_remove in K as [K1 _]. exact K1.
    + (* send *)
      constructor; rewrite ?final_snoc, ?trace_snoc, ?called_snoc, ?sends_snoc, ?step_send.
      * assert (Ec : concat (map (fun o => match o with OCall k0 _ => [k0] | _ => [] end)
           (if s_open (final evs) then [OReq (s_next (final evs)) k] else [])) = []) by (destruct (s_open (final evs)); reflexivity).
        rewrite Ec, app_nil_r. cbn [step send_request fst s_out set_outgoing map snd].
        apply NoDup_Add with (a := k) (l := called (trace evs) ++ map snd (filter (fun x => negb (Z.eqb (s_next (final evs)) (fst x))) (s_out (final evs)))).
        { apply Add_app. }
        split.
        -- clear - N. induction (called (trace evs)) as [|c l IHl]; cbn in *.
           ++ apply NoDup_map_filter, N.
           ++ inversion N; subst. constructor; auto. rewrite in_app_iff in *.
              intros [?|Hx]; [tauto|]. apply in_map_iff in Hx as (y & <- & Hy). apply filter_In in Hy as [Hy _].
              apply H1. right. apply in_map; auto.
        -- intros Hk. assert (Hs : In k (sends evs)).
           { apply I. rewrite in_app_iff in *. destruct Hk as [?|Hx]; [auto|right].
             apply in_map_iff in Hx as (y & <- & Hy). apply filter_In in Hy as [Hy _]. apply in_map; auto. }
           apply NoDup_remove_2 in Hn. rewrite app_nil_r in Hn. auto.
      * assert (Ec : concat (map (fun o => match o with OCall k0 _ => [k0] | _ => [] end)
           (if s_open (final evs) then [OReq (s_next (final evs)) k] else [])) = []) by (destruct (s_open (final evs)); reflexivity).
        rewrite Ec, app_nil_r. cbn [step send_request fst s_out set_outgoing map snd].
        intros x Hx. rewrite in_app_iff in *. cbn in *. destruct Hx as [Hx|[->|Hx]].
        -- left. apply I, in_or_app; auto.
        -- auto.
        -- left. apply I, in_or_app. right. apply in_map_iff in Hx as (y & <- & Hy). apply filter_In in Hy as [Hy _]. apply in_map; auto.
      * cbn [step send_request fst s_out set_outgoing map]. constructor.
        -- intros Hx. apply in_map_iff in Hx as (y & E & Hy). apply filter_In in Hy as [_ Hy]. rewrite E, Z.eqb_refl in Hy. discriminate.
        -- apply NoDup_map_filter, K.
Qed.

Lemma callback_once evs : NoDup (sends evs) -> NoDup (called (trace evs)).
Proof. intros H. apply calls_inv in H as [N _ _]. eapply NoDup_app_l; eauto. Qed.

Lemma alive_snoc evs e : alive (evs ++ [e]) -> alive evs.
Proof. unfold alive. rewrite trace_snoc, outs_app, ends_app. intros H. apply orb_false_iff in H. tauto. Qed.
Lemma noclose_snoc evs e : ~ In EvClose (evs ++ [e]) -> ~ In EvClose evs.
Proof. intros H Hi. apply H, in_or_app. auto. Qed.

Lemma out_sent evs : ~ In EvClose evs -> alive evs -> incl (s_out (final evs)) (sent (trace evs)).
Proof.
  induction evs as [|e evs IH] using rev_ind; intros Hc Ha; [intros x []|].
  pose proof (alive_snoc _ _ Ha) as Ha1. pose proof (noclose_snoc _ _ Hc) as Hc1. specialize (IH Hc1 Ha1).
  rewrite final_snoc, trace_snoc, sent_snoc. intros x Hx. apply in_or_app.
  destruct e as [tag id m|n|id v|hd er|tag r|k| |].
  1,2,4,5,7,8:
    left; apply IH; match type of Hx with In _ (s_out (fst (step _ ?e))) => pose proof (step_sout (final evs) e Logic.I) as Hs;
      destruct (step (final evs) e); destruct Hs as (A & B & C); cbn [fst] in Hx; rewrite <- B; exact Hx end.
  - left. apply IH. cbn [step] in Hx. destruct (s_running (final evs)); [|exact Hx]. unfold on_response in Hx.
    destruct (s_phase (final evs)), id as [z|]; auto. destruct (find _ _) as [[? ?]|]; auto.
    cbn in Hx. apply filter_In in Hx; tauto.
  - rewrite step_send, (open_alive evs Hc1 Ha1). cbn in Hx |- *. destruct Hx as [<-|Hx]; [auto|].
    left. apply IH. apply filter_In in Hx; tauto.
Qed.

(** A callback runs only for the response carrying its id, with that value. *)
Lemma call_cause evs e k v : ~ In EvClose evs -> In (OCall k v) (snd (step (final evs) e)) ->
  exists z, e = EvResponse (IdNum z) v /\ In (z, k) (sent (trace evs)).
Proof.
  intros Hc Hi. destruct e as [tag id m|n|id v'|hd er|tag r|j| |].
  1,2,4,5,7,8: exfalso; match type of Hi with In _ (snd (step _ ?e)) => pose proof (step_sout (final evs) e Logic.I) as Hs;
      destruct (step (final evs) e); destruct Hs as (A & B & C); apply C in Hi; exact Hi end.
  - cbn [step] in Hi. destruct (s_running (final evs)) eqn:Er; [|destruct Hi]. unfold on_response in Hi.
    destruct (s_phase (final evs)), id as [z|]; try (destruct Hi; fail). destruct (find _ _) as [[z' k']|] eqn:Ef; [|destruct Hi].
    destruct Hi as [E|[]]. inversion E; subst. exists z. split; [reflexivity|].
    apply find_some in Ef as [Ef1 Ef2]. cbn in Ef2. apply Z.eqb_eq in Ef2. subst.
    apply out_sent; auto. apply alive_running; auto.
  - exfalso. rewrite step_send in Hi. destruct (s_open (final evs)); [destruct Hi as [E|[]]; discriminate|destruct Hi].
Qed.

(** Ids are fresh until the counter has gone round. *)
Ltac Zify.zify_post_hook ::= Z.div_mod_to_equations.
Lemma wrap32_inj a b : (0 <= a < 4294967296)%Z -> (0 <= b < 4294967296)%Z -> wrap32 a = wrap32 b -> a = b.
Proof. unfold wrap32. intros. lia. Qed.
Lemma wrap32_succ a : wrap32 (wrap32 a + 1) = wrap32 (a + 1).
Proof. unfold wrap32. lia. Qed.

Record fresh (evs : list event) : Prop := {
  fr_next : s_next (final evs) = wrap32 (Z.of_nat (allocs evs));
  fr_sent : forall z k, In (z, k) (sent (trace evs)) -> exists i, i < allocs evs /\ z = wrap32 (Z.of_nat i);
  fr_out : forall z k, In (z, k) (s_out (final evs)) -> exists i, i < allocs evs /\ z = wrap32 (Z.of_nat i);
  fr_nodup : NoDup (map fst (sent (trace evs)));
  fr_keys : NoDup (map fst (s_out (final evs)));
  fr_kept : forall z k, In (z, k) (sent (trace evs)) -> In (z, k) (s_out (final evs)) \/ In k (called (trace evs))
}.

Lemma fresh_inv evs : (Z.of_nat (allocs evs) <= 4294967296)%Z -> fresh evs.
Proof.
  induction evs as [|e evs IH] using rev_ind; intros Hl.
  - constructor; cbn; try reflexivity; try apply NoDup_nil; intros z k [].
  - rewrite allocs_snoc in Hl. assert (Hl1 : (Z.of_nat (allocs evs) <= 4294967296)%Z) by lia.
    specialize (IH Hl1). destruct IH as [F1 F2 F3 F4 F5 F6].
    assert (Same : forall e, (match e with EvSend _ | EvResponse _ _ => False | _ => True end) -> fresh (evs ++ [e])).
    { intros e' He. pose proof (step_sout (final evs) e' He) as Hs.
      assert (Ea : allocs (evs ++ [e']) = allocs evs) by (rewrite allocs_snoc; destruct e'; try contradiction; lia).
      constructor; rewrite ?final_snoc, ?trace_snoc, ?called_snoc, ?sent_snoc, ?Ea;
        destruct (step (final evs) e') as [s' o]; destruct Hs as (A & B & C); cbn [fst snd];
        rewrite ?A, ?B, ?(noreq_called _ C), ?(noreq_sent _ C), ?app_nil_r; assumption. }
    destruct e as [tag id m|n|id v|hd er|tag r|k| |]; try (apply Same; exact Logic.I).
    + clear Same.
      assert (Hstay : fst (step (final evs) (EvResponse id v)) = final evs /\ snd (step (final evs) (EvResponse id v)) = [] \/
        exists z k a b, id = IdNum z /\ s_out (final evs) = a ++ (z, k) :: b /\
          s_out (fst (step (final evs) (EvResponse id v))) = a ++ b /\
          s_next (fst (step (final evs) (EvResponse id v))) = s_next (final evs) /\
          snd (step (final evs) (EvResponse id v)) = [OCall k v]).
      { cbn [step]. destruct (s_running (final evs)); [|auto]. unfold on_response.
        destruct (s_phase (final evs)), id as [z|]; auto.
        destruct (find _ _) as [[z' k]|] eqn:Ef; [|auto]. right.
        apply find_split in Ef as (-> & a & b & E1 & E2); [|exact F5].
        exists z, k, a, b. cbn. rewrite E2. auto. }
      assert (Ea : allocs (evs ++ [EvResponse id v]) = allocs evs) by (rewrite allocs_snoc; lia).
      constructor; rewrite ?final_snoc, ?trace_snoc, ?called_snoc, ?sent_snoc, ?Ea;
        destruct Hstay as [[Es Eo]|(z & k & a & b & _ & E1 & E2 & E3 & Eo)]; rewrite ?Eo; try rewrite Es; cbn [map concat app]; rewrite ?app_nil_r; auto.
      * congruence.
      * intros z0 k0 H0. rewrite E2 in H0. eapply F3. rewrite E1. rewrite in_app_iff in *. cbn. destruct H0; eauto.
      * rewrite E2. rewrite E1 in F5. rewrite map_app in *. cbn in F5. apply NoDup_remove in F5. tauto.
      * intros z0 k0 H0. rewrite E2. destruct (F6 _ _ H0) as [H1|H1].
        -- rewrite E1 in H1. rewrite !in_app_iff in *. cbn in *. destruct H1 as [?|[E|?]]; auto.
           inversion E; subst; auto.
        -- right. apply in_or_app; auto.
    + clear Same. assert (Ea : allocs (evs ++ [EvSend k]) = S (allocs evs)) by (rewrite allocs_snoc; lia).
      assert (Hf : forall z j, In (z, j) (s_out (final evs)) -> z <> s_next (final evs)).
      { intros z j Hz E. apply F3 in Hz as (i & Hi & ->). rewrite F1 in E. apply wrap32_inj in E; lia. }
      assert (Hflt : filter (fun x => negb (Z.eqb (s_next (final evs)) (fst x))) (s_out (final evs)) = s_out (final evs)).
      { clear - Hf. induction (s_out (final evs)) as [|[z j] l IHl]; [reflexivity|]. cbn.
        destruct (Z.eqb_spec (s_next (final evs)) z) as [E|E].
        - exfalso. eapply Hf; [left; reflexivity|auto].
        - cbn. f_equal. apply IHl. intros; eapply Hf; right; eauto. }
      assert (Hsn : forall z j, In (z, j) (sent (trace evs)) -> z <> s_next (final evs)).
      { intros z j Hz E. apply F2 in Hz as (i & Hi & ->). rewrite F1 in E. apply wrap32_inj in E; lia. }
      constructor; rewrite ?final_snoc, ?trace_snoc, ?called_snoc, ?sent_snoc, ?Ea, ?step_send.
      * cbn [step send_request fst s_next set_outgoing]. rewrite F1, wrap32_succ. f_equal. lia.
      * intros z j Hz. apply in_app_or in Hz as [Hz|Hz].
        -- apply F2 in Hz as (i & Hi & ->). exists i. split; [lia|reflexivity].
        -- destruct (s_open (final evs)); [|destruct Hz]. destruct Hz as [E|[]]. inversion E; subst.
           exists (allocs evs). split; [lia|exact F1].
      * cbn [step send_request fst s_out set_outgoing]. rewrite Hflt. intros z j [E|Hz].
        -- inversion E; subst. exists (allocs evs). split; [lia|exact F1].
        -- apply F3 in Hz as (i & Hi & ->). exists i. split; [lia|reflexivity].
      * destruct (s_open (final evs)); cbn; rewrite ?app_nil_r; [|exact F4].
        rewrite map_app. cbn. apply NoDup_Add with (a := s_next (final evs)) (l := map fst (sent (trace evs)) ++ []).
        { apply Add_app. } rewrite app_nil_r. split; [exact F4|].
        intros Hz. apply in_map_iff in Hz as ([z j] & E & Hz). cbn in E. subst. eapply Hsn; eauto.
      * cbn [step send_request fst s_out set_outgoing]. rewrite Hflt. cbn. constructor; [|exact F5].
        intros Hz. apply in_map_iff in Hz as ([z j] & E & Hz). cbn in E. subst. eapply Hf; eauto.
      * cbn [step send_request fst s_out set_outgoing]. rewrite Hflt. intros z j Hz.
        apply in_app_or in Hz as [Hz|Hz].
        -- destruct (F6 _ _ Hz); [left; right; auto|right; apply in_or_app; auto].
        -- destruct (s_open (final evs)); [|destruct Hz]. destruct Hz as [E|[]]. inversion E; subst. left; left; auto.
Qed.

Lemma ids_distinct evs : (Z.of_nat (allocs evs) <= 4294967296)%Z -> NoDup (map fst (sent (trace evs))).
Proof. intros H. apply (fr_nodup _ (fresh_inv evs H)). Qed.

Lemma NoDup_fst_inj (l : list (Z * nat)) z a b : NoDup (map fst l) -> In (z, a) l -> In (z, b) l -> a = b.
Proof.
  induction l as [|[y c] l IH]; intros Hn Ha Hb; [destruct Ha|]. cbn in Hn. inversion Hn; subst.
  assert (forall k, In (z, k) l -> In z (map fst l)) as Hm by (intros k Hk; apply (in_map fst) in Hk; exact Hk).
  destruct Ha as [Ea|Ha], Hb as [Eb|Hb].
  - congruence.
  - inversion Ea; subst. exfalso; eauto.
  - inversion Eb; subst. exfalso; eauto.
  - auto.
Qed.

Lemma response_delivered evs z k v : (Z.of_nat (allocs evs) <= 4294967296)%Z ->
  alive evs -> handshake evs -> ~ shut evs ->
  In (z, k) (sent (trace evs)) -> ~ In k (called (trace evs)) ->
  snd (step (final evs) (EvResponse (IdNum z) v)) = [OCall k v].
Proof.
  intros Hl Ha Hh Hs Hi Hc. destruct (fresh_inv evs Hl) as [F1 F2 F3 F4 F5 F6]. destruct (life_inv evs) as [L].
  apply alive_running in Ha. cbn [step]. rewrite Ha. unfold on_response.
  destruct (s_phase (final evs)); try tauto. destruct (F6 _ _ Hi) as [Ho|Ho]; [|tauto].
  destruct (find _ _) as [[z' k']|] eqn:Ef.
  - apply find_some in Ef as [Ef1 Ef2]. cbn in Ef2. apply Z.eqb_eq in Ef2. subst.
    cbn. rewrite (NoDup_fst_inj _ _ _ _ F5 Ho Ef1). reflexivity.
  - eapply find_none in Ef; [|exact Ho]. cbn in Ef. rewrite Z.eqb_refl in Ef. discriminate.
Qed.

(** Replies to nothing, and second replies, are ignored. *)
Lemma response_ignored evs id v : ~ In EvClose evs -> NoDup (sends evs) ->
  (forall z k, id = IdNum z -> In (z, k) (sent (trace evs)) -> In k (called (trace evs))) ->
  snd (step (final evs) (EvResponse id v)) = [].
Proof.
  intros Hc Hn Hk. destruct (calls_inv evs Hn) as [N I K].
  cbn [step]. destruct (s_running (final evs)) eqn:Er; [|reflexivity]. unfold on_response.
  destruct (s_phase (final evs)), id as [z|]; try reflexivity.
  destruct (find _ _) as [[z' k]|] eqn:Ef; [|reflexivity]. exfalso.
  apply find_some in Ef as [Ef1 Ef2]. cbn in Ef2. apply Z.eqb_eq in Ef2. subst.
  assert (Ha : alive evs) by (apply alive_running; auto).
  pose proof (out_sent evs Hc Ha _ Ef1) as Hs. specialize (Hk _ _ eq_refl Hs).
  apply in_split in Ef1 as (a & b & E). rewrite E, map_app in N. cbn in N. rewrite app_assoc in N.
  apply NoDup_remove_2 in N. apply N. rewrite !in_app_iff. tauto.
Qed.

(** ** Panics *)
Lemma panic_cause evs e : In OPanic (snd (step (final evs) e)) ->
  alive evs /\ handshake evs /\ ~ shut evs /\ exists tag id res, e = EvRequest tag id (MExec (CResources [] res)).
Proof.
  intros Hi. destruct (life_inv evs) as [L].
  assert (Rq : forall id p s, ~ In OPanic (snd (respond id p s))).
  { intros id p s H. rewrite respond_spec in H. destruct (_ && _); cbn in H; first [destruct H as [H|[]]; discriminate | destruct H]. }
  assert (Sq : forall tag id r s, ~ In OPanic (snd (fst (schedule tag id r s)))).
  { intros tag id r s H. destruct r as [c|p| |]; cbn in H; try (destruct H as [H|[]]; discriminate); try destruct H.
    eapply Rq; eauto. }
  assert (Tq : forall id x s, ~ In OPanic (snd (schedule_tail id x s))).
  { intros id x s H. destruct x; cbn in H; try destruct H; eapply Rq; eauto. }
  assert (Hq : forall tag id h s, ~ In OPanic (snd (fst (handle tag id h s)))).
  { intros tag id h s H. destruct h as [|r|[c|]]; cbn in H; try (destruct H as [H|[]]; discriminate); try destruct H.
    pose proof (Sq tag id r s). destruct (schedule tag id r s) as [[? ?] ?]. cbn in H. destruct H as [H|H]; [discriminate|auto]. }
  assert (Fq : forall tag id r s, ~ In OPanic (snd (finish_request tag id r s))).
  { intros tag id r s H. unfold finish_request in H. pose proof (Sq tag id r s).
    destruct (schedule tag id r s) as [[s1 o1] x]. pose proof (Tq id x s1). destruct (schedule_tail id x s1).
    cbn in *. apply in_app_or in H as [?|?]; auto. }
  assert (Cq : forall tag id h s, ~ In OPanic (snd (let '(s1, o1, x) := handle tag id h s in let (s2, o2) := schedule_tail id x s1 in (s2, o1 ++ o2)))).
  { intros tag id h s H. pose proof (Hq tag id h s). destruct (handle tag id h s) as [[s1 o1] x].
    pose proof (Tq id x s1). destruct (schedule_tail id x s1). cbn in *. apply in_app_or in H as [?|?]; auto. }
  destruct e as [tag id m|n|id v|hd er|tag r|k| |].
  - cbn [step] in Hi. destruct (s_running (final evs)) eqn:Er; [|destruct Hi].
    unfold on_request in Hi. set (s0 := register_request id (final evs)) in *.
    change (s_phase s0) with (s_phase (final evs)) in Hi.
    destruct (s_phase (final evs)) as [args| | |]; destruct m as [ok r|h|c|[h|]];
      try (exfalso; eapply Fq; eauto; fail).
    + exfalso. destruct L as [-> _]. destruct ok; [|eapply Fq; eauto].
      pose proof (Fq tag id r (set_phase s0 Initializing)). destruct (finish_request _ _ _ _). cbn in *.
      destruct Hi as [?|?]; [discriminate|auto].
    + exfalso. pose proof (Cq tag id h s0). destruct (handle tag id h s0) as [[s1 o1] x]. destruct (schedule_tail id x s1). auto.
    + destruct (on_execute_command tag id c s0) as [[[s1 o1] x]|] eqn:E.
      * exfalso. assert (Ho : ~ In OPanic o1).
        { assert (Hh : forall h, handle tag id h s0 = (s1, o1, x) -> ~ In OPanic o1).
          { intros h Eh. pose proof (Hq tag id h s0) as Hr. rewrite Eh in Hr. exact Hr. }
          destruct c as [| |h|[|[] args] [h|]]; cbn in E; try discriminate;
            try (inversion E; subst; intros []; fail); inversion E as [E2]; eapply Hh; eauto. }
        destruct x as [| |cc]; [auto| |].
        -- pose proof (Fq tag id (SDone (POk VNull)) s1). destruct (finish_request tag id _ s1). cbn in Hi.
           apply in_app_or in Hi as [?|?]; auto.
        -- pose proof (Fq tag id (SErr cc) s1). destruct (finish_request tag id _ s1). cbn in Hi.
           apply in_app_or in Hi as [?|?]; auto.
      * apply alive_running in Er. repeat split; try tauto.
        destruct c as [| |h|[|[] args] [h|]]; cbn in E; try discriminate; eauto.
    + exfalso. pose proof (Cq tag id h s0). destruct (handle tag id h s0) as [[s1 o1] x]. destruct (schedule_tail id x s1). auto.
  - exfalso. cbn [step] in Hi. destruct (s_running (final evs)); [|destruct Hi].
    destruct n; cbn [on_notification] in Hi; destruct (s_phase (final evs)) eqn:E; cbn in Hi; rewrite ?E in Hi;
      try (destruct ok); try (destruct handler); cbn in Hi; destruct Hi as [H|[]] || destruct Hi; discriminate.
  - exfalso. cbn [step] in Hi. destruct (s_running (final evs)); [|destruct Hi]. unfold on_response in Hi.
    destruct (s_phase (final evs)), id as [z|]; try (destruct Hi; fail). destruct (find _ _) as [[z' k']|]; destruct Hi as [H|[]] || destruct Hi; discriminate.
  - exfalso. cbn [step] in Hi. destruct (s_running (final evs)); [|destruct Hi].
    destruct (s_phase (final evs)); try (destruct (hd && er)); destruct Hi as [H|[]] || destruct Hi; discriminate.
  - exfalso. cbn [step] in Hi. unfold on_finish in Hi. destruct (find _ _) as [[? i]|]; [|destruct Hi]. eapply Rq; eauto.
  - exfalso. rewrite step_send in Hi. destruct (s_open (final evs)); [destruct Hi as [H|[]]; discriminate|destruct Hi].
  - destruct Hi.
  - exfalso. cbn [step] in Hi. destruct (s_running (final evs)); [destruct Hi as [H|[]]; discriminate|destruct Hi].
Qed.

(** ** In service *)
Lemma answers_app a b : answers (a ++ b) = answers a ++ answers b.
Proof. unfold answers. rewrite map_app, concat_app. reflexivity. Qed.

Lemma respond_at id p s : mem id (s_pending s) = true -> s_open s = true ->
  snd (respond id p s) = [OResp id p].
Proof. intros Hm Ho. rewrite respond_spec, Hm, Ho. reflexivity. Qed.

Lemma handler_served tag id h s : mem id (s_pending s) = true -> s_open s = true ->
  forall p, handler_answer h = Some p ->
  let '(s1, o1, x) := handle tag id h s in
  let (s2, o2) := schedule_tail id x s1 in
  answers (o1 ++ o2) = [(id, p)] /\
  (In (OHandle tag) (o1 ++ o2) <-> h <> HBadParams) /\
  (x <> RDone -> o2 = [OResp id p] /\ s1 = s) /\ (x = RDone -> o2 = []).
Proof.
  intros Hm Ho p Hp.
  destruct h as [|[c|q| |]|[c|]]; cbn in Hp; try discriminate; inversion Hp; subst; cbn [handle schedule];
    try (pose proof (respond_at id (PErr EInvalidRequest) s Hm Ho));
    try (pose proof (respond_at id (PErr c) s Hm Ho));
    try (pose proof (respond_at id p s Hm Ho)); try (pose proof (respond_at id (POk VNull) s Hm Ho)); cbn [schedule_tail];
    repeat match goal with |- context [respond ?a ?b ?c] => destruct (respond a b c) end; cbn [snd] in *; subst; cbn;
    repeat split; intros; try congruence; try tauto.
  all: repeat match goal with H : _ \/ _ |- _ => destruct H end; try discriminate; tauto.
Qed.

Lemma served evs tag id m p : alive evs -> ~ In EvClose evs -> handshake evs -> ~ shut evs ->
  expected m = Some p ->
  answers (snd (step (final evs) (EvRequest tag id m))) = [(id, p)] /\
  (In (OHandle tag) (snd (step (final evs) (EvRequest tag id m))) <-> reaches_handler m = true).
Proof.
  intros Ha Hc Hh Hs He. pose proof (open_alive evs Hc Ha) as Ho. destruct (life_inv evs) as [L].
  apply alive_running in Ha. cbn [step]. rewrite Ha. unfold on_request.
  change (s_phase (register_request id (final evs))) with (s_phase (final evs)).
  set (s := register_request id (final evs)).
  assert (Hm : mem id (s_pending s) = true) by apply register_mem.
  assert (Ho' : s_open s = true) by exact Ho.
  assert (Imm : forall q, snd (finish_request tag id (SDone q) s) = [OResp id q]) by (intros; apply finish_done; auto).
  assert (Hnh : forall q, answers [OResp id q] = [(id, q)] /\ (In (OHandle tag) [OResp id q] <-> false = true)).
  { intros q. split; [reflexivity|]. split; [intros [?|[]]; discriminate|discriminate]. }
  assert (Imm2 : forall q, snd (finish_request tag id (SErr q) s) = [OResp id (PErr q)]).
  { intros q. unfold finish_request. cbn. pose proof (respond_at id (PErr q) s Hm Ho'). destruct (respond id (PErr q) s). exact H. }
  assert (HB : forall h, match h with HBadParams => false | _ => true end = true <-> h <> HBadParams)
    by (intros []; split; congruence).
  destruct (s_phase (final evs)); try tauto.
  assert (Cmd : forall h, handler_answer h = Some p ->
    let r := match handle tag id h s with
      | (s1, o1, RDone) => (s1, o1)
      | (s1, o1, RNone) => let (s2, o2) := finish_request tag id (SDone (POk VNull)) s1 in (s2, o1 ++ o2)
      | (s1, o1, RErr c) => let (s2, o2) := finish_request tag id (SErr c) s1 in (s2, o1 ++ o2)
      end in
    answers (snd r) = [(id, p)] /\ (In (OHandle tag) (snd r) <-> match h with HBadParams => false | _ => true end = true)).
  { intros h Hp r. pose proof (handler_served tag id h s Hm Ho' p Hp) as Hv. rewrite (HB h). subst r.
    destruct (handle tag id h s) as [[s1 o1] x] eqn:Eh. destruct (schedule_tail id x s1) as [s2 o2] eqn:Et.
    destruct Hv as (V1 & V2 & V3 & V4). destruct x as [| |c]; cbv zeta.
    - rewrite V4 in * by auto. rewrite app_nil_r in *. split; auto.
    - destruct V3 as [-> ->]; [discriminate|]. rename Et into Et'. cbn in Et'.
      assert (p = POk VNull). { pose proof (respond_at id (POk VNull) s Hm Ho'). rewrite Et' in H. cbn in H. congruence. }
      subst. pose proof (Imm (POk VNull)) as Hi. destruct (finish_request _ _ _ _) as [s3 o3]. cbn [snd] in *. subst. auto.
    - destruct V3 as [-> ->]; [discriminate|]. rename Et into Et'. cbn in Et'.
      assert (p = PErr c). { pose proof (respond_at id (PErr c) s Hm Ho'). rewrite Et' in H. cbn in H. congruence. }
      subst. pose proof (Imm2 c) as Hi. destruct (finish_request _ _ _ _) as [s3 o3]. cbn [snd] in *. subst. auto. }
  destruct m as [ok r|h|c|[h|]]; cbn [expected reaches_handler] in *.
  - inversion He; subst. rewrite Imm. apply Hnh.
  - pose proof (handler_served tag id h s Hm Ho' p He) as Hv. rewrite HB.
    destruct (handle tag id h s) as [[s1 o1] x]. destruct (schedule_tail id x s1). cbn [snd]. tauto.
  - destruct c as [| |h|[|[] args] [h|]]; cbn [on_execute_command] in *; try discriminate;
      try (inversion He; subst); try (match goal with |- context [finish_request ?a ?b ?c ?d] =>
        pose proof (Imm2 EInvalidParams); pose proof (Imm2 EMethodNotFound); destruct (finish_request a b c d) end;
        cbn [snd] in *; subst; apply Hnh).
    + specialize (Cmd h He). destruct (handle tag id h s) as [[s1 o1] [| |cc]]; exact Cmd.
    + specialize (Cmd h He). destruct (handle tag id h s) as [[s1 o1] [| |cc]]; exact Cmd.
  - pose proof (handler_served tag id h s Hm Ho' p He) as Hv. rewrite HB.
    destruct (handle tag id h s) as [[s1 o1] x]. destruct (schedule_tail id x s1). cbn [snd]. tauto.
  - inversion He; subst. rewrite Imm. apply Hnh.
Qed.

Lemma notified evs : alive evs -> handshake evs -> ~ shut evs ->
  snd (step (final evs) (EvNotify (NOther true))) = [ONotif] /\
  snd (step (final evs) (EvNotify (NOther false))) = [].
Proof.
  intros Ha Hh Hs. destruct (life_inv evs) as [L]. apply alive_running in Ha. cbn [step]. rewrite Ha. cbn.
  destruct (s_phase (final evs)); tauto || auto.
Qed.
