(** Proofs about the debug adapter (C173). *)
From Coq Require Import List ZArith Arith Bool Lia.
From Verif Require Import DbgModel DbgSpec.
Import ListNotations.

Lemma run_app s a b : run s (a ++ b) = let '(s1, x) := run s a in let '(s2, y) := run s1 b in (s2, x ++ y).
Proof.
  revert s. induction a as [|[v m] a IH]; intros s; cbn [app run]; [destruct (run s b); reflexivity|].
  destruct (step v m s) as [s1 x]. rewrite IH. destruct (run s1 a) as [s2 y]. destruct (run s2 b) as [s3 z]. now rewrite app_assoc.
Qed.
Lemma run_snoc t x : fst (run init (t ++ [x])) = fst (step (fst x) (snd x) (fst (run init t))).
Proof.
  rewrite run_app. destruct (run init t) as [s a]. destruct x as [v m]. cbn [run fst snd]. destruct (step v m s) as [s2 b]. reflexivity.
Qed.
Lemma out_snoc t x : snd (run init (t ++ [x])) = snd (run init t) ++ sent t x.
Proof.
  unfold sent. rewrite run_app. destruct (run init t) as [s a]. destruct x as [v m]. cbn [run fst snd]. destruct (step v m s) as [s2 b]. cbn. now rewrite app_nil_r.
Qed.
Lemma respond_mine id r ps : snd (respond id r (id :: ps)) = [OResponse id r].
Proof. unfold respond. cbn [existsb]. now rewrite Z.eqb_refl. Qed.
Lemma step_life v m s : life_of (fst (step v m s)) = fst (fst (serve v m (life_of s))).
Proof.
  unfold step. destruct (serve v m (life_of s)) as [[l es] r]. destruct (number (next_id s) es) as [n os]. destruct r as [r|]; [|reflexivity].
  destruct (respond (as_i32 (m_seq m)) r _) as [ps o]. reflexivity.
Qed.
Lemma step_out v m s : snd (step v m s) = snd (number (next_id s) (snd (fst (serve v m (life_of s))))) ++ match snd (serve v m (life_of s)) with None => [] | Some r => [OResponse (as_i32 (m_seq m)) r] end.
Proof.
  unfold step. destruct (serve v m (life_of s)) as [[l es] r]. cbn [fst snd]. destruct (number (next_id s) es) as [n os]. cbn [snd]. destruct r as [r|]; [|now rewrite app_nil_r].
  pose proof (respond_mine (as_i32 (m_seq m)) r (filter (fun x => negb (Z.eqb x (as_i32 (m_seq m)))) (pending s))) as R.
  destruct (respond (as_i32 (m_seq m)) r _) as [ps o]. cbn [snd] in *. now rewrite R.
Qed.
Lemma step_next v m s : next_id (fst (step v m s)) = fst (number (next_id s) (snd (fst (serve v m (life_of s))))).
Proof.
  unfold step. destruct (serve v m (life_of s)) as [[l es] r]. cbn [fst snd]. destruct (number (next_id s) es) as [n os]. destruct r as [r|]; [|reflexivity].
  destruct (respond (as_i32 (m_seq m)) r _) as [ps o]. reflexivity.
Qed.
Lemma number_events n es : events (snd (number n es)) = es /\ responses (snd (number n es)) = [] /\ numbers (snd (number n es)) = from n (length es) /\ fst (number n es) = (n + Z.of_nat (length es))%Z.
Proof.
  revert n. induction es as [|e es IH]; intros n; cbn [number]; [repeat split; cbn; lia|]. specialize (IH (n + 1)%Z).
  destruct (number (n + 1)%Z es) as [k os]. cbn [fst snd] in *. destruct IH as (A & B & C & D).
  unfold events, responses, numbers in *. cbn [flat_map app length from]. rewrite A, B, C, D. repeat split; try reflexivity. cbn [length]. lia.
Qed.
Lemma flat_out {A} (f : out -> list A) a b : flat_map f (a ++ b) = flat_map f a ++ flat_map f b.
Proof. apply flat_map_app. Qed.
Lemma sent_parts t x : let r := serve (fst x) (snd x) (life_of (fst (run init t))) in
  events (sent t x) = snd (fst r) /\ responses (sent t x) = match snd r with None => [] | Some r => [(as_i32 (m_seq (snd x)), r)] end.
Proof.
  cbv zeta. unfold sent. rewrite step_out. set (s := fst (run init t)). destruct (serve (fst x) (snd x) (life_of s)) as [[l es] r]. cbn [fst snd].
  destruct (number_events (next_id s) es) as (A & B & _). unfold events, responses in *. rewrite !flat_out, A, B.
  destruct r; cbn; [rewrite app_nil_r|rewrite app_nil_r]; split; reflexivity.
Qed.
Lemma snoc_split {A} (t : list A) x a y b : t ++ [x] = a ++ y :: b -> (b = [] /\ a = t /\ y = x) \/ exists b', b = b' ++ [x] /\ t = a ++ y :: b'.
Proof.
  intros H. destruct b as [|z b _] using rev_ind.
  - apply app_inj_tail in H as [-> ->]. now left.
  - right. exists b. rewrite app_comm_cons, app_assoc in H. apply app_inj_tail in H as [-> ->]. now split.
Qed.
Lemma starts_fun x k w m l s k' w' m' l' s' : starts x k w m l s -> starts x k' w' m' l' s' -> k = k' /\ w = w' /\ m = m' /\ l = l' /\ s = s'.
Proof.
  intros (_ & p & r & A & B & C & D) (_ & p' & r' & A' & B' & C' & D'). rewrite A in A'.
  destruct k, k'; try discriminate; injection A' as <- <- <-; rewrite B in B'; injection B' as <-; rewrite C in C'; injection C' as <-; rewrite D in D'; injection D' as <-; auto.
Qed.
Lemma starts_others x k w m l s : starts x k w m l s -> ~ offline (snd x) /\ ~ ends (snd x) /\ ~ crashes x /\ ~ initializes (snd x).
Proof.
  intros (V & p & r & A & B & C & D). unfold offline, ends, crashes, initializes. rewrite A. destruct k.
  all: split; [discriminate|]; split; [intros (_ & [H|(i & ls & H & _)]); discriminate|]; split; [|intros [H _]; discriminate].
  all: intros (_ & a & [H|H] & K); try discriminate; injection H as <-; destruct K as [K|(p' & r' & s' & K & N)]; try discriminate; injection K as <- <- <-; congruence.
Qed.
Lemma online_snoc t x : online (t ++ [x]) <-> (Forall (fun y => ~ initializes (snd y)) t /\ initializes (snd x)) \/ (online t /\ ~ offline (snd x) /\ ~ crashes x).
Proof.
  split.
  - intros (a & y & b & E & A & Y & B). apply snoc_split in E as [(-> & -> & ->)|(b' & -> & ->)]; [now left|]. right.
    apply Forall_app in B as [B C]. inversion C; subst. split; [|assumption]. exists a, y, b'. auto.
  - intros [[A B]|((a & y & b & -> & A & Y & B) & C)]; [exists t, x, []; auto|]. exists a, y, (b ++ [x]). rewrite <- app_assoc. split; [reflexivity|].
    split; [exact A|]. split; [exact Y|]. apply Forall_app. split; [exact B|]. constructor; [exact C|constructor].
Qed.
Definition flag (s : option bool) : bool := match s with Some true => true | _ => false end.
Lemma session_snoc t x w m l st : in_session (t ++ [x]) w m l st <-> (online t /\ exists k s, starts x k w m l s /\ st = flag s) \/ (in_session t w m l st /\ quiet x).
Proof.
  split.
  - intros (a & y & b & k & s & E & O & S & F & B). apply snoc_split in E as [(-> & -> & ->)|(b' & -> & ->)]; [left; split; [assumption|]; eauto|]. right.
    apply Forall_app in B as [B C]. inversion C; subst. split; [|assumption]. exists a, y, b', k, s. auto.
  - intros [(O & k & s & S & F)|((a & y & b & k & s & -> & O & S & F & B) & Q)]; [exists t, x, [], k, s; auto|].
    exists a, y, (b ++ [x]), k, s. rewrite <- app_assoc. split; [reflexivity|]. repeat (split; [assumption|]). apply Forall_app. split; [exact B|]. constructor; [exact Q|constructor].
Qed.
Lemma ends_threads_iff ids : ends_threads ids = true <-> exists i l, ids = Some (i :: l) /\ forall j, In j (i :: l) -> j = 1.
Proof.
  destruct ids as [[|i l]|]; cbn [ends_threads]; [split; [discriminate|intros (? & ? & H & _); discriminate]| |split; [discriminate|intros (? & ? & H & _); discriminate]].
  rewrite forallb_forall. split.
  - intros H. exists i, l. split; [reflexivity|]. intros j J. specialize (H j J). apply Nat.eqb_eq in H. auto.
  - intros (? & ? & E & H) j J. injection E as <- <-. rewrite (H j J). reflexivity.
Qed.
(** What a message does to an adapter that is online. *)
Lemma online_serve v m so : let '(l, es, r) := serve v m (Ready so) in let x := (v, m) in
  (exists k w main len s, starts x k w main len s /\ l = Ready (Some (mkSession w 1 (flag s) main len)) /\ es = [Process k; ThreadStarted 1; Stopped 1] /\ r = Some (inl BNothing)) \/
  (crashes x /\ l = Crashed /\ es = [] /\ r = None) \/
  (offline m /\ l = ShuttingDown /\ es = [] /\ r <> None) \/
  (ends m /\ ~ offline m /\ ~ crashes x /\ l = Ready None /\ es = (match m_req m with Terminate => [Terminated] | _ => [] end) /\ r <> None) \/
  (quiet x /\ l = Ready so /\ es = [] /\ r <> None).
Proof.
  destruct m as [q r v0]. unfold serve. cbn [m_req m_valid].
  assert (INV : v0 = false -> r <> Disconnect -> quiet (v, mkMessage q r v0)).
  { intros -> N. unfold quiet, offline, ends, crashes, starts. cbn. repeat split; try assumption; try (intros (D & _); discriminate). intros * (D & _). discriminate. }
  assert (QQ : (forall a, r <> Launch a) -> (forall a, r <> Attach a) -> r <> Disconnect -> r <> Terminate -> (forall i, r <> TerminateThreads i) -> quiet (v, mkMessage q r v0)).
  { intros A B C D E. unfold quiet, offline, ends, crashes, starts. cbn. split; [exact C|]. split; [intros (_ & [F|(i & l & F & _)]); [auto|exact (E _ F)]|].
    split; [intros (_ & a & [F|F] & _); [exact (A _ F)|exact (B _ F)]|]. intros k w m l s (_ & p & ro & F & _). destruct k; [exact (B _ F)|exact (A _ F)]. }
  assert (LA : forall k a, r = match k with MLaunch => Launch a | MAttach => Attach a end -> v0 = true ->
    match launch v k a so with
    | Panics => crashes (v, mkMessage q r v0)
    | Does s es o => (exists w main len st, starts (v, mkMessage q r v0) k w main len st /\ s = Some (mkSession w 1 (flag st) main len) /\ es = [Process k; ThreadStarted 1; Stopped 1] /\ o = inl BNothing) \/ (quiet (v, mkMessage q r v0) /\ s = so /\ es = [])
    end).
  { intros k a -> ->. destruct a as [|p ro st]; cbn [launch].
    - split; [reflexivity|]. exists Malformed. cbn. split; [destruct k; auto|now left].
    - destruct (v p ro) as [w|] eqn:W.
      + assert (Q : (w_main w = None \/ exists m, w_main w = Some m /\ w_source w m = None) -> quiet (v, mkMessage q (match k with MLaunch => Launch (Args p ro st) | MAttach => Attach (Args p ro st) end) true)).
        { intros H. unfold quiet, offline, ends, crashes, starts. cbn. split; [destruct k; discriminate|]. split; [intros (_ & [F|(i & l & F & _)]); destruct k; discriminate|].
          split.
          - intros (_ & a & F & G). assert (a = Args p ro st) by (destruct k; destruct F as [F|F]; congruence). subst. destruct G as [G|(p' & r' & s' & G & N)]; [discriminate|]. injection G as <- <- <-. congruence.
          - intros k' w' m' l' s' (_ & p' & r' & F & G & M & S). assert (p' = p /\ r' = ro) by (destruct k, k'; try discriminate F; injection F; auto). destruct H0 as [-> ->].
            rewrite W in G. injection G as <-. destruct H as [H|(m & H & H')]; congruence. }
        destruct (w_main w) as [main|] eqn:M; [|right; split; [apply Q; now left|now split]].
        destruct (w_source w main) as [len|] eqn:L; [|right; split; [apply Q; right; eauto|now split]].
        left. exists w, main, len, st. split; [|destruct st as [[|]|]; now split].
        split; [reflexivity|]. exists p, ro. cbn. auto.
      + split; [reflexivity|]. exists (Args p ro st). cbn. split; [destruct k; auto|]. right. exists p, ro, st. auto. }
  assert (NQ : forall l es o, quiet (v, mkMessage q r v0) -> l = Ready so -> es = [] -> o <> None ->
    (exists k w main len s, starts (v, mkMessage q r v0) k w main len s /\ l = Ready (Some (mkSession w 1 (flag s) main len)) /\ es = [Process k; ThreadStarted 1; Stopped 1] /\ o = Some (inl BNothing : body + error)) \/
    (crashes (v, mkMessage q r v0) /\ l = Crashed /\ es = [] /\ o = None) \/ (offline (mkMessage q r v0) /\ l = ShuttingDown /\ es = [] /\ o <> None) \/
    (ends (mkMessage q r v0) /\ ~ offline (mkMessage q r v0) /\ ~ crashes (v, mkMessage q r v0) /\ l = Ready None /\ es = (match r with Terminate => [Terminated] | _ => [] end) /\ o <> None) \/
    (quiet (v, mkMessage q r v0) /\ l = Ready so /\ es = [] /\ o <> None)) by (intros; right; right; right; right; auto).
  assert (LL : forall k a, r = match k with MLaunch => Launch a | MAttach => Attach a end -> 
    let '(l, es, o) := if v0 then match launch v k a so with Panics => (Crashed, [], None) | Does s es o => (Ready s, es, Some o) end else (Ready so, [], Some (inr EInvalidRequest)) in
    (exists k w main len s, starts (v, mkMessage q r v0) k w main len s /\ l = Ready (Some (mkSession w 1 (flag s) main len)) /\ es = [Process k; ThreadStarted 1; Stopped 1] /\ o = Some (inl BNothing : body + error)) \/
    (crashes (v, mkMessage q r v0) /\ l = Crashed /\ es = [] /\ o = None) \/ (offline (mkMessage q r v0) /\ l = ShuttingDown /\ es = [] /\ o <> None) \/
    (ends (mkMessage q r v0) /\ ~ offline (mkMessage q r v0) /\ ~ crashes (v, mkMessage q r v0) /\ l = Ready None /\ es = (match r with Terminate => [Terminated] | _ => [] end) /\ o <> None) \/
    (quiet (v, mkMessage q r v0) /\ l = Ready so /\ es = [] /\ o <> None)).
  { intros k a E. destruct v0.
    - specialize (LA k a E eq_refl). destruct (launch v k a so) as [|s es o]; [right; left; auto|].
      destruct LA as [(w & main & len & st & S & -> & -> & ->)|(Q & -> & ->)]; [left; exists k, w, main, len, st; auto|apply NQ; [exact Q|reflexivity|reflexivity|discriminate]].
    - apply NQ; [apply INV; [reflexivity|rewrite E; destruct k; discriminate]|reflexivity|reflexivity|discriminate]. }
  destruct r; cbn [handle].
  - apply NQ; [apply QQ; congruence|reflexivity|reflexivity|discriminate].
  - destruct v0; (apply NQ; [apply QQ; congruence|reflexivity|reflexivity|discriminate]).
  - destruct v0; right; right; left; repeat split; discriminate.
  - destruct v0; [|apply NQ; [apply INV; [reflexivity|discriminate]|reflexivity|reflexivity|discriminate]].
    right. right. right. left. unfold ends, offline, crashes. cbn. repeat split; try discriminate; [now left|]. intros (_ & a & [F|F] & _); discriminate.
  - destruct v0; [|apply NQ; [apply INV; [reflexivity|discriminate]|reflexivity|reflexivity|discriminate]].
    destruct (ends_threads ids) eqn:T.
    + right. right. right. left. apply ends_threads_iff in T as (i & l & -> & T). unfold ends, offline, crashes. cbn [m_valid m_req snd]. repeat split; try discriminate; [right; eauto|]. intros (_ & a & [F|F] & _); discriminate.
    + apply NQ; [|reflexivity|reflexivity|discriminate]. unfold quiet, offline, ends, crashes, starts. cbn. split; [discriminate|]. split.
      * intros (_ & [F|(i & l & F & G)]); [discriminate|]. injection F as ->. assert (X : ends_threads (Some (i :: l)) = true) by (apply ends_threads_iff; eauto). congruence.
      * split; [intros (_ & a & [F|F] & _); discriminate|]. intros k w m l s (_ & p & ro & F & _). destruct k; discriminate.
  - exact (LL MAttach a eq_refl).
  - exact (LL MLaunch a eq_refl).
  - destruct v0, so; (apply NQ; [apply QQ; congruence|reflexivity|reflexivity|try discriminate]).
    
  - destruct v0, so; (apply NQ; [apply QQ; congruence|reflexivity|reflexivity|discriminate]).
  - destruct v0; (apply NQ; [apply QQ; congruence|reflexivity|reflexivity|discriminate]).
  - apply NQ; [apply QQ; congruence|reflexivity|reflexivity|discriminate].
Qed.
Definition lifes (t : trace) : life := life_of (fst (run init t)).
Lemma lifes_snoc t x : lifes (t ++ [x]) = fst (fst (serve (fst x) (snd x) (lifes t))).
Proof. unfold lifes. rewrite run_snoc. apply step_life. Qed.
Lemma quiet_online y : quiet y -> ~ offline (snd y) /\ ~ crashes y.
Proof. intros (A & _ & B & _). now split. Qed.
Definition of_session (s : session) (w : world) (m l : nat) (st : bool) : Prop := s = mkSession w 1 st m l.
Lemma invariant t :
  (lifes t = Uninitialized <-> Forall (fun y => ~ initializes (snd y)) t) /\
  (online t <-> exists so, lifes t = Ready so) /\
  (forall w m l st, in_session t w m l st <-> lifes t = Ready (Some (mkSession w 1 st m l))).
Proof.
  induction t as [|x t IH] using rev_ind.
  { split; [split; [constructor|reflexivity]|]. split.
    - split; [intros (a & y & b & E & _); destruct a; discriminate|intros (so & H); discriminate].
    - intros. split; [intros (a & y & b & k & s & E & _); destruct a; discriminate|discriminate]. }
  destruct IH as (U & O & S). rewrite lifes_snoc.
  assert (FX : Forall (fun y => ~ initializes (snd y)) (t ++ [x]) <-> Forall (fun y => ~ initializes (snd y)) t /\ ~ initializes (snd x)).
  { rewrite Forall_app. split; [intros [A B]; inversion B; now split|intros [A B]; split; [exact A|now constructor]]. }
  rewrite FX, online_snoc, <- U. clear FX. destruct x as [v m]. cbn [fst snd].
  destruct (lifes t) as [|so| |] eqn:L.
  - (* Uninitialized *)
    assert (NO : ~ online t) by (intros H; apply O in H as (so & H); discriminate).
    assert (NS : forall w n l st, ~ in_session t w n l st) by (intros w n l st H; apply S in H; discriminate).
    destruct m as [q r v0]. unfold initializes. cbn [m_req m_valid].
    destruct (match r with Initialize => v0 | _ => false end) eqn:I.
    + assert (r = Initialize /\ v0 = true) as [-> ->] by (destruct r; try discriminate I; auto). cbn.
      split; [split; [discriminate|intros [_ H]; exfalso; now apply H]|]. split; [split; [eauto|intros _; left; auto]|].
      intros w n l st. rewrite session_snoc. split; [intros [[H _]|[H _]]; [destruct (NO H)|destruct (NS _ _ _ _ H)]|discriminate].
    + assert (E : fst (fst (serve v (mkMessage q r v0) Uninitialized)) = Uninitialized) by (unfold serve; cbn [m_req m_valid]; destruct r; try reflexivity; rewrite I; reflexivity).
      rewrite E. split; [split; [intros _; split; [reflexivity|]; intros [-> ->]; discriminate|reflexivity]|]. split.
      * split; [intros [[_ [-> ->]]|[H _]]; [discriminate|destruct (NO H)]|intros (so & H); discriminate].
      * intros w n l st. rewrite session_snoc. split; [intros [[H _]|[H _]]; [destruct (NO H)|destruct (NS _ _ _ _ H)]|discriminate].
  - (* Ready *)
    assert (ON : online t) by (apply O; eauto). pose proof (online_serve v m so) as C. destruct (serve v m (Ready so)) as [[l es] r]. cbn [fst]. cbn zeta in C.
    split. { split; [|intros [D _]; discriminate]. intros ->. destruct C as [(? & ? & ? & ? & ? & _ & D & _)|[(_ & D & _)|[(_ & D & _)|[(_ & _ & _ & D & _)|(_ & D & _)]]]]; discriminate. }
    destruct C as [(k & w & main & len & s & ST & -> & _)|[(C & -> & _)|[(C & -> & _)|[(C & NF & NC & -> & _)|(Q & -> & _)]]]].
    + destruct (starts_others _ _ _ _ _ _ ST) as (A & B & C & D). split; [split; [eauto|intros _; right; auto]|].
      intros w' m' l' st. rewrite session_snoc. split.
      * intros [(_ & k' & s' & S' & ->)|(_ & Q)]; [|destruct Q as (_ & _ & _ & Q); destruct (Q _ _ _ _ _ ST)].
        destruct (starts_fun _ _ _ _ _ _ _ _ _ _ _ ST S') as (<- & <- & <- & <- & <-). reflexivity.
      * intros E. injection E as <- <- <- <-. left. split; [exact ON|]. eauto.
    + split; [split; [intros [[D _]|(_ & _ & D)]; [discriminate|destruct (D C)]|intros (so' & H); discriminate]|].
      intros w' m' l' st. rewrite session_snoc. split; [|discriminate]. intros [(_ & k & s & ST & _)|(_ & Q)].
      * destruct (starts_others _ _ _ _ _ _ ST) as (_ & _ & D & _). destruct (D C).
      * destruct Q as (_ & _ & D & _). destruct (D C).
    + split; [split; [intros [[D _]|(_ & D & _)]; [discriminate|destruct (D C)]|intros (so' & H); discriminate]|].
      intros w' m' l' st. rewrite session_snoc. split; [|discriminate]. intros [(_ & k & s & ST & _)|(_ & Q)].
      * destruct (starts_others _ _ _ _ _ _ ST) as (D & _). destruct (D C).
      * destruct Q as (D & _). destruct (D C).
    + split; [split; [eauto|intros _; right; auto]|].
      intros w' m' l' st. rewrite session_snoc. split; [|discriminate]. intros [(_ & k & s & ST & _)|(_ & Q)].
      * destruct (starts_others _ _ _ _ _ _ ST) as (_ & D & _). destruct (D C).
      * destruct Q as (_ & D & _). destruct (D C).
    + destruct (quiet_online _ Q) as [A B]. split; [split; [eauto|intros _; right; auto]|].
      intros w' m' l' st. rewrite session_snoc, S. split; [|intros E; right; split; [exact E|exact Q]].
      intros [(_ & k & s & ST & _)|(E & _)]; [destruct Q as (_ & _ & _ & D); destruct (D _ _ _ _ _ ST)|exact E].
  - (* ShuttingDown *)
    assert (NO : ~ online t) by (intros H; apply O in H as (so & H); discriminate).
    assert (E : fst (fst (serve v m ShuttingDown)) = ShuttingDown) by (unfold serve; destruct (m_req m); reflexivity). rewrite E.
    split; [split; [discriminate|intros [D _]; discriminate]|]. split; [split; [intros [[D _]|[H _]]; [discriminate|destruct (NO H)]|intros (so & H); discriminate]|].
    intros w n l st. rewrite session_snoc, S. split; [intros [[H _]|[H _]]; [destruct (NO H)|discriminate]|discriminate].
  - assert (NO : ~ online t) by (intros H; apply O in H as (so & H); discriminate).
    assert (E : fst (fst (serve v m Crashed)) = Crashed) by (unfold serve; destruct (m_req m); reflexivity). rewrite E.
    split; [split; [discriminate|intros [D _]; discriminate]|]. split; [split; [intros [[D _]|[H _]]; [discriminate|destruct (NO H)]|intros (so & H); discriminate]|].
    intros w n l st. rewrite session_snoc, S. split; [intros [[H _]|[H _]]; [destruct (NO H)|discriminate]|discriminate].
Qed.
Lemma crash t x : ~ alive (t ++ [x]) <-> ~ alive t \/ (online t /\ crashes x).
Proof.
  unfold alive. change (life_of (fst (run init (t ++ [x])))) with (lifes (t ++ [x])). change (life_of (fst (run init t))) with (lifes t).
  rewrite lifes_snoc. destruct (invariant t) as (_ & O & _). destruct x as [v m]. cbn [fst snd]. destruct (lifes t) as [|so| |] eqn:L.
  - assert (E : fst (fst (serve v m Uninitialized)) <> Crashed) by (unfold serve; destruct (m_req m), (m_valid m); discriminate).
    split; [intros H; destruct (H E)|]. intros [H|(H & _)]; [destruct H; discriminate|]. apply O in H as (so & H). discriminate.
  - pose proof (online_serve v m so) as C. destruct (serve v m (Ready so)) as [[l es] r]. cbn [fst]. cbn zeta in C.
    assert (ON : online t) by (apply O; eauto).
    destruct C as [(k & w & main & len & s & ST & -> & _)|[(C & -> & _)|[(C & -> & _)|[(C & NF & NC & -> & _)|(Q & -> & _)]]]].
    + destruct (starts_others _ _ _ _ _ _ ST) as (_ & _ & D & _). split; [intros H; destruct H; discriminate|]. intros [H|[_ H]]; [destruct H; discriminate|destruct (D H)].
    + split; [intros _; right; auto|]. intros _ H. now apply H.
    + split; [intros H; destruct H; discriminate|]. intros [H|[_ (_ & a & [F|F] & _)]]; [destruct H; discriminate|cbn in F; rewrite C in F; discriminate..].
    + split; [intros H; destruct H; discriminate|]. intros [H|[_ H]]; [destruct H; discriminate|destruct (NC H)].
    + split; [intros H; destruct H; discriminate|]. destruct Q as (_ & _ & D & _). intros [H|[_ H]]; [destruct H; discriminate|destruct (D H)].
  - assert (E : fst (fst (serve v m ShuttingDown)) <> Crashed) by (unfold serve; destruct (m_req m); discriminate).
    split; [intros H; destruct (H E)|]. intros [H|(H & _)]; [destruct H; discriminate|]. apply O in H as (so & H). discriminate.
  - assert (E : fst (fst (serve v m Crashed)) = Crashed) by (unfold serve; destruct (m_req m); reflexivity). rewrite E. split; [intros H; now left|intros _ H; now apply H].
Qed.
Lemma small_i32 z : small z -> as_i32 z = z.
Proof. unfold small, as_i32. intros H. rewrite Z.mod_small by lia. lia. Qed.
Lemma answered t x : alive (t ++ [x]) -> exists r, responses (sent t x) = [(as_i32 (m_seq (snd x)), r)].
Proof.
  unfold alive. change (life_of (fst (run init (t ++ [x])))) with (lifes (t ++ [x])). rewrite lifes_snoc. destruct (sent_parts t x) as (_ & R). rewrite R.
  change (life_of (fst (run init t))) with (lifes t). intros H. destruct x as [v m]. cbn [fst snd] in *.
  assert (D : snd (serve v m (lifes t)) <> None).
  { destruct (lifes t) as [|so| |].
    - unfold serve. destruct (m_req m), (m_valid m); discriminate.
    - pose proof (online_serve v m so) as C. destruct (serve v m (Ready so)) as [[l es] r]. cbn [fst snd] in *. cbn zeta in C.
      destruct C as [(k & w & main & len & s & ST & _ & _ & ->)|[(C & -> & _)|[(C & _ & _ & D)|[(C & _ & _ & _ & _ & D)|(Q & _ & _ & D)]]]]; [discriminate|now destruct H|exact D..].
    - unfold serve. destruct (m_req m); discriminate.
    - exfalso. apply H. unfold serve. destruct (m_req m); reflexivity. }
  destruct (snd (serve v m (lifes t))) as [r|]; [eauto|now destruct D].
Qed.
Lemma away t x : ~ online t -> ~ (initializes (snd x) /\ Forall (fun y => ~ initializes (snd y)) t) ->
  events (sent t x) = [] /\ forall id r, In (id, r) (responses (sent t x)) -> exists e, r = inr e.
Proof.
  intros NO NI. destruct (sent_parts t x) as (E & R). rewrite E, R. clear E R. change (life_of (fst (run init t))) with (lifes t).
  destruct (invariant t) as (U & O & _). destruct x as [v m]. cbn [fst snd] in *.
  destruct (lifes t) as [|so| |].
  - unfold serve. destruct m as [q r v0]. unfold initializes in NI. cbn [m_req m_valid] in *. destruct r; try (split; [reflexivity|]; intros id o [D|[]]; injection D as <- <-; eauto).
    destruct v0; [exfalso; apply NI; split; [now split|now apply U]|]. split; [reflexivity|]. intros id o [D|[]]; injection D as <- <-; eauto.
  - exfalso. apply NO, O. eauto.
  - unfold serve. destruct (m_req m); (split; [reflexivity|]; intros id o [D|[]]; injection D as <- <-; eauto).
  - unfold serve. destruct (m_req m); (split; [reflexivity|]; intros id o []).
Qed.
Lemma welcomed t x : initializes (snd x) -> Forall (fun y => ~ initializes (snd y)) t -> sent t x = [OEvent 0 Initialized; OResponse (as_i32 (m_seq (snd x))) (inl BCapabilities)].
Proof.
  intros [I V] F. destruct (invariant t) as (U & _). apply U in F. unfold lifes in F. unfold sent. rewrite step_out, F. unfold serve. rewrite I, V. cbn [fst snd number app].
  assert (N : next_id (fst (run init t)) = 0%Z).
  { clear I V x. assert (G : forall t, lifes t = Uninitialized -> next_id (fst (run init t)) = 0%Z); [|apply G; exact F]. clear. intros t.
    induction t as [|x t IH] using rev_ind; [reflexivity|]. rewrite lifes_snoc, run_snoc, step_next. fold (lifes t). destruct x as [v m]. cbn [fst snd].
    destruct (lifes t) as [|so| |] eqn:L.
    - unfold serve. destruct (m_req m), (m_valid m); try discriminate; intros _; cbn; now apply IH.
    - pose proof (online_serve v m so) as C. destruct (serve v m (Ready so)) as [[l es] r]. cbn [fst]. cbn zeta in C. intros ->.
      destruct C as [(? & ? & ? & ? & ? & _ & D & _)|[(_ & D & _)|[(_ & D & _)|[(_ & _ & _ & D & _)|(_ & D & _)]]]]; discriminate.
    - unfold serve. destruct (m_req m); discriminate.
    - unfold serve. destruct (m_req m); discriminate. }
  rewrite N. reflexivity.
Qed.
Lemma online_events t x : online t ->
  (forall k w m l s, starts x k w m l s -> sent t x = [OEvent (next_id (fst (run init t))) (Process k); OEvent (next_id (fst (run init t)) + 1) (ThreadStarted 1); OEvent (next_id (fst (run init t)) + 1 + 1) (Stopped 1); OResponse (as_i32 (m_seq (snd x))) (inl BNothing)]) /\
  ((forall k w m l s, ~ starts x k w m l s) -> events (sent t x) = match m_req (snd x), m_valid (snd x) with Terminate, true => [Terminated] | _, _ => [] end).
Proof.
  intros ON. destruct (invariant t) as (_ & O & _). apply O in ON as (so & L). unfold lifes in L. destruct x as [v m]. cbn [fst snd].
  split.
  - intros k w main len s ST. unfold sent. rewrite step_out. cbn [fst snd]. rewrite L. pose proof (online_serve v m so) as C. destruct (serve v m (Ready so)) as [[l es] r]. cbn [fst snd] in *. cbn zeta in C.
    destruct (starts_others _ _ _ _ _ _ ST) as (A & B & D & _).
    destruct C as [(k' & w' & main' & len' & s' & ST' & _ & -> & ->)|[(C & _)|[(C & _)|[(C & _)|((_ & _ & _ & Q) & _)]]]]; [|destruct (D C)|destruct (A C)|destruct (B C)|destruct (Q _ _ _ _ _ ST)].
    destruct (starts_fun _ _ _ _ _ _ _ _ _ _ _ ST ST') as (<- & _). reflexivity.
  - intros N. destruct (sent_parts t (v, m)) as (E & _). rewrite E. cbn [fst snd]. rewrite L. pose proof (online_serve v m so) as C.
    assert (TT : m_req m = Terminate -> m_valid m = true -> snd (fst (serve v m (Ready so))) = [Terminated]) by (intros A B; unfold serve; rewrite A, B; reflexivity).
    destruct (serve v m (Ready so)) as [[l es] r]. cbn [fst snd] in *. cbn zeta in C.
    destruct C as [(k' & w' & main' & len' & s' & ST' & _)|[(C & _ & -> & _)|[(C & _ & -> & _)|[((V & C) & _ & _ & _ & -> & _)|(Q & _ & -> & _)]]]].
    + destruct (N _ _ _ _ _ ST').
    + destruct C as (_ & a & [F|F] & _); cbn in F; rewrite F; reflexivity.
    + rewrite C. reflexivity.
    + rewrite V. destruct (m_req m); reflexivity.
    + destruct (m_req m) eqn:R; try reflexivity. destruct (m_valid m) eqn:V; [|reflexivity]. destruct Q as (_ & Q & _). destruct Q. split; [exact V|now left].
Qed.
Lemma evaluated t x e : m_req (snd x) = Evaluate e -> m_valid (snd x) = true -> online t -> forall y,
  responses (sent t x) = [(as_i32 (m_seq (snd x)), inl (BValue y))] <-> exists w m l s, in_session t w m l s /\ w_value w m e = Some y.
Proof.
  intros R V ON y. destruct (invariant t) as (_ & O & S). apply O in ON as (so & L). destruct (sent_parts t x) as (_ & P). rewrite P. fold (lifes t). rewrite L. unfold serve. rewrite R, V. cbn [handle].
  destruct so as [n|]; cbn [snd].
  - split.
    + intros H. destruct n as [w th st m l]. cbn [s_world s_source] in *. destruct (w_value w m e) as [z|] eqn:W; [|discriminate]. injection H as ->.
      assert (T : th = 1). { clear - L. revert w th st m l L. induction t as [|x t IH] using rev_ind; intros w th st m l L; [discriminate|].
        rewrite lifes_snoc in L. destruct x as [v q]. cbn [fst snd] in L. destruct (lifes t) as [|so| |] eqn:E.
        - unfold serve in L. destruct (m_req q), (m_valid q); discriminate.
        - pose proof (online_serve v q so) as C. destruct (serve v q (Ready so)) as [[l' es] r]. cbn [fst] in *. cbn zeta in C. subst l'.
          destruct C as [(? & ? & ? & ? & ? & _ & D & _)|[(_ & D & _)|[(_ & D & _)|[(_ & _ & _ & D & _)|(_ & D & _)]]]]; try discriminate; [now injection D|]. injection D as D. subst so. eapply IH. reflexivity.
        - unfold serve in L. destruct (m_req q); discriminate.
        - unfold serve in L. destruct (m_req q); discriminate. }
      subst th. exists w, m, l, st. split; [|exact W]. apply S. exact L.
    + intros (w & m & l & s & I & W). apply S in I. rewrite L in I. injection I as ->. cbn. rewrite W. reflexivity.
  - split; [discriminate|]. intros (w & m & l & s & I & _). apply S in I. rewrite L in I. discriminate.
Qed.
Lemma from_app n a b : from n (a + b) = from n a ++ from (n + Z.of_nat a) b.
Proof.
  revert n. induction a as [|a IH]; intros n; cbn [from app Nat.add]; [now rewrite Z.add_0_r|]. rewrite IH. replace (n + 1 + Z.of_nat a)%Z with (n + Z.of_nat (S a))%Z by lia. reflexivity.
Qed.
Lemma numbered t : numbers (snd (run init t)) = from 0 (length (events (snd (run init t)))).
Proof.
  assert (G : numbers (snd (run init t)) = from 0 (length (events (snd (run init t)))) /\ next_id (fst (run init t)) = Z.of_nat (length (events (snd (run init t))))); [|apply G].
  induction t as [|x t [IH IN]] using rev_ind; [now split|]. rewrite out_snoc, run_snoc, step_next. unfold sent. rewrite step_out.
  set (s := fst (run init t)) in *. destruct (serve (fst x) (snd x) (life_of s)) as [[l es] r]. cbn [fst snd].
  destruct (number_events (next_id s) es) as (A & B & C & D). unfold events, numbers in *. rewrite !flat_out, A, C, D, IH, IN.
  assert (Z1 : flat_map (fun o => match o with OEvent n _ => [n] | _ => [] end) match r with None => [] | Some r => [OResponse (as_i32 (m_seq (snd x))) r] end = []) by (destruct r; reflexivity).
  assert (Z2 : flat_map (fun o => match o with OEvent _ e => [e] | _ => [] end) match r with None => [] | Some r => [OResponse (as_i32 (m_seq (snd x))) r] end = []) by (destruct r; reflexivity).
  rewrite Z1, Z2, !app_nil_r, app_length, from_app. split; [rewrite Z.add_0_l; reflexivity|lia].
Qed.
