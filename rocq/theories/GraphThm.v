(** C92, C93: the computations of a world. *)
From Coq Require Import List Arith Bool Lia.
From Verif Require Import GraphModel GraphSpec GraphProof.
Import ListNotations.

(** ** C92: what is computed of a graph is computed once, and is the same for all who ask. *)
Theorem C92_same : forall O es g T v w, In (mkA g T v) (s_answers (run O init es)) -> In (mkA g T w) (s_answers (run O init es)) -> v = w.
Proof. intros O es g T v w A B. pose proof (run_Inv O es) as I. apply (I_ans _ _ I) in A. apply (I_ans _ _ I) in B. exact (done_same _ _ _ _ _ A B). Qed.
Print Assumptions C92_same.

(** Nor does an answer change, or what it is taken from. *)
Theorem C92_kept : forall O es es' a, In a (s_answers (run O init es)) -> done (run O init (es ++ es')) (a_graph a) (a_task a) (a_value a).
Proof.
  intros O es es' a A. pose proof (run_Inv O es) as I. unfold run. rewrite fold_left_app. eapply ext_done; [apply (run_ok O es' (run O init es) I)|]. exact (I_ans _ _ I a A).
Qed.
Print Assumptions C92_kept.

(** A graph forked from one that has an entry has the same result, whenever it is there. *)
Theorem C92_shared : forall O es1 es2 g snap T v w, entry (run O init es1) g T <> None ->
  let g' := length (s_graphs (run O init es1)) in let s := run O init (es1 ++ Fork g snap :: es2) in
  In (mkA g T v) (s_answers s) -> In (mkA g' T w) (s_answers s) -> v = w.
Proof.
  intros O es1 es2 g snap T v w N g' s A B. pose proof (run_Inv O (es1 ++ Fork g snap :: es2)) as I. fold s in I. apply (I_ans _ _ I) in A. apply (I_ans _ _ I) in B. cbn in A, B.
  destruct (entry (run O init es1) g T) as [c|] eqn:E; [|congruence]. pose proof (run_Inv O es1) as I1. set (s1 := step O (run O init es1) (Fork g snap)).
  assert (E1 : entry s1 g T = Some c) by (eapply x_entry; [apply step_ok; exact I1|exact E]).
  assert (E2 : entry s1 g' T = Some c).
  { unfold s1, entry in *. cbn [step]. destruct (nth_error (s_graphs (run O init es1)) g) as [x|] eqn:G; [|discriminate E]. cbn [s_graphs]. rewrite nth_snoc. unfold g'. rewrite Nat.eqb_refl. exact E. }
  assert (X : ext s1 s). { unfold s, run. rewrite fold_left_app. cbn [fold_left]. apply (run_ok O es2 s1). apply step_ok. exact I1. }
  destruct A as (a & A & A'), B as (b & B & B'). apply (x_entry _ _ X) in E1. apply (x_entry _ _ X) in E2. congruence.
Qed.
Print Assumptions C92_shared.

(** Unless a compilation panics, each graph compiles each kind at most once, and graphs that share the entry share the
    compilation. *)
Theorem C92_once : forall O es, forallb (fun e => negb (is_crash e)) es = true ->
  NoDup (map (fun m => (m_graph m, m_kind m)) (s_runs (run O init es))) /\
  forall n n' m m' c, nth_error (s_runs (run O init es)) n = Some m -> nth_error (s_runs (run O init es)) n' = Some m' ->
    entry (run O init es) (m_graph m) (Comp (m_kind m)) = Some c -> entry (run O init es) (m_graph m') (Comp (m_kind m')) = Some c -> n = n'.
Proof.
  intros O es N. split; [exact (proj2 (once O es N))|]. intros n n' m m' c A B E E'. pose proof (run_Inv O es) as I. destruct (I_runs _ _ I _ _ A) as (G1 & _), (I_runs _ _ I _ _ B) as (G2 & _).
  eapply (U_inj O (run O init es)); eauto; [|congruence]. apply U_run; [apply Inv_init|intros [|k] x Q; discriminate Q|exact N].
Qed.
Print Assumptions C92_once.

(** No wait for each other: while a thread is in a computation, some thread can go on, and however they are
    scheduled the steps that change anything are finitely many. *)
Theorem C92_progress : forall O es, ~ quiet (run O init es) -> exists t, step O (run O init es) (Step t) <> run O init es.
Proof.
  intros O es Q. pose proof (run_Inv O es) as I. destruct (some_ready O _ I Q) as (t & R). exists t. intros E. pose proof (ready_weight O _ t I R) as W. cbn [step] in E. rewrite E in W. lia.
Qed.
Print Assumptions C92_progress.
Theorem C92_bounded : forall O es, exists n, forall ts : nat -> nat, exists k, k <= n /\
  let at_ i := run O (run O init es) (map (fun j => Step (ts j)) (seq 0 i)) in at_ (S k) = at_ k.
Proof.
  intros O es. pose proof (run_Inv O es) as I. set (s := run O init es) in *. exists (weight s). intros ts.
  set (at_ := fun i => run O s (map (fun j => Step (ts j)) (seq 0 i))).
  assert (SS : forall i, at_ (S i) = advance O (ts i) (at_ i)). { intros i. unfold at_. rewrite seq_S, map_app. unfold run. rewrite fold_left_app. reflexivity. }
  assert (IA : forall i, Inv O (at_ i)) by (intros i; apply run_ok; exact I).
  assert (D : forall i, (exists k, k <= i /\ at_ (S k) = at_ k) \/ weight (at_ (S i)) + S i <= weight s).
  { induction i as [|i [(k & K1 & K2)|W]].
    - assert (R : ready (at_ 0) (ts 0) \/ at_ 1 = at_ 0).
      { destruct (nth_error (s_threads (at_ 0)) (ts 0)) as [[|f below]|] eqn:E; [right; rewrite SS; unfold advance; rewrite E; reflexivity| |right; rewrite SS; unfold advance; rewrite E; reflexivity].
        destruct (f_pc f) as [|got] eqn:P; [|left; exists f, below; eauto]. destruct (content (at_ 0) (f_cell f)) eqn:C; [left; exists f, below; split; [exact E|right; rewrite C; discriminate]|right; rewrite SS; unfold advance; rewrite E, P, C; reflexivity|left; exists f, below; split; [exact E|right; rewrite C; discriminate]]. }
      destruct R as [R|R]; [right|left; exists 0; auto]. pose proof (ready_weight O _ _ (IA 0) R) as W. rewrite <- SS in W. change (at_ 0) with s in W. lia.
    - left. exists k. auto.
    - assert (R : ready (at_ (S i)) (ts (S i)) \/ at_ (S (S i)) = at_ (S i)).
      { destruct (nth_error (s_threads (at_ (S i))) (ts (S i))) as [[|f below]|] eqn:E; [right; rewrite SS; unfold advance; rewrite E; reflexivity| |right; rewrite SS; unfold advance; rewrite E; reflexivity].
        destruct (f_pc f) as [|got] eqn:P; [|left; exists f, below; eauto]. destruct (content (at_ (S i)) (f_cell f)) eqn:C; [left; exists f, below; split; [exact E|right; rewrite C; discriminate]|right; rewrite SS; unfold advance; rewrite E, P, C; reflexivity|left; exists f, below; split; [exact E|right; rewrite C; discriminate]]. }
      destruct R as [R|R]; [right|left; exists (S i); auto]. pose proof (ready_weight O _ _ (IA (S i)) R) as W2. rewrite <- SS in W2. lia. }
  destruct (D (weight s)) as [(k & K)|W]; [exists k; exact K|lia].
Qed.
Print Assumptions C92_bounded.
Theorem C92_finishes : forall O es, exists steps, forallb is_step steps = true /\ quiet (run O init (es ++ steps)).
Proof.
  intros O es. destruct (finish O _ (run O init es) (run_Inv O es) (le_n _)) as (steps & A & _ & B). exists steps. split; [exact A|]. unfold run. rewrite fold_left_app. exact B.
Qed.
Print Assumptions C92_finishes.
(** Then who asked has an answer, unless a compilation panicked. *)
Theorem C92_answered : forall O es1 es2 g T, is_flag T = false -> g < length (s_graphs (run O init es1)) -> forallb (fun e => negb (is_crash e)) es2 = true ->
  quiet (run O init (es1 ++ Ask g T :: es2)) -> exists v, In (mkA g T v) (s_answers (run O init (es1 ++ Ask g T :: es2))).
Proof. intros O es1 es2 g T. apply all_answered. Qed.
Print Assumptions C92_answered.

Definition O1 : nat -> outcome := fun n => match n with 0 => mkOut (Some 7) [] [3] | _ => mkOut None [5] [4] end.
Definition race : list event := New 0 :: from_graph 0 false ++ [Ask 0 (Doc false)] ++ flat_map (fun _ => [Step 0; Step 1; Step 2]) (seq 0 20).
(** Three threads, two of them for the same document, one for the diagnostics: one compilation. *)
Example C92_nonvacuous : length (s_threads (run O1 init race)) = 3 /\ forallb (fun l => match l with [] => true | _ => false end) (s_threads (run O1 init race)) = true /\ s_runs (run O1 init race) = [mkM 0 false 4] /\
  s_answers (run O1 init race) = [mkA 0 (Doc false) (VDoc (Some 7)); mkA 0 (Doc false) (VDoc (Some 7)); mkA 0 Diag (VDiag (None, Some [3]) (None, None))] /\ forallb (fun e => negb (is_crash e)) race = true.
Proof. vm_compute. repeat (split; [reflexivity|]). reflexivity. Qed.
(** After a panic of the compiler the next one compiles again. *)
Example C92_crash : s_runs (run O1 init (New 0 :: from_graph 0 false ++ [Step 0; Step 0; Step 0; Step 0; Step 0; Crash 0] ++ repeat (Step 1) 20)) = [mkM 0 false 4; mkM 0 false 4].
Proof. reflexivity. Qed.
(** A fork made before the entry is there compiles on its own: the same snapshot is compiled twice. *)
Theorem C92_forked_twice : exists O es, forallb (fun e => negb (is_crash e)) es = true /\ forallb keeps_snap es = true /\ map m_kind (s_runs (run O init es)) = [false; false] /\
  In (mkA 0 (Doc false) (VDoc (Some 7))) (s_answers (run O init es)) /\ In (mkA 1 (Doc false) (VDoc None)) (s_answers (run O init es)).
Proof.
  exists O1, ([New 0; Provide 0 true false; Provide 0 false true; Fork 0 None; Ask 0 (Doc false); Ask 1 (Doc false)] ++ repeat (Step 0) 10 ++ repeat (Step 1) 10). vm_compute. split; [reflexivity|]. split; [reflexivity|]. split; [reflexivity|]. split; [left; reflexivity|right; left; reflexivity].
Qed.
Print Assumptions C92_forked_twice.

(** ** C93: the document and the diagnostics of an artefact belong together. *)
Theorem C93_artifact : forall O es g h v w, always closed_event O init es -> always proper_event O init es ->
  done (run O init es) g (Flag h) (VFlag true) -> done (run O init es) g (Flag (negb h)) (VFlag false) ->
  In (mkA g (Doc h) v) (s_answers (run O init es)) -> In (mkA g Diag w) (s_answers (run O init es)) ->
  exists n m, nth_error (s_runs (run O init es)) n = Some m /\ m_kind m = h /\ entry (run O init es) g (Comp h) = Some (m_cell m) /\ v = VDoc (o_doc (O n)) /\
    let own := (match o_doc (O n) with Some _ => None | None => Some (o_errs (O n)) end, Some (o_warns (O n))) in w = if h then VDiag (None, None) own else VDiag own (None, None).
Proof. exact artifact. Qed.
Print Assumptions C93_artifact.
(** The same without the flags: of one compilation, or of none. *)
Theorem C93_pair : forall O es g h d p q, always closed_event O init es -> In (mkA g (Doc h) (VDoc d)) (s_answers (run O init es)) -> In (mkA g Diag (VDiag p q)) (s_answers (run O init es)) ->
  exists r, d = doc_of O r /\ (if h then q else p) = diags_of O r.
Proof. exact pair. Qed.
Print Assumptions C93_pair.
(** When the flags come first no answer is an error, and no thread panics but in the compiler. *)
Theorem C93_no_error : forall O es, always proper_event O init es ->
  (forall a, In a (s_answers (run O init es)) -> a_value a <> VErr) /\ (forallb (fun e => negb (is_crash e)) es = true -> s_panics (run O init es) = []).
Proof. exact proper_clean. Qed.
Print Assumptions C93_no_error.
(** Nothing is compiled that a flag does not ask for. *)
Theorem C93_asked_for : forall O es m, In m (s_runs (run O init es)) -> done (run O init es) (m_graph m) (Flag (m_kind m)) (VFlag true).
Proof. intros O es m H. apply In_nth_error in H as (n & H). exact (proj2 (I_runs _ _ (run_Inv O es) n m H)). Qed.
Print Assumptions C93_asked_for.
(** The first flag provided stays. *)
Theorem C93_flag_stays : forall O es es' g h b, done (run O init es) g (Flag h) (VFlag b) -> done (run O init (es ++ es')) g (Flag h) (VFlag b).
Proof. intros O es es' g h b D. unfold run. rewrite fold_left_app. eapply ext_done; [|exact D]. apply (run_ok O es' (run O init es) (run_Inv O es)). Qed.
Print Assumptions C93_flag_stays.
(** A graph's compilation is of its own snapshot, unless it was forked with another. *)
Theorem C93_world : forall O es g h n, forallb keeps_snap es = true -> done (run O init es) g (Comp h) (VComp (Some n)) ->
  exists m x y, nth_error (s_runs (run O init es)) n = Some m /\ m_kind m = h /\ nth_error (s_graphs (run O init es)) (m_graph m) = Some x /\ nth_error (s_graphs (run O init es)) g = Some y /\ g_snap x = g_snap y.
Proof. exact world. Qed.
Print Assumptions C93_world.

Definition doneb (s : st) (g : nat) (T : task) : bool := match entry s g T with Some c => match content s c with Full (VFlag _) => true | _ => false end | None => false end.
Lemma doneb_ok s g T : doneb s g T = true -> exists b, done s g T (VFlag b).
Proof. unfold doneb. destruct (entry s g T) as [c|] eqn:E; [|discriminate]. destruct (content s c) as [| |[b| | | |]] eqn:C; try discriminate. intros _. exists b, c. auto. Qed.
Definition properb (s : st) (e : event) : bool :=
  match e with Ask g T => negb (is_flag T) && doneb s g (Flag true) && doneb s g (Flag false) | Get _ _ => false | _ => true end.
Definition closedb (s : st) (e : event) : bool :=
  match e with
  | Fork g _ => forallb (fun T => match entry s g T with Some _ => forallb (fun T' => match entry s g T' with Some _ => true | None => false end) (deps T) | None => true end) [Flag true; Flag false; Comp true; Comp false; Doc true; Doc false; Diag]
  | _ => true end.
Fixpoint alwaysb (P : st -> event -> bool) (O : nat -> outcome) (s : st) (es : list event) : bool := match es with [] => true | e :: r => P s e && alwaysb P O (step O s e) r end.
Lemma alwaysb_ok (P : st -> event -> Prop) Pb O : (forall s e, Pb s e = true -> P s e) -> forall es s, alwaysb Pb O s es = true -> always P O s es.
Proof. intros H. induction es as [|e es IH]; intros s A; [exact I|]. cbn in A. apply andb_true_iff in A as (A1 & A2). split; auto. Qed.
Lemma properb_ok s e : properb s e = true -> proper_event s e.
Proof. destruct e as [snap|g snap|g T|g h b|g T|t|t]; cbn; intros H; try exact I; [discriminate H|]. rewrite !andb_true_iff in H. destruct H as ((A & B) & C). apply negb_true_iff in A. split; [exact A|]. split; apply doneb_ok; assumption. Qed.
Lemma full_done s g T v : match entry s g T with Some c => content s c = Full v | None => False end -> done s g T v.
Proof. destruct (entry s g T) as [c|] eqn:E; [|intros []]. intros F. exists c. auto. Qed.
Lemma closed_flat s g : (forallb (fun T => match entry s g T with Some _ => forallb (fun T' => match entry s g T' with Some _ => true | None => false end) (deps T) | None => true end) [Flag true; Flag false; Comp true; Comp false; Doc true; Doc false; Diag] = true) ->
  forall T, entry s g T <> None -> forall T', In T' (deps T) -> entry s g T' <> None.
Proof.
  intros H T N T' D. rewrite forallb_forall in H. assert (A : In T [Flag true; Flag false; Comp true; Comp false; Doc true; Doc false; Diag]) by (destruct T as [[|]|[|]|[|]|]; cbn; auto 10). specialize (H T A). destruct (entry s g T); [|congruence]. rewrite forallb_forall in H. specialize (H T' D). destruct (entry s g T'); [discriminate|discriminate H].
Qed.
Lemma closedb_ok s e : closedb s e = true -> closed_event s e.
Proof. destruct e as [snap|g snap|g T|g h b|g T|t|t]; cbn [closedb closed_event]; intros H; try exact I. apply closed_flat. exact H. Qed.
(** An artefact of a graph, its fork, which is asked the same, and another graph for the other kind. *)
Definition used : list event := New 0 :: from_graph 0 false ++ repeat (Step 0) 12 ++ repeat (Step 1) 12 ++ [Fork 0 None] ++ from_graph 1 false ++ repeat (Step 2) 3 ++ repeat (Step 3) 3 ++ [New 1] ++ from_graph 2 true ++ repeat (Step 4) 12 ++ repeat (Step 5) 12.
Example C93_nonvacuous : always closed_event O1 init used /\ always proper_event O1 init used /\ forallb keeps_snap used = true /\ done (run O1 init used) 1 (Flag false) (VFlag true) /\ done (run O1 init used) 1 (Flag true) (VFlag false) /\
  s_runs (run O1 init used) = [mkM 0 false 4; mkM 2 true 10] /\
  s_answers (run O1 init used) = [mkA 0 (Doc false) (VDoc (Some 7)); mkA 0 Diag (VDiag (None, Some [3]) (None, None)); mkA 1 (Doc false) (VDoc (Some 7)); mkA 1 Diag (VDiag (None, Some [3]) (None, None));
    mkA 2 (Doc true) (VDoc None); mkA 2 Diag (VDiag (None, None) (Some [5], Some [4]))].
Proof.
  split; [apply (alwaysb_ok _ closedb _ closedb_ok); vm_compute; reflexivity|].
  split; [apply (alwaysb_ok _ properb _ properb_ok); vm_compute; reflexivity|].
  split; [reflexivity|]. split; [apply full_done; vm_compute; reflexivity|]. split; [apply full_done; vm_compute; reflexivity|]. vm_compute. split; reflexivity.
Qed.
(** Asked before the flags are there, the error is kept: later flags do not help. *)
Theorem C93_early : exists O es, In (mkA 0 (Doc false) VErr) (s_answers (run O init es)) /\ done (run O init es) 0 (Flag false) (VFlag true) /\ (forall es', done (run O init (es ++ es')) 0 (Doc false) VErr).
Proof.
  exists O1, ([New 0; Ask 0 (Doc false)] ++ repeat (Step 0) 12 ++ [Provide 0 false true; Ask 0 (Doc false); Step 1]). split; [vm_compute; left; reflexivity|]. split; [apply full_done; vm_compute; reflexivity|].
  intros es'. apply (C92_kept O1 _ es' (mkA 0 (Doc false) VErr)). vm_compute. left. reflexivity.
Qed.
Print Assumptions C93_early.
(** Forked while its document is being computed, a graph takes its document from one compilation and its diagnostics
    from another. *)
Theorem C93_torn : exists O es, always proper_event O init es /\ forallb (fun e => negb (is_crash e)) es = true /\ In (mkA 1 (Doc false) (VDoc (Some 7))) (s_answers (run O init es)) /\
  In (mkA 1 Diag (VDiag (Some [5], Some [4]) (None, None))) (s_answers (run O init es)).
Proof.
  exists O1, ([New 0; Provide 0 true false; Provide 0 false true; Ask 0 (Doc false); Fork 0 None; Ask 1 (Doc false); Ask 1 Diag] ++ repeat (Step 0) 12 ++ repeat (Step 1) 12 ++ repeat (Step 2) 12).
  split; [apply (alwaysb_ok _ properb _ properb_ok); vm_compute; reflexivity|]. split; [reflexivity|]. vm_compute. split; [right; left; reflexivity|right; right; left; reflexivity].
Qed.
Print Assumptions C93_torn.
