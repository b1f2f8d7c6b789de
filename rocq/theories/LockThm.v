(** Theorems about the lock file and the routes: C26, C27, C28 (lock part), C70, C71. *)
From Coq Require Import List Arith Bool Permutation.
From Verif Require Import AssocModel AssocProof LockModel LockSpec LockProof.
Import ListNotations.

(** C26: the three upserts, on lock files without duplicate identities. *)
Theorem C26_upserts_partial : forall l, well_formed l ->
  (forall d, upserted o_id d (l_docs l) (l_docs (replace_document d l)) /\
     l_tasks (replace_document d l) = l_tasks l /\ l_routes (replace_document d l) = l_routes l /\
     replace_document d (replace_document d l) = replace_document d l) /\
  (forall t, upserted t_id t (l_tasks l) (l_tasks (replace_task t l)) /\
     l_docs (replace_task t l) = l_docs l /\ l_routes (replace_task t l) = l_routes l /\
     replace_task t (replace_task t l) = replace_task t l) /\
  (forall r, upserted r_id r (l_routes l) (l_routes (replace_route r l)) /\
     l_docs (replace_route r l) = l_docs l /\ l_tasks (replace_route r l) = l_tasks l /\
     replace_route r (replace_route r l) = replace_route r l).
Proof.
  intros l [W1 W2]. split; [|split]; intros x; split.
  - now apply document_upserted.
  - cbn. repeat split. unfold replace_document. cbn. now rewrite put_put.
  - now apply task_upserted.
  - cbn. repeat split. unfold replace_task. cbn. now rewrite put_put.
  - apply route_upserted.
  - repeat split. apply route_twice.
Qed.
Print Assumptions C26_upserts_partial.
(** C26: routes need no hypothesis. *)
Theorem C26_routes : forall r l, upserted r_id r (l_routes l) (l_routes (replace_route r l)) /\ replace_route r (replace_route r l) = replace_route r l.
Proof. intros r l. split; [apply route_upserted|apply route_twice]. Qed.
Print Assumptions C26_routes.
(** C26: an identity that occurs twice in the file keeps its second entry. *)
Theorem C26_duplicates_refuted : exists l d t, parse (serialize l) = Some l /\
  ~ upserted o_id d (l_docs l) (l_docs (replace_document d l)) /\ ~ upserted t_id t (l_tasks l) (l_tasks (replace_task t l)).
Proof.
  exists (mkLock [mkDoc 1 10; mkDoc 1 11] [mkTask 2 1 20 []; mkTask 2 1 21 []] []), (mkDoc 1 12), (mkTask 2 1 22 []).
  split; [reflexivity|]. split; intros [H _]; discriminate H.
Qed.
Print Assumptions C26_duplicates_refuted.
(** C26: the same for whole updates of the file: what is read back afterwards. *)
Theorem C26_file_update : forall u old l new, contents old = Some l -> well_formed l -> update_text (commit [u]) old = Some new ->
  (exists l', contents new = Some l' /\ parse new = Some l' /\ well_formed l' /\
    match u with
    | UInput d => upserted_any_order o_id d (l_docs l) (l_docs l') /\ Permutation (l_tasks l') (l_tasks l) /\ l_routes l' = l_routes l
    | UTask t => upserted_any_order t_id t (l_tasks l) (l_tasks l') /\ Permutation (l_docs l') (l_docs l) /\ l_routes l' = l_routes l
    | URoute r => upserted r_id r (l_routes l) (l_routes l') /\ Permutation (l_docs l') (l_docs l) /\ Permutation (l_tasks l') (l_tasks l)
    | UMaterial => same_lock l' l
    end) /\
  update_text (commit [u]) new = Some new.
Proof.
  intros u old l new C W U. split; [|exact (update_again u old l new C W U)].
  rewrite (update_text_spec _ _ _ C) in U. cbn [commit fold_left option_map] in U. injection U as <-.
  exists (sort (apply_update l u)). split; [apply contents_serialize|]. split; [apply parse_serialize|]. destruct W as [W1 W2].
  destruct u as [d|t| |r]; cbn.
  - split.
    + split; cbn; [|eapply unique_perm; [apply Permutation_sym, isort_perm|exact W2]].
      eapply unique_perm; [apply Permutation_sym, isort_perm|now apply put_unique].
    + split; [|split; [apply isort_perm|reflexivity]]. eapply upserted_perm; [apply (document_upserted d l W1)|apply isort_perm].
  - split.
    + split; cbn; [eapply unique_perm; [apply Permutation_sym, isort_perm|exact W1]|].
      eapply unique_perm; [apply Permutation_sym, isort_perm|now apply put_unique].
    + split; [|split; [apply isort_perm|reflexivity]]. eapply upserted_perm; [apply (task_upserted t l W2)|apply isort_perm].
  - split; [split; cbn; (eapply unique_perm; [apply Permutation_sym, isort_perm|assumption])|]. apply sort_same.
  - split; [split; cbn; (eapply unique_perm; [apply Permutation_sym, isort_perm|assumption])|].
    split; [apply (route_upserted r l)|]. split; apply isort_perm.
Qed.
Print Assumptions C26_file_update.
(** C26: what is written is read back. *)
Theorem C26_round_trip : forall l, parse (serialize l) = Some l.
Proof. exact parse_serialize. Qed.
Print Assumptions C26_round_trip.
Example C26_nonvacuous :
  let l := mkLock [mkDoc 1 10; mkDoc 2 11] [mkTask 1 2 5 [(7, 8)]; mkTask 2 1 6 []] [mkRoute 1 3] in
  well_formed l /\ contents (serialize l) = Some l /\
  update_text (commit [UInput (mkDoc 1 99)]) (serialize l) =
    Some (serialize (mkLock [mkDoc 1 99; mkDoc 2 11] [mkTask 2 1 6 []; mkTask 1 2 5 [(7, 8)]] [mkRoute 1 3])).
Proof.
  cbn. split; [split; repeat constructor; cbn; intuition discriminate|]. split; reflexivity.
Qed.

(** C27: the last route that covers a file wins, whatever its priority. *)
Theorem C27_last_route_wins : forall rs mats leaf,
  (forall i, aget leaf (calculate_routes rs mats) = Some i -> chosen rs mats leaf i) /\
  (aget leaf (calculate_routes rs mats) = None <-> forall r, In r rs -> ~ covers_file mats leaf r).
Proof. intros rs mats leaf. split; [intros i; apply calc_chosen|apply calc_none]. Qed.
Print Assumptions C27_last_route_wins.
(** C27: this is the best one when the list happens to be ordered by priority. *)
Theorem C27_priority_partial : forall rs mats leaf i, improving rs -> NoDup (map r_id rs) ->
  aget leaf (calculate_routes rs mats) = Some i -> best rs mats leaf i.
Proof. intros rs mats leaf i H N E. exact (chosen_best rs mats leaf i H N (calc_chosen _ _ _ _ E)). Qed.
Print Assumptions C27_priority_partial.
Example C27_nonvacuous :
  let rs := [mkRoute 1 9; mkRoute 2 9; mkRoute 3 2] in let mats := [(1, [5; 6]); (2, [6]); (3, [6; 7])] in
  improving rs /\ NoDup (map r_id rs) /\ map (fun f => aget f (calculate_routes rs mats)) [5; 6; 7; 8] = [Some 1; Some 3; Some 3; None].
Proof.
  cbn. split; [repeat split; cbn; intros r' H; intuition (subst; cbn; auto 10 with arith)|]. split; [repeat constructor; cbn; intuition discriminate|reflexivity].
Qed.
(** C27: the priorities are not looked at. *)
Theorem C27_priority_refuted : exists rs mats leaf i, NoDup (map r_id rs) /\
  aget leaf (calculate_routes rs mats) = Some i /\ ~ best rs mats leaf i.
Proof.
  exists [mkRoute 1 0; mkRoute 2 256], [(1, [5]); (2, [5])], 5, 2. split; [repeat constructor; cbn; intuition discriminate|].
  split; [reflexivity|]. intros (r & [<-|[<-|[]]] & E & _ & H); [discriminate|].
  specialize (H (mkRoute 1 0) (or_introl eq_refl)). cbn in H.
  assert (X : 256 <= 0) by (apply H; exists [5]; split; cbn; auto). inversion X.
Qed.
Print Assumptions C27_priority_refuted.

(** C70: updates and reads of the lock file by any number of processes are serial, as
    long as no process dies while it writes. *)
Theorem C70_serial : forall c es s os, frun (fresh_fs c) es = (s, os) -> kills_outside_writes (fresh_fs c) es ->
  let c0 := match c with Some x => x | None => [] end in
  serial c0 os /\ ((forall i, ~ writing s i) -> file_contents s = last_contents c0 os).
Proof.
  intros c es s os R K c0. destruct (frun_ok es c0 _ s os (FI0 c) K R) as [A B]. split; [exact A|]. intros N.
  destruct (z_ex s) as [i|] eqn:X; [|now apply (fi_none _ _ B)].
  destruct (fi_some _ _ B i X) as (f & [[_ Y]|(rest & Y & _)]); auto. exfalso. apply (N i). exists f, (last_contents c0 os), rest. exact Y.
Qed.
Print Assumptions C70_serial.
(** C70: one process at a time is inside an update, and readers are not inside at the same time. *)
Theorem C70_exclusive : forall c es s os i j f p q, frun (fresh_fs c) es = (s, os) -> kills_outside_writes (fresh_fs c) es ->
  let inside p := p <> Fresh /\ p <> Opened in
  aget i (z_procs s) = Some (Updater f, p) -> inside p -> aget j (z_procs s) = Some q -> inside (snd q) -> i = j.
Proof.
  intros c es s os i j f p [g q] R K inside G [I1 I2] G2 [J1 J2]. cbn in *.
  destruct (frun_ok es _ _ s os (FI0 c) K R) as [_ [A B C D E]].
  assert (X : z_ex s = Some i).
  { destruct (z_ex s) as [k|] eqn:X; [|destruct (A i f p G); congruence].
    destruct (Nat.eq_dec k i) as [->|N]; auto. destruct (A i f p G); congruence. }
  destruct (Nat.eq_dec j i) as [->|N]; auto. destruct g as [g|].
  - destruct (A j g q G2); congruence.
  - destruct (B j q G2) as [Y|[Y|[_ Y]]]; try contradiction. rewrite C in Y by congruence. destruct Y.
Qed.
Print Assumptions C70_exclusive.
Definition add_doc (k : nat) : lock -> option lock := commit [UInput (mkDoc k k)].
Example C70_nonvacuous :
  let es := [EStart 1 (Updater (add_doc 1)); EStart 2 (Updater (add_doc 2)); EStart 3 Reader; EOpen 1; EOpen 2; EOpen 3;
             ELock 1; ELock 2; ELock 3; ERead 1; EWrite 1 2; ELock 3; EWrite 1 100; ELock 2; EKill 3; ERead 2; EWrite 2 100] in
  kills_outside_writes (fresh_fs None) es /\
  option_map l_docs (contents (file_contents (fst (frun (fresh_fs None) es)))) = Some [mkDoc 1 1; mkDoc 2 2].
Proof.
  intros es. split; [|vm_compute; reflexivity]. unfold es. cbn [kills_outside_writes].
  repeat (split; [try exact I|]); try exact I. intros (f & old & rest & H). vm_compute in H. discriminate.
Qed.
(** C28, the lock file: a process that dies while it writes leaves a file that is neither
    the old nor the new one, and the next update starts from an empty lock. *)
Theorem C28_lock_refuted : exists l es s os,
  frun (fresh_fs (Some (serialize l))) es = (s, os) /\
  file_contents s = [] /\ file_contents s <> serialize l /\
  update_text (add_doc 3) (serialize l) = Some (serialize (mkLock [mkDoc 1 10; mkDoc 2 20; mkDoc 3 3] [] [])) /\
  (exists s2, frun s [EStart 2 (Updater (add_doc 3)); EOpen 2; ELock 2; ERead 2; EWrite 2 100] =
    (s2, [FUpdated 2 (add_doc 3) [] (serialize (mkLock [mkDoc 3 3] [] []))])).
Proof.
  exists (mkLock [mkDoc 1 10; mkDoc 2 20] [] []), [EStart 1 (Updater (add_doc 3)); EOpen 1; ELock 1; ERead 1; EKill 1].
  do 2 eexists. split; [vm_compute; reflexivity|]. split; [reflexivity|]. split; [discriminate|]. split; [reflexivity|].
  eexists. vm_compute. reflexivity.
Qed.
Print Assumptions C28_lock_refuted.
(** C28: part of the file may also be left, which no later call can read. *)
Theorem C28_lock_torn_refuted : exists l es s os, frun (fresh_fs (Some (serialize l))) es = (s, os) /\
  file_contents s <> [] /\ contents (file_contents s) = None /\
  forall f, update_text f (file_contents s) = None.
Proof.
  exists (mkLock [mkDoc 1 10] [] []), [EStart 1 (Updater (add_doc 3)); EOpen 1; ELock 1; ERead 1; EWrite 1 4; EKill 1].
  do 2 eexists. split; [vm_compute; reflexivity|]. split; [discriminate|]. split; [reflexivity|]. intros f. reflexivity.
Qed.
Print Assumptions C28_lock_torn_refuted.

(** C71: every answer is the route of the nearest directory that has one for the file,
    and the answer can be looked up. *)
Theorem C71_nearest_partial : forall d es, answers_nearest (d, []) es.
Proof. intros d es. apply rrun_nearest. intros dir p H. discriminate. Qed.
Print Assumptions C71_nearest_partial.
Theorem C71_answer_loaded : forall d es dirs leaf dir i,
  let s := fst (rrun (d, []) es) in let '(st, o) := resolve (fst s) (snd s) dirs leaf in
  o = Some (dir, i) -> exists p, aget dir st = Some p /\ located_document st (dir, i) = get_document i (q_lock p) /\
    chosen (l_routes (q_lock p)) (q_mats p) leaf i.
Proof.
  intros d es dirs leaf dir i s. destruct (resolve (fst s) (snd s) dirs leaf) as [st o] eqn:Q. intros ->.
  assert (C : coherent (snd s)).
  { unfold s. assert (X : forall es s0, coherent (snd s0) -> coherent (snd (fst (rrun s0 es)))).
    { induction es0 as [|e es0 IH]; intros s0 H; cbn; auto. pose proof (rstep_coherent s0 e H) as H1.
      destruct (rstep s0 e) as [s1 o1]. specialize (IH s1 H1). destruct (rrun s1 es0) as [s2 o2]. exact IH. }
    apply X. intros a b H. discriminate. }
  destruct (resolve_ok _ _ _ _ _ _ C Q) as (_ & C2 & H). destruct (H dir i eq_refl) as (p & P1 & P2). exists p. split; auto.
  unfold located_document. cbn. rewrite P1. split; auto. apply calc_chosen. now rewrite <- (C2 _ _ P1).
Qed.
Print Assumptions C71_answer_loaded.
Example C71_nonvacuous :
  let l1 := mkLock [mkDoc 1 10] [] [mkRoute 1 0] in let l2 := mkLock [mkDoc 2 20] [] [mkRoute 2 0] in
  let d := mkDisk (fun k => match k with 1 => Some l1 | 2 => Some l2 | _ => None end)
                  (fun k => match k with 1 => [(1, [5])] | 2 => [(2, [5; 6])] | _ => [] end) in
  snd (rrun (d, []) [RResolve [0; 1; 2] 5; RResolve [0; 1; 2] 6; RResolve [0; 1; 2] 7]) = [Some (1, 1); Some (2, 2); None].
Proof. reflexivity. Qed.
(** C71: a change of the lock file on disk is not seen once a directory was used: the
    server never calls [update_lock] nor [update_existing_material]. *)
Theorem C71_stale_refuted : exists d1 d2 dirs leaf,
  snd (rrun (d1, []) [RResolve dirs leaf; RDisk d2; RResolve dirs leaf]) = [Some (1, 1); Some (1, 1)] /\
  snd (rrun (d2, []) [RResolve dirs leaf]) = [Some (1, 2)].
Proof.
  exists (mkDisk (fun _ => Some (mkLock [mkDoc 1 10] [] [mkRoute 1 0])) (fun _ => [(1, [5]); (2, [5])])),
         (mkDisk (fun _ => Some (mkLock [mkDoc 2 10] [] [mkRoute 2 0])) (fun _ => [(1, [5]); (2, [5])])), [1], 5.
  split; reflexivity.
Qed.
Print Assumptions C71_stale_refuted.
