(** Proofs about the ids of workspaces. *)
From Coq Require Import List NArith Bool Lia.
From Verif Require Import DigModel DigProof PageModel PathModel PathSpec PathProof EntryModel EntryProof WsModel WsSpec.
Import ListNotations.
Local Open Scope nat_scope.

Record good (i : interner) : Prop := {
  g_entry : forall p id, In (p, id) (to_id i) -> nth_error (from_id i) (N.to_nat id) = Some p /\ clean p = p;
  g_len : (N.of_nat (length (from_id i)) <= 65536)%N
}.
Lemma start_good : good start.
Proof. constructor; [intros p id []|cbn; lia]. Qed.
Lemma get_in p i id : get p i = Some id -> In (p, id) (to_id i).
Proof. unfold get. destruct (find _ (to_id i)) as [[q x]|] eqn:E; [|discriminate]. intros H. injection H as <-. apply find_some in E. destruct E as (E1 & E2). apply path_eqb_spec in E2. cbn in E2. subst. auto. Qed.
Lemma step_good r i id i' : path_ok r -> good i -> workspace_id r i = Some (id, i') ->
  good i' /\ path_of id i' = Some (clean r) /\ (id < 65536)%N /\ (forall n p, path_of n i = Some p -> path_of n i' = Some p) /\ get (clean r) i' = Some id.
Proof.
  intros Hr G H. unfold workspace_id in H. destruct (get r i) as [x|] eqn:E.
  - injection H as <- <-. assert (E' := get_in _ _ _ E). destruct (g_entry _ G _ _ E') as (A & B). rewrite B. split; [auto|]. split; [auto|]. split; [|split; [auto|auto]].
    assert (L : N.to_nat x < length (from_id i)) by (apply nth_error_Some; congruence). pose proof (g_len _ G). lia.
  - destruct (N.leb_spec (N.of_nat (length (from_id i))) 65535) as [L|L]; [|discriminate]. injection H as <- <-. split; [|split; [|split; [|split]]].
    + constructor; cbn [to_id from_id].
      * intros p id [Hx|Hx].
        -- injection Hx as <- <-. split; [|apply clean_idem; auto]. rewrite Nnat.Nat2N.id. rewrite nth_error_app2, PeanoNat.Nat.sub_diag by lia. auto.
        -- destruct (g_entry _ G _ _ Hx) as (A & B). split; [|auto]. rewrite nth_error_app1; [auto|]. apply nth_error_Some. congruence.
      * rewrite app_length. cbn. lia.
    + unfold path_of. cbn [from_id]. rewrite Nnat.Nat2N.id, nth_error_app2, PeanoNat.Nat.sub_diag by lia. auto.
    + lia.
    + intros n p Hp. unfold path_of in *. cbn [from_id]. rewrite nth_error_app1; [auto|]. apply nth_error_Some. congruence.
    + unfold get. cbn [to_id find fst]. rewrite path_eqb_refl. auto.
Qed.
Lemma steps_good roots : forall i i', Forall path_ok roots -> good i -> interns roots i = Some i' -> good i' /\ forall n p, path_of n i = Some p -> path_of n i' = Some p.
Proof.
  induction roots as [|r roots IH]; intros i i' F G H; cbn in H; [injection H as <-; auto|]. inversion F as [|x l Hr F']; subst. destruct (workspace_id r i) as [[id j]|] eqn:E; [|discriminate].
  destruct (step_good _ _ _ _ Hr G E) as (G' & _ & _ & K & _). destruct (IH _ _ F' G' H) as (G'' & K'). split; [auto|]. intros n p Hp. auto.
Qed.
Lemma reached_good i : reached i -> good i.
Proof. intros (roots & F & H). eapply steps_good; eauto. apply start_good. Qed.
Lemma interns_app a : forall b i, interns (a ++ b) i = match interns a i with Some j => interns b j | None => None end.
Proof. induction a as [|r a IH]; intros b i; cbn; [auto|]. destruct (workspace_id r i) as [[id j]|]; auto. Qed.
Lemma reached_step i r id i' : reached i -> path_ok r -> workspace_id r i = Some (id, i') -> reached i'.
Proof. intros (roots & F & H) Hr E. exists (roots ++ [r]). split; [apply Forall_app; auto|]. rewrite interns_app, H. cbn. rewrite E. auto. Qed.
Lemma reached_later i j : reached i -> later i j -> reached j.
Proof. intros (a & F & H) (b & F' & H'). exists (a ++ b). split; [apply Forall_app; auto|]. rewrite interns_app, H. auto. Qed.
(** Plain roots keep their ids. *)
Lemma plain_keeps roots : forall i i' p id, Forall plain_root roots -> interns roots i = Some i' -> get p i = Some id -> get p i' = Some id.
Proof.
  induction roots as [|r roots IH]; intros i i' p id F H G; cbn in H; [injection H as <-; auto|]. inversion F as [|x l (Hr & Hc) F']; subst. destruct (workspace_id r i) as [[id' j]|] eqn:E; [|discriminate].
  eapply IH; eauto. unfold workspace_id in E. destruct (get r i) as [y|] eqn:Gr; [injection E as <- <-; auto|]. destruct (N.leb _ 65535); [|discriminate]. injection E as <- <-. unfold get in *. cbn [to_id find fst]. rewrite Hc.
  destruct (path_eqb r p) eqn:Q; [|auto]. apply path_eqb_spec in Q. subst. rewrite G in Gr. discriminate.
Qed.
Lemma name_round id : (id < 65536)%N -> from_package_name (112%N :: print_num 10 id) = Some id.
Proof. intros H. cbn. apply parse_print; lia. Qed.
Lemma text_eqb_refl s : text_eqb s s = true.
Proof. apply text_eqb_spec. auto. Qed.
Lemma resolve_package id v : (id < 65536)%N -> resolve {| pkg := Some (package_of id); vp := v |} = Some (Workspace id).
Proof. intros H. unfold resolve, package_of. cbn [pkg ns name ver]. rewrite text_eqb_refl, name_round by auto. reflexivity. Qed.
Lemma resolve_untitled id v : (id < 65536)%N -> resolve {| pkg := Some (untitled_of id); vp := v |} = Some (Untitled id).
Proof. intros H. unfold resolve, untitled_of. cbn [pkg ns name ver]. rewrite text_eqb_refl, name_round by auto. reflexivity. Qed.
Lemma later_path i j n p : reached i -> later i j -> path_of n i = Some p -> path_of n j = Some p.
Proof. intros R (roots & F & H) Hp. destruct (steps_good _ _ _ F (reached_good _ R) H) as (_ & K). auto. Qed.
Lemma detour_new r i : reached i -> clean r <> r -> get r i = None.
Proof. intros R H. destruct (get r i) as [id|] eqn:E; [|auto]. apply get_in in E. destruct (g_entry _ (reached_good _ R) _ _ E). contradiction. Qed.
Lemma detours r : path_ok r -> clean r <> r -> forall n, (N.of_nat n <= 65536)%N -> exists i, interns (repeat r n) start = Some i /\ length (from_id i) = n /\ reached i.
Proof.
  intros Hr Hc. induction n as [|n IH]; intros Hn.
  - exists start. split; [auto|]. split; [auto|]. exists []. split; [constructor|auto].
  - destruct IH as (i & H & L & R); [lia|]. replace (S n) with (n + 1) by lia. rewrite repeat_app, interns_app, H. cbn [repeat interns]. assert (E : exists id j, workspace_id r i = Some (id, j) /\ length (from_id j) = n + 1).
    { unfold workspace_id. rewrite (detour_new r i R Hc). rewrite L. destruct (N.leb_spec (N.of_nat n) 65535); [|lia]. eexists _, _. split; [reflexivity|]. cbn [from_id]. rewrite app_length. cbn. lia. }
    destruct E as (id & j & E & Lj). rewrite E. exists j. split; [auto|]. split; [auto|]. eapply reached_step; eauto.
Qed.
Lemma vfold_shape s : forall k ns, exists k' ns', fold_left vstep s (rev (map Nor ns) ++ repeat ParC k) = rev (map Nor ns') ++ repeat ParC k'.
Proof.
  induction s as [|c s IH]; intros k ns; [exists k, ns; reflexivity|]. cbn [fold_left]. destruct c as [| | |n]; cbn [vstep]; [apply IH|apply IH| |].
  - destruct ns as [|m ns _] using rev_ind.
    + cbn [map rev app]. destruct k as [|k]; [exact (IH 1 [])|]. exact (IH (S (S k)) []).
    + rewrite map_app, rev_app_distr. cbn [map rev app]. apply IH.
  - specialize (IH k (ns ++ [n])). rewrite map_app, rev_app_distr in IH. exact IH.
Qed.
Lemma vpath_shape s : exists k ns, vpath s = repeat ParC k ++ map Nor ns.
Proof.
  destruct (vfold_shape s 0 []) as (k & ns & E). cbn in E. exists k, ns. unfold vpath. rewrite E, rev_app_distr, rev_involutive. f_equal. clear. induction k as [|k IH]; [auto|]. cbn. rewrite IH. clear. induction k as [|k IH]; [auto|]. cbn. rewrite IH. auto.
Qed.
Lemma vresolve_shape k ns : forall out p, vresolve out (repeat ParC k ++ map Nor ns) = Some p -> p = out ++ map Nor ns.
Proof.
  induction k as [|k IH]; intros out p H; cbn in H; [rewrite vresolve_names in H; congruence|]. destruct (path_eqb (pop out) out); [auto|discriminate].
Qed.
