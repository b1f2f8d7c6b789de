From Coq Require Import List Arith Bool Lia Sorted.
From Verif Require Import CallModel CallSpec.
Import ListNotations.

(** * Sorted fields *)

Definition le_fst (a b : nat * nat) : Prop := fst a <= fst b.

Lemma ins_in : forall f l x, In x (ins f l) <-> x = f \/ In x l.
Proof.
  induction l as [|g l IH]; intros x; cbn.
  - split; intros [H|H]; auto.
  - destruct (fst f <=? fst g); cbn.
    + split; intros [H|H]; auto.
    + rewrite IH. split; intros H; tauto.
Qed.

Lemma ins_sorted : forall f l, StronglySorted le_fst l -> StronglySorted le_fst (ins f l).
Proof.
  induction l as [|g l IH]; intros H; cbn.
  - repeat constructor.
  - inversion H; subst. destruct (Nat.leb_spec (fst f) (fst g)).
    + constructor; auto. constructor; auto.
      eapply Forall_impl; [|exact H3]. intros a Ha. unfold le_fst in *. lia.
    + constructor; auto. apply Forall_forall. intros x Hx. apply ins_in in Hx.
      destruct Hx as [->|Hx]; [unfold le_fst; lia|].
      rewrite Forall_forall in H3. auto.
Qed.

Lemma shape_in : forall l x, In x (shape_fields l) <-> In x l.
Proof.
  induction l as [|g l IH]; intros x; cbn; [tauto|].
  rewrite ins_in, IH. split; intros [H|H]; auto.
Qed.

Lemma shape_sorted : forall l, StronglySorted le_fst (shape_fields l).
Proof. induction l; cbn; [constructor|]. apply ins_sorted; auto. Qed.

Lemma ins_length : forall f l, length (ins f l) = S (length l).
Proof. induction l as [|g l IH]; cbn; [auto|]. destruct (fst f <=? fst g); cbn; auto. Qed.

Lemma shape_length : forall l, length (shape_fields l) = length l.
Proof. induction l; cbn; [auto|]. rewrite ins_length; auto. Qed.

Lemma map_sorted : forall l, StronglySorted le_fst l -> StronglySorted le (map fst l).
Proof.
  induction 1; cbn; constructor; auto.
  apply Forall_forall. intros x Hx. apply in_map_iff in Hx. destruct Hx as (y & <- & Hy).
  rewrite Forall_forall in H0. apply H0; auto.
Qed.

Lemma sorted_nth : forall l, StronglySorted le l -> forall i j x y, i <= j ->
  nth_error l i = Some x -> nth_error l j = Some y -> x <= y.
Proof.
  induction 1 as [|a l H IH HF]; intros i j x y L Hi Hj.
  - destruct i; discriminate.
  - destruct i, j; cbn in *.
    + inversion Hi; inversion Hj; lia.
    + inversion Hi; subst. rewrite Forall_forall in HF. apply HF. eapply nth_error_In; eauto.
    + lia.
    + eapply (IH i j); eauto; lia.
Qed.

(** * The search *)

Lemma bsearch_sound : forall fuel l x lo n i, bsearch fuel l x lo n = Some i -> nth_error l i = Some x.
Proof.
  induction fuel as [|fuel IH]; intros l x lo n i H; cbn [bsearch] in H; [discriminate|].
  destruct (n =? 0); [discriminate|].
  destruct (nth_error l (lo + n / 2)) as [y|] eqn:E; [|discriminate].
  destruct (Nat.eqb_spec y x).
  - inversion H; subst. auto.
  - destruct (y <? x); eauto.
Qed.

Lemma bsearch_complete : forall fuel l x lo n, StronglySorted le l -> n < fuel -> lo + n <= length l ->
  (exists i, lo <= i < lo + n /\ nth_error l i = Some x) -> bsearch fuel l x lo n <> None.
Proof.
  induction fuel as [|fuel IH]; intros l x lo n HS HF HL (i & Hi & Hx); [lia|].
  cbn [bsearch]. destruct (Nat.eqb_spec n 0); [lia|].
  assert (Hd : n / 2 < n) by (apply Nat.div_lt; lia).
  destruct (nth_error l (lo + n / 2)) as [y|] eqn:E.
  2:{ apply nth_error_None in E. lia. }
  destruct (Nat.eqb_spec y x); [discriminate|].
  destruct (Nat.ltb_spec y x).
  - apply IH; auto; try lia. exists i. split; auto.
    assert (lo + n / 2 < i); [|lia].
    destruct (Nat.lt_ge_cases (lo + n / 2) i); auto.
    pose proof (sorted_nth l HS i (lo + n / 2) x y H0 Hx E). lia.
  - apply IH; auto; try lia. exists i. split; auto.
    assert (i < lo + n / 2); [|lia].
    destruct (Nat.lt_ge_cases i (lo + n / 2)); auto.
    pose proof (sorted_nth l HS (lo + n / 2) i y x H0 E Hx). lia.
Qed.

Lemma find_sound : forall l x i, bone_find l x = Some i -> nth_error l i = Some x.
Proof. intros l x i H. eapply bsearch_sound; eauto. Qed.

Lemma bone_none : forall l x, StronglySorted le l -> bone_find l x = None -> ~ In x l.
Proof.
  intros l x HS H HI. apply In_nth_error in HI. destruct HI as (i & Hi).
  apply (bsearch_complete (S (length l)) l x 0 (length l)); auto.
  exists i. split; auto. assert (i < length l) by (apply nth_error_Some; congruence). lia.
Qed.

(** * Function types *)

Lemma new_inputs : forall pos named rest,
  s_inputs (sig_new pos named rest) = pos ++ map snd (shape_fields named) ++ opt_list rest.
Proof. intros pos named [r|]; reflexivity. Qed.

Lemma new_start : forall pos named rest, s_start (sig_new pos named rest) = length pos.
Proof.
  intros pos named rest. unfold sig_new; cbn. destruct rest; rewrite !app_length, map_length; cbn; lia.
Qed.

Lemma new_names : forall pos named rest, s_names (sig_new pos named rest) = map fst (shape_fields named).
Proof. reflexivity. Qed.

Lemma new_positional : forall pos named rest, positional_params (sig_new pos named rest) = pos.
Proof.
  intros. unfold positional_params. rewrite new_start, new_inputs.
  rewrite firstn_app, Nat.sub_diag, firstn_all, app_nil_r. auto.
Qed.

Lemma last_of_snoc : forall A (l : list A) x, last_of (l ++ [x]) = Some x.
Proof.
  intros. unfold last_of. rewrite app_length; cbn. replace (length l + 1 - 1) with (length l) by lia.
  rewrite nth_error_app2, Nat.sub_diag; auto.
Qed.

Lemma new_rest : forall pos named rest, rest_param (sig_new pos named rest) = rest.
Proof.
  intros pos named [r|]; [|reflexivity].
  unfold rest_param. cbn [s_right sig_new]. rewrite new_inputs. cbn [opt_list].
  rewrite app_assoc. apply last_of_snoc.
Qed.

Lemma names_sorted : forall pos named rest, StronglySorted le (s_names (sig_new pos named rest)).
Proof. intros. rewrite new_names. apply map_sorted, shape_sorted. Qed.

(** * Primary signatures *)

Definition gathered (ps : list pty) : acc := fold_left add_param ps acc0.

Definition named_specs (a : acc) : list pty :=
  flat_map (fun x => opt_list (spec_of (a_named a) x))
    (map fst (shape_fields (map (fun p => (p_name p, p_ty p)) (a_named a)))).

Lemma spec_some : forall l x, In x (map p_name l) -> exists p, spec_of l x = Some p.
Proof.
  intros l x H. unfold spec_of. destruct (find _ (rev l)) as [p|] eqn:E; eauto.
  exfalso. apply in_map_iff in H. destruct H as (p & <- & Hp).
  apply find_none with (x := p) in E; [|apply -> in_rev; auto].
  rewrite Nat.eqb_refl in E. discriminate.
Qed.

Lemma spec_name : forall l x p, spec_of l x = Some p -> p_name p = x /\ In p l.
Proof.
  intros l x p H. unfold spec_of in H. apply find_some in H. destruct H as (H & E).
  apply Nat.eqb_eq in E. split; auto. apply in_rev; auto.
Qed.

Lemma flat_opt_nth : forall (L : list pty) ns, (forall x, In x ns -> exists p, spec_of L x = Some p) ->
  length (flat_map (fun x => opt_list (spec_of L x)) ns) = length ns /\
  forall i, nth_error (flat_map (fun x => opt_list (spec_of L x)) ns) i
            = match nth_error ns i with Some x => spec_of L x | None => None end.
Proof.
  induction ns as [|x ns IH]; intros H; cbn.
  - split; auto. intros [|i]; auto.
  - destruct (H x) as (p & Hp); [left; auto|]. rewrite Hp. cbn.
    destruct IH as (IL & IN). { intros y Hy; apply H; right; auto. }
    split; [lia|]. intros [|i]; cbn; auto.
Qed.

Lemma named_in : forall a x,
  In x (map fst (shape_fields (map (fun p => (p_name p, p_ty p)) (a_named a)))) <-> In x (map p_name (a_named a)).
Proof.
  intros a x. rewrite !in_map_iff. split.
  - intros (f & <- & Hf). apply (proj1 (shape_in _ _)) in Hf. apply in_map_iff in Hf. destruct Hf as (p & <- & Hp). exists p; auto.
  - intros (p & <- & Hp). exists (p_name p, p_ty p). split; auto. apply (proj2 (shape_in _ _)). apply in_map_iff. exists p; auto.
Qed.

Section Primary.
  Variable ps : list pty.
  Notation a := (gathered ps).
  Notation g := (primary ps).

  Lemma prim_specs : g_specs g = a_pos a ++ named_specs a ++ opt_list (a_rest a).
  Proof. reflexivity. Qed.

  Lemma prim_names : s_names (g_ty g) = map fst (shape_fields (map (fun p => (p_name p, p_ty p)) (a_named a))).
  Proof. reflexivity. Qed.

  Lemma prim_size : pos_size g = length (a_pos a).
  Proof. unfold pos_size, primary; cbn [g_ty]. rewrite new_start, map_length. auto. Qed.

  Lemma prim_right : s_right (g_ty g) = match a_rest a with Some _ => true | None => false end.
  Proof. cbn. fold (gathered ps). destruct (a_rest a); reflexivity. Qed.

  Lemma named_len : length (named_specs a) = length (s_names (g_ty g)).
  Proof.
    rewrite prim_names. apply flat_opt_nth. intros x Hx. apply spec_some. apply named_in; auto.
  Qed.

  Lemma prim_pos : sig_pos g = Some (a_pos a).
  Proof.
    unfold sig_pos, slice. rewrite prim_size, prim_specs. rewrite Nat.sub_0_r.
    rewrite app_length. cbn [Nat.leb andb skipn].
    destruct (Nat.leb_spec (length (a_pos a)) (length (a_pos a) + length (named_specs a ++ opt_list (a_rest a)))); [|lia].
    rewrite firstn_app, Nat.sub_diag, firstn_all, app_nil_r. auto.
  Qed.

  Lemma prim_named : sig_named g = Some (named_specs a).
  Proof.
    unfold sig_named, slice. rewrite prim_size, prim_specs, <- named_len.
    rewrite !app_length.
    destruct (Nat.leb_spec (length (a_pos a)) (length (a_pos a) + length (named_specs a))); [|lia].
    destruct (Nat.leb_spec (length (a_pos a) + length (named_specs a))
                           (length (a_pos a) + (length (named_specs a) + length (opt_list (a_rest a))))); [|lia].
    cbn [andb]. rewrite skipn_app, Nat.sub_diag, skipn_all. cbn [app skipn].
    replace (length (a_pos a) + length (named_specs a) - length (a_pos a)) with (length (named_specs a)) by lia.
    rewrite firstn_app, Nat.sub_diag, firstn_all, app_nil_r. auto.
  Qed.

  Lemma prim_rest : sig_rest g = Some (a_rest a).
  Proof.
    unfold sig_rest. rewrite prim_right. destruct (a_rest a) as [r|] eqn:E; auto.
    rewrite prim_size, prim_specs, <- named_len, E.
    rewrite nth_error_app2 by lia.
    replace (length (a_pos a) + length (named_specs a) - length (a_pos a)) with (length (named_specs a)) by lia.
    rewrite nth_error_app2, Nat.sub_diag by lia. reflexivity.
  Qed.

  Lemma prim_get_pos : forall i, get_pos g i = Some (nth_error (a_pos a) i).
  Proof. intros i. unfold get_pos. rewrite prim_pos. reflexivity. Qed.

  Lemma prim_get_named : forall x, exists r, get_named g x = Some r /\
    (forall p, r = Some p -> p_name p = x /\ In p (a_named a)) /\
    (In x (map p_name (a_named a)) -> r <> None).
  Proof.
    intros x. unfold get_named. rewrite prim_named. eexists. split; [reflexivity|].
    destruct (flat_opt_nth (a_named a) (s_names (g_ty g))) as (HL & HN).
    { intros y Hy. apply spec_some. rewrite prim_names in Hy. apply named_in; auto. }
    destruct (bone_find (s_names (g_ty g)) x) as [i|] eqn:E.
    - apply find_sound in E.
      assert (HE : nth_error (named_specs a) i = spec_of (a_named a) x).
      { unfold named_specs. rewrite <- prim_names. rewrite HN, E. auto. }
      rewrite HE. split.
      + intros p Hp. apply spec_name; auto.
      + intros HI. destruct (spec_some _ _ HI) as (p & ->). discriminate.
    - split; [discriminate|]. intros HI. exfalso.
      apply bone_none in E; [|apply names_sorted].
      apply E. rewrite prim_names. apply named_in; auto.
  Qed.

  (** The state of the walk after [n] positional arguments. *)
  Definition st_at (n : nat) : pstate := if n <? length (a_pos a) then Pos n else after_pos g.

  (** The parameter of the positional argument number [n]. *)
  Definition param_at (n : nat) : option (pkind * pty) :=
    match nth_error (a_pos a) n with
    | Some p => Some (Positional, p)
    | None => option_map (fun p => (Rest, p)) (a_rest a)
    end.

  Lemma adv_init : advance g Init = Some (st_at 0, None).
  Proof.
    unfold advance, st_at. rewrite prim_pos. destruct (a_pos a); reflexivity.
  Qed.

  Lemma adv : forall n, advance g (st_at n) = Some (st_at (S n), param_at n).
  Proof.
    intros n. unfold st_at at 1. destruct (Nat.ltb_spec n (length (a_pos a))).
    - unfold advance. rewrite prim_get_pos. unfold param_at.
      destruct (nth_error (a_pos a) n) eqn:E.
      2:{ apply nth_error_None in E; lia. }
      rewrite prim_size. unfold st_at. replace (n + 1) with (S n) by lia. reflexivity.
    - unfold param_at. rewrite (proj2 (nth_error_None (a_pos a) n)); [|lia].
      unfold st_at. destruct (Nat.ltb_spec (S n) (length (a_pos a))); [lia|].
      unfold after_pos. rewrite prim_right.
      destruct (a_rest a) as [r|] eqn:E; cbn [advance option_map]; auto.
      rewrite prim_rest, E. reflexivity.
  Qed.

  Lemma adv_rest : forall n, exists m r, advance_rest g (st_at n) = Some (st_at m, r).
  Proof.
    intros n. unfold st_at at 1. destruct (Nat.ltb_spec n (length (a_pos a))).
    - cbn [advance_rest]. rewrite prim_rest. exists (length (a_pos a)). eexists.
      unfold st_at. rewrite Nat.ltb_irrefl. reflexivity.
    - exists n. unfold st_at. destruct (Nat.ltb_spec n (length (a_pos a))); [lia|].
      unfold after_pos. rewrite prim_right. destruct (a_rest a) eqn:E; cbn [advance_rest].
      + rewrite prim_rest. eexists; reflexivity.
      + eexists; reflexivity.
  Qed.

  Lemma skip_at : forall l n, skip g (st_at n) l = Some (st_at (n + npargs l)).
  Proof.
    induction l as [|[x|] l IH]; intros n; cbn [skip npargs].
    - rewrite Nat.add_0_r. auto.
    - apply IH.
    - rewrite adv. rewrite IH. f_equal. f_equal. lia.
  Qed.

  Lemma walk_total : forall l n o, exists m, walk g (st_at n) o l = Some m /\ length m = length l.
  Proof.
    induction l as [|c l IH]; intros n o; cbn [walk].
    - eexists; split; reflexivity.
    - destruct c.
      + rewrite adv. destruct (IH (S n) o) as (m & -> & HL). eexists; split; [reflexivity|]. cbn; lia.
      + destruct (prim_get_named x) as (r & -> & _). destruct (IH n o) as (m & -> & HL).
        eexists; split; [reflexivity|]. cbn; lia.
      + destruct (adv_rest n) as (k & r & ->). destruct (IH k o) as (m & -> & HL).
        eexists; split; [reflexivity|]. cbn; lia.
      + destruct (IH n false) as (m & -> & HL). eexists; split; [reflexivity|]. cbn; lia.
      + destruct (IH n true) as (m & -> & HL). eexists; split; [reflexivity|]. cbn; lia.
      + destruct (IH n o) as (m & -> & HL). eexists; split; [reflexivity|]. cbn; lia.
  Qed.

  (** Whether a child is outside the parentheses, as the walk sees it. *)
  Fixpoint out_at (o : bool) (l : list child) : bool :=
    match l with
    | [] => o
    | KOpen :: l' => out_at false l'
    | KClose :: l' => out_at true l'
    | _ :: l' => out_at o l'
    end.

  Definition named_entry (r : option pty) : option pinfo :=
    option_map (fun p => {| i_kind := Named; i_block := false; i_name := p_name p |}) r.

  Lemma walk_nth : forall sz l n o q m i c, walk g (st_at n) o l = Some m ->
    nth_error l i = Some c -> ~ In KSpread (firstn i l) ->
    nth_error m i = Some
      match c with
      | KPos b => entry (out_at o (firstn i l)) b (param_at (n + given sz q (firstn i l)))
      | KNamed x => match get_named g x with Some r => named_entry r | None => None end
      | KSpread =>
          match advance_rest g (st_at (n + given sz q (firstn i l))) with
          | Some (_, r) => entry (out_at o (firstn i l)) false r
          | None => None
          end
      | _ => None
      end.
  Proof.
    induction l as [|d l IH]; intros n o q m i c HW HN HS; [destruct i; discriminate|].
    destruct i as [|i].
    - cbn in HN. inversion HN; subst c; clear HN HS. cbn [firstn given out_at]. rewrite Nat.add_0_r.
      cbn [walk] in HW.
      destruct d; cbn [option_map] in HW.
      + rewrite adv in HW. destruct (walk _ _ _ _); inversion HW; reflexivity.
      + destruct (get_named g x); [|discriminate]. destruct (walk _ _ _ _); inversion HW; reflexivity.
      + destruct (advance_rest g (st_at n)) as [[st r]|]; [|discriminate].
        destruct (walk _ _ _ _); inversion HW; reflexivity.
      + destruct (walk _ _ _ _); inversion HW; reflexivity.
      + destruct (walk _ _ _ _); inversion HW; reflexivity.
      + destruct (walk _ _ _ _); inversion HW; reflexivity.
    - cbn [firstn] in HS. cbn [nth_error] in HN.
      assert (HS' : ~ In KSpread (firstn i l)) by (intros H; apply HS; right; auto).
      cbn [firstn given out_at]. cbn [walk] in HW.
      destruct d; cbn [option_map] in HW.
      + rewrite adv in HW. destruct (walk g (st_at (S n)) o l) as [m'|] eqn:E; inversion HW; subst.
        cbn [nth_error]. rewrite (IH _ _ (S q) _ _ _ E HN HS').
        replace (n + (1 + given sz (S q) (firstn i l))) with (S n + given sz (S q) (firstn i l)) by lia. reflexivity.
      + destruct (get_named g x); [|discriminate].
        destruct (walk g (st_at n) o l) as [m'|] eqn:E; inversion HW; subst. cbn [nth_error].
        rewrite (IH _ _ (S q) _ _ _ E HN HS'). reflexivity.
      + exfalso. apply HS. left; auto.
      + destruct (walk g (st_at n) false l) as [m'|] eqn:E; inversion HW; subst. cbn [nth_error].
        rewrite (IH _ _ (S q) _ _ _ E HN HS'). reflexivity.
      + destruct (walk g (st_at n) true l) as [m'|] eqn:E; inversion HW; subst. cbn [nth_error].
        rewrite (IH _ _ (S q) _ _ _ E HN HS'). reflexivity.
      + destruct (walk g (st_at n) o l) as [m'|] eqn:E; inversion HW; subst. cbn [nth_error].
        rewrite (IH _ _ (S q) _ _ _ E HN HS'). reflexivity.
  Qed.
End Primary.

(** * Function values *)

Lemma sig_primary : forall f, f_primary (func_signature f) = primary (base f).
Proof. induction f; cbn; auto. Qed.

Lemma npargs_app : forall a b, npargs (a ++ b) = npargs a + npargs b.
Proof. induction a as [|[x|] a IH]; intros b; cbn; auto. Qed.

Lemma sig_bound : forall f, npargs (concat (rev (f_with (func_signature f)))) = bound f.
Proof.
  induction f as [|f IH args]; cbn [func_signature f_with bound]; auto.
  cbn [rev]. rewrite concat_app, npargs_app, IH. cbn. rewrite app_nil_r. auto.
Qed.

Lemma analyze_eq : forall f l,
  analyze_call (func_signature f) l = walk (primary (base f)) (st_at (base f) (bound f)) true l.
Proof.
  intros f l. unfold analyze_call. rewrite sig_primary, adv_init, skip_at, sig_bound. reflexivity.
Qed.

Lemma analyze_total : forall f l, exists m, analyze_call (func_signature f) l = Some m /\ length m = length l.
Proof. intros f l. rewrite analyze_eq. apply walk_total. Qed.

(** * Closures *)

Lemma posn_len : forall ps, length (posn ps) = npos ps.
Proof. unfold npos. induction ps as [|[x|x|x] ps IH]; cbn; auto. Qed.

Lemma gathered_closure : forall ps a,
  let b := fold_left add_param (map cparam_ty ps) a in
  a_pos b = a_pos a ++ map (fun x => cparam_ty (PPos x)) (posn ps) /\
  a_named b = a_named a ++ map (fun x => cparam_ty (PNamed x)) (namedn ps) /\
  a_rest b = match a_rest a with Some q => Some q | None => option_map (fun x => cparam_ty (PSink x)) (sinkn ps) end /\
  a_fss b = a_fss a || existsb fss (namedn ps).
Proof.
  induction ps as [|p ps IH]; intros a; cbn [map fold_left].
  - cbn. rewrite !app_nil_r, orb_false_r. destruct (a_rest a); auto.
  - destruct (IH (add_param a (cparam_ty p))) as (H1 & H2 & H3 & H4).
    rewrite H1, H2, H3, H4. destruct p as [x|x|x]; cbn -[fss].
    + rewrite <- app_assoc, orb_false_r. auto.
    + rewrite <- app_assoc, <- orb_assoc. auto.
    + rewrite orb_false_r. destruct (a_rest a); auto.
Qed.

Lemma closure_param_at : forall ps n k p, param_at (map cparam_ty ps) n = Some (k, p) <->
  (k = Positional /\ exists x, nth_error (posn ps) n = Some x /\ p = cparam_ty (PPos x)) \/
  (k = Rest /\ npos ps <= n /\ exists x, sinkn ps = Some x /\ p = cparam_ty (PSink x)).
Proof.
  intros ps n k p. unfold param_at, gathered.
  destruct (gathered_closure ps acc0) as (H1 & H2 & H3 & H4). cbv zeta in *.
  rewrite H1, H3. cbn [a_pos a_rest acc0 app]. rewrite nth_error_map.
  destruct (nth_error (posn ps) n) as [x|] eqn:E; cbn [option_map].
  - split.
    + intros H; inversion H; subst. left. split; eauto.
    + intros [(-> & y & Hy & ->)|(_ & HL & _)].
      * inversion Hy; auto.
      * rewrite <- posn_len in HL. apply nth_error_None in HL. congruence.
  - apply nth_error_None in E. rewrite posn_len in E.
    destruct (sinkn ps) as [x|]; cbn [option_map].
    + split.
      * intros H; inversion H; subst. right. eauto.
      * intros [(_ & y & Hy & _)|(-> & _ & y & Hy & ->)]; [discriminate|]. inversion Hy; auto.
    + split; [discriminate|]. intros [(_ & y & Hy & _)|(_ & _ & y & Hy & _)]; discriminate.
Qed.

Lemma tidy_cons : forall p ps, tidy (p :: ps) -> tidy ps.
Proof. intros p ps H a b x E. apply (H (p :: a) b x). cbn. congruence. Qed.

Lemma named_only : forall ps, (forall p, In p ps -> exists y, p = PNamed y) ->
  npos ps = 0 /\ sinkn ps = None /\ posn ps = [] /\ forall A s, @bind A s ps [] = [].
Proof.
  induction ps as [|p ps IH]; intros H; [repeat split; auto|].
  destruct (H p (or_introl eq_refl)) as (y & ->).
  destruct IH as (I1 & I2 & I3 & I4). { intros q Hq. apply H; right; auto. }
  unfold npos in *. cbn. repeat split; auto.
Qed.

Lemma bind_tidy : forall ps a m i k x, tidy ps ->
  In (i, (k, x)) (bind (m - npos ps) ps (seq a m)) <->
  exists j, i = a + j /\ j < m /\
    ((k = Positional /\ nth_error (posn ps) j = Some x) \/ (k = Rest /\ npos ps <= j /\ sinkn ps = Some x)).
Proof.
  induction ps as [|p ps IH]; intros a m i k x HT.
  - cbn. split; [intros []|]. intros (j & _ & _ & [(_ & H)|(_ & _ & H)]); [destruct j|]; discriminate.
  - pose proof (tidy_cons _ _ HT) as HT'. destruct p as [y|y|y].
    + assert (EN : npos (PPos y :: ps) = S (npos ps)) by reflexivity. rewrite EN.
      destruct m as [|m].
      * specialize (IH a 0 i k x HT'). cbn [seq bind Nat.sub] in *. rewrite IH.
        split; intros (j & _ & H & _); lia.
      * cbn [seq bind Nat.sub In]. rewrite (IH (S a) m i k x HT'). cbn [posn flat_map app sinkn]. split.
        -- intros [E|(j & -> & Hj & H)].
           ++ inversion E; subst. exists 0. repeat split; try lia. left; auto.
           ++ exists (S j). repeat split; try lia. destruct H as [(? & H)|(? & ? & H)]; [left|right]; repeat split; auto; lia.
        -- intros (j & -> & Hj & H). destruct j as [|j].
           ++ left. destruct H as [(-> & H)|(_ & H & _)]; [|lia]. inversion H; subst. f_equal; lia.
           ++ right. exists j. repeat split; try lia. destruct H as [(? & H)|(? & ? & H)]; [left|right]; repeat split; auto; lia.
    + apply (IH a m i k x HT').
    + assert (HO : forall p, In p ps -> exists z, p = PNamed z) by (apply (HT [] ps y); auto).
      destruct (named_only ps HO) as (N1 & N2 & N3 & N4).
      assert (EN : npos (PSink y :: ps) = 0) by (exact N1). rewrite EN, Nat.sub_0_r.
      cbn [bind]. rewrite (skipn_all2 (seq a m)) by (rewrite seq_length; lia). rewrite N4, app_nil_r.
      rewrite firstn_all2 by (rewrite seq_length; lia).
      change (posn (PSink y :: ps)) with (posn ps). rewrite N3. cbn [sinkn].
      rewrite in_map_iff. split.
      * intros (j & E & Hj). inversion E; subst. apply in_seq in Hj. exists (i - a).
        repeat split; try lia. right. repeat split; auto; lia.
      * intros (j & -> & Hj & [(_ & H)|(-> & _ & H)]); [destruct j; discriminate|]. inversion H; subst.
        exists (a + j). split; auto. apply in_seq; lia.
Qed.

Lemma passed_tidy : forall ps n i k x, tidy ps ->
  passed ps n i k x <-> i < n /\
    ((k = Positional /\ nth_error (posn ps) i = Some x) \/ (k = Rest /\ npos ps <= i /\ sinkn ps = Some x)).
Proof.
  intros ps n i k x HT. unfold passed. rewrite bind_tidy by auto. cbn [Nat.add]. split.
  - intros (j & -> & H). auto.
  - intros H. exists i. tauto.
Qed.

Lemma given_lt : forall sz l q i b, nth_error l i = Some (KPos b) ->
  given sz q (firstn i l) < given sz q l.
Proof.
  induction l as [|c l IH]; intros q i b H; [destruct i; discriminate|].
  destruct i as [|i]; cbn [nth_error firstn given] in *.
  - inversion H; subst. lia.
  - specialize (IH (S q) i b H). lia.
Qed.

(** Where a child is, as the walk sees it, is where it is. *)
Lemma out_no : forall l o, ~ In KOpen l -> ~ In KClose l -> out_at o l = o.
Proof.
  induction l as [|c l IH]; intros o H1 H2; cbn; auto.
  destruct c; try (apply IH; intros H; solve [apply H1; right; exact H | apply H2; right; exact H]).
  - exfalso; apply H1; left; auto.
  - exfalso; apply H2; left; auto.
Qed.

Lemma out_app : forall a b o, out_at o (a ++ b) = out_at (out_at o a) b.
Proof. induction a as [|c a IH]; intros b o; cbn; auto. destruct c; auto. Qed.

Lemma in_firstn : forall A (l : list A) i x, In x (firstn i l) -> In x l.
Proof. intros A l i x H. rewrite <- (firstn_skipn i l). apply in_or_app; auto. Qed.

Lemma out_outside : forall l i, paren_ok l -> (out_at true (firstn i l) = true <-> outside l i).
Proof.
  intros l i (a & b & c & -> & H & C1 & C2). unfold outside.
  destruct H as [(-> & ->)|[(-> & H)|(-> & -> & B1 & B2)]].
  - cbn [app]. rewrite out_no.
    + split; auto. intros _ HI. exfalso. apply C1. eapply in_firstn; eauto.
    + intros HI. apply C1. eapply in_firstn; eauto.
    + intros HI. apply C2. eapply in_firstn; eauto.
  - destruct i as [|i]; [cbn; split; auto|].
    cbn [app firstn out_at]. destruct H as [(-> & ->)|(b' & -> & B1 & B2)].
    + cbn. rewrite firstn_nil. cbn. split; [discriminate|]. intros HI.
      specialize (HI (or_introl eq_refl)). destruct HI as [HI|[]]; discriminate.
    + rewrite <- app_assoc. rewrite firstn_app, out_app.
      rewrite (out_no (firstn i b')); [|intros HI; apply B1; eapply in_firstn; eauto|intros HI; apply B2; eapply in_firstn; eauto].
      destruct (i - length b') as [|j] eqn:E.
      * cbn. rewrite app_nil_r. split; [discriminate|]. intros HI.
        specialize (HI (or_introl eq_refl)). destruct HI as [HI|HI]; [discriminate|]. exfalso. apply B2. eapply in_firstn; eauto.
      * cbn [app firstn out_at]. rewrite out_no.
        2:{ intros HI. apply C1. eapply in_firstn; eauto. }
        2:{ intros HI. apply C2. eapply in_firstn; eauto. }
        split; auto. intros _ _. right. apply in_or_app. right. left. auto.
  - rewrite app_nil_r. destruct i as [|i]; [cbn; split; auto|]. cbn [app firstn out_at].
    rewrite out_no; [|intros HI; apply B1; eapply in_firstn; eauto|intros HI; apply B2; eapply in_firstn; eauto].
    split; [discriminate|]. intros HI. specialize (HI (or_introl eq_refl)). destruct HI as [HI|HI]; [discriminate|].
    exfalso. apply B2. eapply in_firstn; eauto.
Qed.

(** * The map *)

Section Closure.
  Variables (ps : list cparam) (f : func).
  Hypothesis HT : tidy ps.
  Hypothesis HB : base f = map cparam_ty ps.
  Variables (l : list child) (m : list (option pinfo)).
  Hypothesis HM : analyze_call (func_signature f) l = Some m.

  Lemma map_walk : walk (primary (map cparam_ty ps)) (st_at (map cparam_ty ps) (bound f)) true l = Some m.
  Proof. rewrite analyze_eq, HB in HM. exact HM. Qed.

  Lemma map_pos : forall sz i b, nth_error l i = Some (KPos b) -> ~ In KSpread (firstn i l) ->
    forall k x, mapped m i k x <-> goes ps f sz l i k x.
  Proof.
    intros sz i b HN HS k x.
    pose proof (walk_nth _ sz _ _ _ 0 _ _ _ map_walk HN HS) as HE. cbn in HE.
    unfold goes. rewrite passed_tidy by auto. unfold mapped. rewrite HE. unfold entry.
    pose proof (given_lt sz l 0 i b HN) as HG.
    split.
    - intros (o & Ho & <- & <-). destruct (param_at _ _) as [(k', p)|] eqn:EP; [|discriminate].
      cbn in Ho. inversion Ho; subst o; clear Ho. cbn.
      apply closure_param_at in EP. split; [eauto|]. split; [lia|].
      destruct EP as [(-> & y & Hy & ->)|(-> & Hy & y & Hz & ->)]; [left|right]; cbn; auto.
    - intros (_ & _ & H).
      assert (EP : param_at (map cparam_ty ps) (bound f + given sz 0 (firstn i l))
                   = Some (k, match k with Rest => cparam_ty (PSink x) | _ => cparam_ty (PPos x) end)).
      { apply closure_param_at. destruct H as [(-> & H)|(-> & H1 & H2)]; [left|right]; eauto. }
      rewrite EP. eexists. split; [reflexivity|]. cbn. split; auto.
      destruct H as [(-> & _)|(-> & _)]; reflexivity.
  Qed.

  Lemma map_block : paren_ok l -> forall i b o, nth_error l i = Some (KPos b) -> ~ In KSpread (firstn i l) ->
    nth_error m i = Some (Some o) -> (i_block o = true <-> trailing l i).
  Proof.
    intros HP i b o HN HS HO.
    pose proof (walk_nth _ (fun _ => 0) _ _ _ 0 _ _ _ map_walk HN HS) as HE. cbn in HE.
    rewrite HO in HE. unfold entry in HE. destruct (param_at _ _) as [(k', p)|]; [|discriminate].
    cbn in HE. inversion HE; subst. cbn. unfold trailing. rewrite <- out_outside by auto. rewrite HN.
    rewrite andb_true_iff. split.
    - intros (H1 & ->). auto.
    - intros (H1 & H2). inversion H1; auto.
  Qed.

  Lemma map_named : forall i y, nth_error l i = Some (KNamed y) -> ~ In KSpread (firstn i l) ->
    forall k x, mapped m i k x <-> k = Named /\ x = y /\ In (PNamed y) ps.
  Proof.
    intros i y HN HS k x.
    pose proof (walk_nth _ (fun _ => 0) _ _ _ 0 _ _ _ map_walk HN HS) as HE. cbn in HE.
    destruct (prim_get_named (map cparam_ty ps) y) as (r & Hr & H1 & H2).
    rewrite Hr in HE. unfold mapped. rewrite HE.
    destruct (gathered_closure ps acc0) as (_ & G2 & _). cbn in G2.
    unfold gathered in *. rewrite G2 in *.
    assert (HI : In y (map p_name (map (fun x => cparam_ty (PNamed x)) (namedn ps))) <-> In (PNamed y) ps).
    { rewrite map_map. cbn. rewrite map_id. unfold namedn. rewrite in_flat_map. split.
      - intros (p & Hp & Hy). destruct p; cbn in Hy; try contradiction; destruct Hy as [->|[]]; auto.
      - intros Hp. exists (PNamed y). split; auto. left; auto. }
    split.
    - intros (o & Ho & <- & <-). destruct r as [p|]; [|discriminate]. cbn in Ho. inversion Ho; subst o. cbn.
      destruct (H1 p eq_refl) as (E & Hp). repeat split; auto. apply HI. rewrite <- E. apply in_map; auto.
    - intros (-> & -> & Hp). apply HI in Hp. destruct r as [p|]; [|exfalso; apply H2; auto].
      eexists. split; [reflexivity|]. cbn. split; auto. apply H1; auto.
  Qed.

  Lemma map_other : forall i c, nth_error l i = Some c -> (c = KOpen \/ c = KClose \/ c = KOther) ->
    ~ In KSpread (firstn i l) -> nth_error m i = Some None.
  Proof.
    intros i c HN HC HS. rewrite (walk_nth _ (fun _ => 0) _ _ _ 0 _ _ _ map_walk HN HS).
    destruct HC as [->|[->| ->]]; reflexivity.
  Qed.
End Closure.
