(** C109: the map from arguments to parameters is what the call does; C110:
    signature help marks the parameter the argument is passed to; C111: the
    types of arguments are matched with those of the parameters that take
    them. *)
From Coq Require Import List Arith Bool Lia Permutation.
From Verif Require Import CallModel CallSpec CallProof CallHints.
Import ListNotations.

(** [analyze_call], the hints and signature help never panic, whatever the
    parameters of the function, the [with] calls and the arguments. *)
Theorem C109_total : forall f l set t,
  (exists m, analyze_call (func_signature f) l = Some m /\ length m = length l) /\
  hints (func_signature f) l <> None /\ signature_help (func_signature f) set t <> None.
Proof.
  intros f l set t. split; [apply analyze_total|]. split.
  - unfold hints. destruct (analyze_total f l) as (m & -> & _). discriminate.
  - unfold signature_help. rewrite sig_primary. destruct (params_total (base f)) as (q & ->).
    destruct (help_loop _ _ _ _ _ _ _). discriminate.
Qed.
Print Assumptions C109_total.

(** A positional argument is given the parameter that Typst passes it to, and
    none if Typst passes it to none.  Missing: sinks before a positional
    parameter, arguments after a spread, [with] calls found by static
    analysis. *)
Theorem C109_passed_partial : forall ps f l m sz i b, tidy ps -> base f = map cparam_ty ps ->
  analyze_call (func_signature f) l = Some m ->
  nth_error l i = Some (KPos b) -> ~ In KSpread (firstn i l) ->
  forall k x, mapped m i k x <-> goes ps f sz l i k x.
Proof. intros ps f l m sz i b HT HB HM HN HS. eapply map_pos; eauto. Qed.
Print Assumptions C109_passed_partial.

(** A named argument is given the parameter of its name, if there is one. *)
Theorem C109_named : forall ps f l m i y, base f = map cparam_ty ps ->
  analyze_call (func_signature f) l = Some m ->
  nth_error l i = Some (KNamed y) -> ~ In KSpread (firstn i l) ->
  forall k x, mapped m i k x <-> k = Named /\ x = y /\ In (PNamed y) ps.
Proof. intros ps f l m i y HB HM HN HS. eapply map_named; eauto. Qed.
Print Assumptions C109_named.

(** The content blocks are the ones after the parentheses. *)
Theorem C109_block : forall ps f l m i b o, base f = map cparam_ty ps ->
  analyze_call (func_signature f) l = Some m -> paren_ok l ->
  nth_error l i = Some (KPos b) -> ~ In KSpread (firstn i l) ->
  nth_error m i = Some (Some o) -> (i_block o = true <-> trailing l i).
Proof. intros ps f l m i b o HB HM HP HN HS. eapply map_block; eauto. Qed.
Print Assumptions C109_block.

(** Which hints are shown, and with what names, for calls without spreads. *)
Theorem C109_hints_partial : forall ps f l sz h, tidy ps -> base f = map cparam_ty ps -> paren_ok l ->
  ~ In KSpread l -> hints (func_signature f) l = Some h ->
  (forall i x, In (i, false, x) h <->
     plain ps f sz l i x /\ x <> 0 /\ (~ exists y, In (PNamed y) ps /\ 1 <= y <= 3) /\
     exists j y, j <> i /\ (plain ps f sz l j y \/ goes ps f sz l j Rest y)) /\
  (forall i x, In (i, true, x) h <->
     goes ps f sz l i Rest x /\ x <> 0 /\ (forall j y, j < i -> ~ goes ps f sz l j Rest y) /\
     exists j y, plain ps f sz l j y).
Proof.
  intros ps f l sz h HT HB HP HS HH. split; intros i x.
  - eapply hint_pos; eauto.
  - eapply hint_rest; eauto.
Qed.
Print Assumptions C109_hints_partial.

(** [#let f(a, k: 0, ..r)], [g = f.with(k: 1)], [g(x, y)[z]]. *)
Definition ex_ps := [PPos 11; PNamed 12; PSink 13].
Definition ex_f := With (closure ex_ps) [Some 12].
Definition ex_l := [KOpen; KPos false; KOther; KPos false; KClose; KPos true].

Example C109_nonvacuous :
  tidy ex_ps /\ base ex_f = map cparam_ty ex_ps /\ paren_ok ex_l /\ ~ In KSpread ex_l /\
  hints (func_signature ex_f) ex_l = Some [(1, false, 11); (3, true, 13)] /\
  goes ex_ps ex_f (fun _ => 0) ex_l 5 Rest 13.
Proof.
  repeat split.
  - intros a b x E p Hp. destruct a as [|? [|? [|? [|? a]]]]; inversion E; subst; destruct Hp.
  - exists [KOpen], [KPos false; KOther; KPos false; KClose], [KPos true]. split; [reflexivity|]. split.
    + right. left. split; auto. right. exists [KPos false; KOther; KPos false]. repeat split;
        cbn; intuition discriminate.
    + cbn; intuition discriminate.
  - cbn; intuition discriminate.
  - eexists; reflexivity.
  - cbn. right. right. left. reflexivity.
Qed.

(** [#let f(..r, a)], [f(x, y)]: the names are swapped: the first argument,
    which is passed to [r], is called [a], the second, which is passed to [a],
    is called [r]. *)
Theorem C109_sink_refuted : exists ps l m, ~ In KSpread l /\
  analyze_call (func_signature (closure ps)) l = Some m /\
  goes ps (closure ps) (fun _ => 0) l 3 Positional 12 /\ mapped m 3 Rest 11 /\
  goes ps (closure ps) (fun _ => 0) l 1 Rest 11 /\ mapped m 1 Positional 12.
Proof.
  exists [PSink 11; PPos 12], [KOpen; KPos false; KOther; KPos false; KClose]. eexists.
  split; [cbn; intuition discriminate|]. split; [reflexivity|].
  split; [split; [eexists; reflexivity|cbn; auto]|]. split; [eexists; split; [reflexivity|split; reflexivity]|].
  split; [split; [eexists; reflexivity|cbn; auto]|]. eexists; split; [reflexivity|split; reflexivity].
Qed.
Print Assumptions C109_sink_refuted.

(** [#let f(a, ..r)], [f(..(), x)]: the argument is passed to [a] and called
    [r]. *)
Theorem C109_spread_refuted : exists ps l m sz,
  analyze_call (func_signature (closure ps)) l = Some m /\
  goes ps (closure ps) sz l 3 Positional 11 /\ mapped m 3 Rest 12.
Proof.
  exists [PPos 11; PSink 12], [KOpen; KSpread; KOther; KPos false; KClose]. eexists. exists (fun _ => 0).
  split; [reflexivity|]. split; [split; [eexists; reflexivity|cbn; auto]|].
  eexists; split; [reflexivity|split; reflexivity].
Qed.
Print Assumptions C109_spread_refuted.

(** [#let f(a, b)], [#let g = f.with(1)], [g(x)]: [x] is passed to [b] and
    called [a], when the [with] call is found by static analysis; when it is
    read off the function value it is called [b]. *)
Theorem C109_with_refuted : exists ps l s m m',
  wind_stack [1] (func_signature (closure ps)) = Some s /\ analyze_call s l = Some m /\
  goes ps (With (closure ps) [None]) (fun _ => 0) l 1 Positional 12 /\ mapped m 1 Positional 11 /\
  analyze_call (func_signature (With (closure ps) [None])) l = Some m' /\ mapped m' 1 Positional 12.
Proof.
  exists [PPos 11; PPos 12], [KOpen; KPos false; KClose]. eexists. eexists. eexists.
  split; [reflexivity|]. split; [reflexivity|].
  split; [split; [eexists; reflexivity|cbn; auto]|]. split; [eexists; split; [reflexivity|split; reflexivity]|].
  split; [reflexivity|]. eexists; split; [reflexivity|split; reflexivity].
Qed.
Print Assumptions C109_with_refuted.

(** With the cursor at an argument that is passed to a positional parameter,
    signature help marks that parameter.  Missing: arguments of the sink,
    [with] calls with named arguments, arguments after a spread, cursors
    deeper inside an argument. *)
Theorem C110_marks_partial : forall ps f o l i x sz, tidy ps -> base f = map cparam_ty ps -> only_pos f ->
  (forall b w, In (KPos b, w) l -> 0 < w) -> ~ In KSpread (firstn i (map fst l)) ->
  goes ps f sz (map fst l) i Positional x ->
  exists t names a, arg_context o l i = Some t /\
    signature_help (func_signature f) false t = Some (names, Some a) /\
    nth_error names a = Some x /\ a < npos ps.
Proof.
  intros ps f o l i x sz HT HB HO HW HS ((b & Hb) & HG).
  rewrite nth_error_map in Hb. destruct (nth_error l i) as [(c, w)|] eqn:E; [|discriminate].
  cbn in Hb. inversion Hb; subst c.
  destruct (help_passed _ _ _ _ _ HT HB HO HG) as (names & H1 & H2 & H3).
  eexists. exists names. eexists. split; [eapply context_pos; eauto|]. split; [exact H1|]. auto.
Qed.
Print Assumptions C110_marks_partial.

(** With the cursor at a named argument, in a call or in a set rule, the
    parameter marked has its name, and if none is marked none has. *)
Theorem C110_named : forall f set x, exists names act,
  signature_help (func_signature f) set (TNamed x) = Some (names, act) /\
  (forall a, act = Some a -> nth_error names a = Some x) /\ (act = None -> ~ In x names).
Proof. exact help_named_ok. Qed.
Print Assumptions C110_named.

(** What is shown for a closure: the positional parameters in order, the
    named ones, the sink. *)
Theorem C110_shown : forall ps f t names act, base f = map cparam_ty ps ->
  signature_help (func_signature f) false t = Some (names, act) ->
  exists ns, names = posn ps ++ ns ++ opt_list (sinkn ps) /\ Permutation ns (namedn ps).
Proof. exact shown_closure. Qed.
Print Assumptions C110_shown.

(** What is shown in a set rule: the settable parameters. *)
Theorem C110_set : forall f x names act, signature_help (func_signature f) true (TNamed x) = Some (names, act) ->
  (forall y, In y names -> exists p, In p (base f) /\ p_set p = true /\ p_name p = y) /\
  (forall p, NoDup (map p_name (base f)) -> In p (base f) -> p_set p = true ->
     p_named p = true \/ p_pos p = true /\ p_var p = false -> In (p_name p) names).
Proof. exact shown_set. Qed.
Print Assumptions C110_set.

(** In a set rule a positional argument marks nothing. *)
Theorem C110_set_pos : forall f n, exists names, signature_help (func_signature f) true (TPos n) = Some (names, None).
Proof.
  intros f n. unfold signature_help. rewrite sig_primary. destruct (params_total (base f)) as (l & ->).
  pose proof (help_set_pos n (param_shift (func_signature f)) (map fst l) 0 0) as H.
  destruct (help_loop true (TPos n) (param_shift (func_signature f)) 0 0 None (map fst l)) as (names, r).
  cbn in H. subst r. exists names. reflexivity.
Qed.
Print Assumptions C110_set_pos.

(** [f(x, k: 0, y)] of [#let f(a, b, k: 0, ..r)], after [f.with(u)]: the
    cursor at [x] marks [b]; a set rule on a function with a settable and
    another parameter. *)
Example C110_nonvacuous :
  let ps := [PPos 11; PPos 12; PNamed 14; PSink 13] in
  let f := With (closure ps) [None] in
  let l := [(KOpen, 1); (KPos false, 1); (KOther, 1); (KNamed 14, 4); (KOther, 1); (KPos false, 1); (KClose, 1)] in
  only_pos f /\ goes ps f (fun _ => 0) (map fst l) 1 Positional 12 /\
  arg_context 5 l 1 = Some (TPos 0) /\
  signature_help (func_signature f) false (TPos 0) = Some ([11; 12; 14; 13], Some 1) /\
  arg_context 5 l 3 = Some (TNamed 14) /\
  signature_help (func_signature f) false (TNamed 14) = Some ([11; 12; 14; 13], Some 2) /\
  signature_help
    (func_signature (Base [{| p_name := 7; p_ty := 0; p_pos := true; p_named := false; p_var := false; p_set := false |};
                           {| p_name := 9; p_ty := 0; p_pos := false; p_named := true; p_var := false; p_set := true |};
                           {| p_name := 8; p_ty := 0; p_pos := false; p_named := true; p_var := false; p_set := true |}]))
    true (TNamed 9) = Some ([8; 9], Some 1).
Proof.
  cbv zeta. repeat split; try reflexivity.
  - intros a [<-|[]]. reflexivity.
  - eexists; reflexivity.
  - vm_compute. auto.
Qed.

(** An argument of the sink: the last positional parameter is marked, or, if
    there is none, the first one shown, here a named one. *)
Theorem C110_sink_refuted : exists ps l i a names ps' a' names',
  goes ps (closure ps) (fun _ => 0) (map fst l) i Rest 12 /\
  (exists t, arg_context 0 l i = Some t /\
     signature_help (func_signature (closure ps)) false t = Some (names, Some a)) /\
  nth_error names a = Some 11 /\ In (PPos 11) ps /\
  goes ps' (closure ps') (fun _ => 0) (map fst l) i Rest 12 /\
  (exists t, arg_context 0 l i = Some t /\
     signature_help (func_signature (closure ps')) false t = Some (names', Some a')) /\
  nth_error names' a' = Some 13 /\ In (PNamed 13) ps'.
Proof.
  exists [PPos 11; PSink 12], [(KOpen, 1); (KPos false, 1); (KOther, 1); (KPos false, 1); (KClose, 1)], 3.
  eexists. eexists. exists [PNamed 13; PSink 12]. eexists. eexists.
  split; [split; [eexists; reflexivity|cbn; auto]|].
  split; [eexists; split; reflexivity|]. split; [reflexivity|]. split; [left; auto|].
  split; [split; [eexists; reflexivity|cbn; auto]|].
  split; [eexists; split; reflexivity|]. split; [reflexivity|left; auto].
Qed.
Print Assumptions C110_sink_refuted.

(** [f.with(k: 1)] shifts the positional parameters by one: with the cursor
    at the first argument, passed to [a], the second parameter is marked. *)
Theorem C110_with_refuted : exists ps f l i a names,
  base f = map cparam_ty ps /\ goes ps f (fun _ => 0) (map fst l) i Positional 11 /\
  (exists t, arg_context 0 l i = Some t /\ signature_help (func_signature f) false t = Some (names, Some a)) /\
  nth_error names a = Some 12 /\ In (PPos 12) ps.
Proof.
  exists [PPos 11; PPos 12; PNamed 13], (With (closure [PPos 11; PPos 12; PNamed 13]) [Some 13]),
    [(KOpen, 1); (KPos false, 1); (KClose, 1)], 1.
  eexists. eexists. split; [reflexivity|]. split; [split; [eexists; reflexivity|cbn; auto]|].
  split; [eexists; split; reflexivity|]. split; [reflexivity|cbn; auto].
Qed.
Print Assumptions C110_with_refuted.

(** The types are paired position by position: the [i]th parameter, or the
    rest one, with the [i]th argument, those of the innermost [with] call
    first, or the rest of the arguments; as many as there are parameters or
    arguments, and one more if both have a rest. *)
Theorem C111_pairs : forall pos named rest apos anamed arest (ws : list (list nat * list (nat * nat))) i p a,
  let all := concat (rev (map fst ws)) ++ apos in
  nth_error (matches_pos (sig_new pos named rest) (sig_new apos anamed arest)
               (map (fun w => sig_new (fst w) (snd w) None) ws)) i = Some (p, a) <->
  or_rest pos rest i p /\ or_rest all arest i a /\
  i < Nat.max (length pos) (length all) + (if rest then if arest then 1 else 0 else 0).
Proof.
  intros pos named rest apos anamed arest ws i p a all. rewrite matches_nth. cbv zeta.
  rewrite !new_positional, !new_rest.
  assert (E : flat_map positional_params (rev (map (fun w => sig_new (fst w) (snd w) None) ws)) = concat (rev (map fst ws))).
  { rewrite flat_map_concat_map, <- map_rev, map_map, <- map_rev. f_equal. apply map_ext. intros w. apply new_positional. }
  rewrite E. fold all.
  assert (HO : forall l r x, (match nth_error l i with Some y => Some y | None => r end) = Some x <-> or_rest l r i x).
  { intros l r x. unfold or_rest. destruct (nth_error l i) as [y|] eqn:EN.
    - split; [intros H; left; auto|]. intros [H|(H & _)]; auto. apply nth_error_None in H. congruence.
    - pose proof (proj1 (nth_error_None l i) EN). split; [intros ->; right; auto|]. intros [H1|(_ & H1)]; [discriminate|auto]. }
  rewrite <- !HO.
  destruct (match nth_error pos i with Some y => Some y | None => rest end) as [p'|].
  2:{ split; [discriminate|]. intros (H & _). discriminate. }
  destruct (match nth_error all i with Some y => Some y | None => arest end) as [a'|].
  2:{ split; [discriminate|]. intros (_ & H & _). discriminate. }
  replace (match rest with Some _ => match arest with Some _ => 1 | None => 0 end | None => 0 end)
    with (if rest then if arest then 1 else 0 else 0) by reflexivity.
  destruct (Nat.ltb_spec i (Nat.max (length pos) (length all) + (if rest then if arest then 1 else 0 else 0))).
  - split.
    + intros H1; inversion H1; subst. auto.
    + intros (H1 & H2 & _). inversion H1; inversion H2; auto.
  - split; [discriminate|]. intros (_ & _ & H1). lia.
Qed.
Print Assumptions C111_pairs.

(** The parts of a function type are the ones it was made of; a named
    parameter is found by its name. *)
Theorem C111_parts : forall pos named rest x t, let s := sig_new pos named rest in
  positional_params s = pos /\ rest_param s = rest /\ Permutation (named_params s) named /\
  (ty_named s x = Some t -> In (x, t) named) /\ (ty_named s x = None -> ~ In x (map fst named)).
Proof.
  intros pos named rest x t s. split; [apply new_positional|]. split; [apply new_rest|].
  assert (HN : named_params s = shape_fields named).
  { unfold named_params, s. rewrite new_names, new_start, new_inputs.
    rewrite skipn_app, Nat.sub_diag, skipn_all. cbn [app skipn].
    generalize (shape_fields named) as q. induction q as [|(y, u) q IH]; [reflexivity|]. cbn. f_equal; auto. }
  split; [rewrite HN; apply shape_perm|].
  assert (HF : forall i y, nth_error (map fst (shape_fields named)) i = Some y ->
    exists u, nth_error (s_inputs s) (i + s_start s) = Some u /\ In (y, u) named).
  { intros i y Hy. unfold s. rewrite new_inputs, new_start.
    rewrite nth_error_app2 by lia. replace (i + length pos - length pos) with i by lia.
    rewrite nth_error_map in Hy. destruct (nth_error (shape_fields named) i) as [(y', u)|] eqn:E; [|discriminate].
    cbn in Hy. inversion Hy; subst. exists u. split.
    - rewrite nth_error_app1 by (rewrite map_length; apply nth_error_Some; congruence).
      rewrite nth_error_map, E. reflexivity.
    - apply (proj1 (shape_in _ _)). eapply nth_error_In; eauto. }
  unfold ty_named. split.
  - intros H. destruct (bone_find (s_names s) x) as [i|] eqn:E; [|discriminate].
    apply find_sound in E. destruct (HF i x E) as (u & H1 & H2). rewrite H in H1. inversion H1; subst. auto.
  - intros H. destruct (bone_find (s_names s) x) as [i|] eqn:E.
    + apply find_sound in E. destruct (HF i x E) as (u & H1 & _). congruence.
    + apply bone_none in E; [|apply names_sorted]. intros HI. apply E. unfold s. rewrite new_names.
      apply in_map_iff in HI. destruct HI as (f & <- & HI). apply in_map. apply (proj2 (shape_in _ _)). auto.
Qed.
Print Assumptions C111_parts.

(** [(1, 2, ..3)] called with [4] applied by [with], then [5, 6, 7, ..8]. *)
Example C111_nonvacuous :
  matches_pos (sig_new [1; 2] [(5, 9); (4, 8)] (Some 3)) (sig_new [5; 6; 7] [] (Some 8))
    (map (fun w => sig_new (fst w) (snd w) None) [([4], [])])
  = [(1, 4); (2, 5); (3, 6); (3, 7); (3, 8)] /\
  ty_named (sig_new [1; 2] [(5, 9); (4, 8)] (Some 3)) 4 = Some 8 /\
  ty_named (sig_new [1; 2] [(5, 9); (4, 8)] (Some 3)) 6 = None.
Proof. vm_compute. auto. Qed.
