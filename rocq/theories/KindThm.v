(** Theorems about the completion of names and functions (C185). *)
From Coq Require Import List Arith Bool Lia.
From Verif Require Import KindModel KindSpec KindProof.
Import ListNotations.

(** C185: what is found of a type does not depend on what was seen before; there is at most one function or symbol, the last of the bounds. *)
Theorem C185_last_partial : forall t c,
  (forall c', check t c' = check t c)
  /\ length (c_functions (check t c)) + length (c_symbols (check t c)) <= 1
  /\ (forall u, In u (c_functions (check t c)) <-> final t u /\ callable u)
  /\ (forall s, In s (c_symbols (check t c)) <-> final t (VSym s)).
Proof.
  intros t c. split; [intros c'; apply check_reset|]. destruct (check_final t c) as [(u & F & C & ->)|[(s & F & ->)|(N & ->)]]; cbn.
  - split; [lia|]. split.
    + intros v. split; [intros [<-|[]]; now split|intros (G & _); left; eapply final_det; eassumption].
    + intros s. split; [intros []|]. intros G. rewrite (final_det _ _ _ F G) in C. exact C.
  - split; [lia|]. split.
    + intros v. split; [intros []|intros (G & C)]. rewrite <- (final_det _ _ _ F G) in C. exact C.
    + intros s'. split; [intros [<-|[]]; exact F|intros G]. pose proof (final_det _ _ _ F G) as E. left. congruence.
  - split; [lia|]. split.
    + intros v. split; [intros []|intros (G & C)]. now apply (N v G).
    + intros s. split; [intros []|intros G]. now apply (N _ G) with s.
Qed.
Print Assumptions C185_last_partial.
(** C185 fails: the bounds of a variable are not all looked at: a function among them is forgotten for a bound after it. *)
Theorem C185_bounds_refuted : exists t u, bound t u /\ callable u /\ ~ In u (c_functions (check t (mkChecker [] []))).
Proof.
  exists (Let [] [Func (mkSig [true] 0 false); BModule]), (Func (mkSig [true] 0 false)).
  split; [|split; [exact I|intros []]]. eapply bound_let; [left; reflexivity|]. now constructor.
Qed.
Print Assumptions C185_bounds_refuted.
(** C185: the kind of alternatives is the kind they all are of, and otherwise that of a variable. *)
Theorem C185_kinds : forall us ls,
  type_to_kind (Let us ls) = type_to_kind (Union (us ++ ls))
  /\ (forall k, us ++ ls <> [] -> (forall t, In t (us ++ ls) -> type_to_kind t = k) -> type_to_kind (Union (us ++ ls)) = k)
  /\ ((us ++ ls = [] \/ exists a b, In a (us ++ ls) /\ In b (us ++ ls) /\ type_to_kind a <> type_to_kind b) -> type_to_kind (Union (us ++ ls)) = KVariable).
Proof. intros us ls. rewrite kind_let, kind_union. split; [reflexivity|apply ffold_spec]. Qed.
Print Assumptions C185_kinds.
(** C185: what is known of functions: the least number of parameters left and of named ones, and whether one takes more arguments, takes content next, or is an element. *)
Theorem C185_features : forall bs fns, known bs fns (feat_of bs fns).
Proof. exact known_all. Qed.
Print Assumptions C185_features.
Definition shape (math : bool) (a : around) (e q z c parens : bool) : list apply :=
  (if match a with ShowTransform => true | _ => false end && q then [CallWith] else []) ++
  (if e && match a with Selector => true | _ => false end then [CallWhere] else []) ++
  (let bad := match a with Selector | SetRule => true | _ => false end && negb e in
   if bad then []
   else if negb parens || match a with Selector => true | _ => false end then [Plain]
   else if z then [Call0]
   else Call :: if negb (math || match a with Selector | SetRule => true | _ => false end) && c then [Bracket] else []).
Ltac now_in := let H := fresh in split; [intros H; repeat destruct H as [H|H]; first [discriminate H|contradiction|reflexivity]|intros H; first [discriminate H|now left|now right; left|now right; right; left]].
Lemma shape_in math a e q z c parens : let fs := shape math a e q z c parens in
  let only := match a with Selector | SetRule => true | _ => false end in let sel := match a with Selector => true | _ => false end in
  (In CallWith fs <-> match a with ShowTransform => true | _ => false end && q = true)
  /\ (In CallWhere fs <-> sel && e = true)
  /\ (In Plain fs <-> (negb only || e) && (negb parens || sel) = true)
  /\ (In Call0 fs <-> (negb only || e) && (parens && negb sel && z) = true)
  /\ (In Call fs <-> (negb only || e) && (parens && negb sel && negb z) = true)
  /\ (In Bracket fs <-> parens && negb only && negb z && negb math && c = true)
  /\ NoDup fs
  /\ (forall x y w, fs = x :: y :: w -> (x = CallWith \/ x = CallWhere \/ x = Call) /\ (w = [] \/ w = [Bracket])).
Proof.
  destruct a, e, q, parens, z; destruct math, c; cbn;
    (split; [now_in|split; [now_in|split; [now_in|split; [now_in|split; [now_in|split; [now_in|]]]]]]; split;
      [repeat (apply NoDup_cons; [cbn; let H := fresh in intros H; repeat destruct H as [H|H]; first [discriminate H|contradiction]|]); apply NoDup_nil
      |let E := fresh in intros x y w E; first [discriminate E|injection E as <- <- <-; split; [first [now left|now right; left|now right; right]|first [now left|now right]]]]).
Qed.
(** C185: exactly which ways to write a function are offered: no more than two, and none twice. *)
Theorem C185_offers : forall math a f parens,
  let fs := func_completion math a f parens in
  let element_only := a = Selector \/ a = SetRule in
  let fits := element_only -> f_elem f = true in
  let nothing_left := (min_pos f = 0 \/ f_only_self f = true) /\ f_rest f = false in
  (In CallWith fs <-> a = ShowTransform /\ (0 < min_pos f \/ 0 < min_named f))
  /\ (In CallWhere fs <-> a = Selector /\ f_elem f = true)
  /\ (In Plain fs <-> fits /\ (parens = false \/ a = Selector))
  /\ (In Call0 fs <-> fits /\ parens = true /\ a <> Selector /\ nothing_left)
  /\ (In Call fs <-> fits /\ parens = true /\ a <> Selector /\ ~ nothing_left)
  /\ (In Bracket fs <-> parens = true /\ ~ element_only /\ ~ nothing_left /\ math = false /\ f_content f = true /\ f_rest f = false)
  /\ NoDup fs
  /\ (forall x y z, fs = x :: y :: z -> (x = CallWith \/ x = CallWhere \/ x = Call) /\ (z = [] \/ z = [Bracket])).
Proof.
  intros math a f parens. cbv zeta.
  set (z := ((min_pos f <? 1) || f_only_self f) && negb (f_rest f)). set (q := (0 <? min_pos f) || (0 <? min_named f)).
  assert (Z : z = true <-> (min_pos f = 0 \/ f_only_self f = true) /\ f_rest f = false) by (unfold z; rewrite andb_true_iff, orb_true_iff, negb_true_iff, Nat.ltb_lt, Nat.lt_1_r; reflexivity).
  assert (Q : q = true <-> 0 < min_pos f \/ 0 < min_named f) by (unfold q; rewrite orb_true_iff, !Nat.ltb_lt; reflexivity).
  assert (NZ : z = false <-> ~ ((min_pos f = 0 \/ f_only_self f = true) /\ f_rest f = false)) by (rewrite <- Z; destruct z; intuition congruence).
  change (func_completion math a f parens) with (shape math a (f_elem f) q z (f_content f && negb (f_rest f)) parens).
  destruct (shape_in math a (f_elem f) q z (f_content f && negb (f_rest f)) parens) as (A1 & A2 & A3 & A4 & A5 & A6 & A7 & A8).
  set (only := match a with Selector | SetRule => true | _ => false end) in *. set (sel := match a with Selector => true | _ => false end) in *.
  assert (O : only = true <-> a = Selector \/ a = SetRule) by (unfold only; destruct a; split; intros H; try discriminate; try (now left); try (now right); try reflexivity; destruct H; discriminate).
  assert (NO : only = false <-> ~ (a = Selector \/ a = SetRule)) by (rewrite <- O; destruct only; intuition congruence).
  assert (S : sel = true <-> a = Selector) by (unfold sel; destruct a; split; intros H; try discriminate; reflexivity).
  assert (NS : sel = false <-> a <> Selector) by (rewrite <- S; destruct sel; intuition congruence).
  assert (F : negb only || f_elem f = true <-> ((a = Selector \/ a = SetRule) -> f_elem f = true)) by (rewrite <- O; destruct only, (f_elem f); cbn; intuition congruence).
  assert (T : match a with ShowTransform => true | _ => false end = true <-> a = ShowTransform) by (destruct a; split; intros H; try discriminate; reflexivity).
  rewrite A1, A2, A3, A4, A5, A6, !andb_true_iff, F, T, Q, S, !orb_true_iff, !negb_true_iff, Z, NZ, NS, NO, S.
  split; [reflexivity|]. split; [reflexivity|]. split; [reflexivity|]. split; [tauto|]. split; [tauto|]. split; [tauto|]. split; assumption.
Qed.
Print Assumptions C185_offers.
(** C185: names are offered each for itself, in the order they are found. *)
Theorem C185_names : forall math a parens ds es,
  def_completions math a parens (ds ++ es) = def_completions math a parens ds ++ def_completions math a parens es.
Proof. intros. unfold def_completions. rewrite !names_flat. apply flat_map_app. Qed.
Print Assumptions C185_names.
(** C185: exactly what is offered for one name: nothing for the empty name or where no names stand; in set rules only elements with parameters to set; else a symbol, a function or a name of its kind. *)
Theorem C185_name : forall math a parens name t,
  let is := def_completions math a parens [(name, t)] in
  let quiet := name = 0 \/ a = StringContent \/ a = ImportList \/ a = ParamList in
  (quiet -> is = [])
  /\ (~ quiet -> a = SetRule ->
      is = [] \/ exists u, final t u /\ (exists s, u = BElem true s \/ exists o, u = VFunc (Some true) o s) /\ is = map (IFunc name) (func_completion math a (feat_of false [u]) parens))
  /\ (~ quiet -> a = SetRule -> forall u s, final t u -> (u = BElem true s \/ exists o, u = VFunc (Some true) o s) -> is = map (IFunc name) (func_completion math a (feat_of false [u]) parens))
  /\ (~ quiet -> a <> SetRule ->
      (forall s, final t (VSym s) -> is = [ISymbol name s])
      /\ (forall u, final t u -> callable u -> is = map (IFunc name) (func_completion math a (feat_of false [u]) parens))
      /\ ((forall u, final t u -> ~ callable u /\ forall s, u <> VSym s) -> is = [IName name (type_to_kind t)])).
Proof.
  intros math a parens name t. cbv zeta. unfold def_completions. cbn [names]. unfold one.
  destruct (Nat.eqb_spec name 0) as [->|Z].
  { cbn [app]. split; [reflexivity|]. split; [|split]; intros Q; exfalso; apply Q; now left. }
  rewrite app_nil_r. pose proof (check_final t (mkChecker [] [])) as CF. remember (check t (mkChecker [] [])) as k eqn:Ek. clear Ek.
  split; [intros [Q|[->|[->| ->]]]; [contradiction|reflexivity..]|].
  assert (S1 : ~ (name = 0 \/ a = StringContent \/ a = ImportList \/ a = ParamList) -> a <> SetRule -> shown a k = true) by (intros Q R; destruct a; cbn; try reflexivity; exfalso; [apply Q; tauto|apply Q; tauto|apply Q; tauto|now apply R]).
  split; [|split].
  - intros Q ->. cbn [shown]. destruct CF as [(u & F & C & ->)|[(s & F & ->)|(N & ->)]]; cbn [c_functions c_symbols existsb]; [|left; reflexivity|left; reflexivity].
    rewrite orb_false_r. destruct (settable u) eqn:S; [right|left; reflexivity]. exists u. split; [assumption|]. split; [|reflexivity].
    destruct u; try discriminate; try destruct elem; try discriminate; cbn in S; subst; eexists; [right; eexists; reflexivity|left; reflexivity].
  - intros Q -> u s F E. cbn [shown]. assert (CU : callable u /\ settable u = true) by (destruct E as [->|(o & ->)]; now split).
    destruct CF as [(u' & F' & C & ->)|[(s' & F' & ->)|(N & ->)]]; cbn [c_functions c_symbols existsb].
    + rewrite <- (final_det _ _ _ F F'). rewrite (proj2 CU). reflexivity.
    + exfalso. pose proof (final_det _ _ _ F F') as D. destruct E as [E|(o & E)]; congruence.
    + exfalso. now apply (N u F).
  - intros Q R. rewrite (S1 Q R). cbn [negb]. destruct CF as [(u & F & C & ->)|[(s & F & ->)|(N & ->)]]; cbn [c_functions c_symbols least fold_left]; (split; [|split]).
    + intros s G. exfalso. rewrite (final_det _ _ _ F G) in C. exact C.
    + intros v G _. now rewrite (final_det _ _ _ F G).
    + intros H. exfalso. now apply (H u F).
    + intros s' G. pose proof (final_det _ _ _ F G). congruence.
    + intros v G C. exfalso. rewrite <- (final_det _ _ _ F G) in C. exact C.
    + intros H. exfalso. now apply (H _ F) with s.
    + intros s G. exfalso. now apply (N _ G) with s.
    + intros v G C. exfalso. now apply (N v G).
    + reflexivity.
Qed.
Print Assumptions C185_name.
(** C185 fails: a type of values, which may be called, is completed with empty parentheses although its constructor has parameters to give. *)
Theorem C185_types_refuted : exists s, s_pos s <> [] /\ callable (BTypeType (Some s))
  /\ def_completions false Regular true [(1, BTypeType (Some s))] = [IFunc 1 Call0]
  /\ def_completions false Regular true [(1, VType (Some s))] = [IFunc 1 Call; IFunc 1 Bracket].
Proof. exists (mkSig [true] 0 false). split; [discriminate|]. split; [exact I|]. split; reflexivity. Qed.
Print Assumptions C185_types_refuted.

(** An element taking content, with an argument given; alternatives of one kind and of two. *)
Example C185_nonvacuous :
  let f := BElem true (mkSig [false; true] 2 false) in
  def_completions false Regular true [(0, f); (3, With 1 f); (4, VSym 9); (5, Union [BModule; BModule])] = [IFunc 3 Call; IFunc 3 Bracket; ISymbol 4 9; IName 5 KModule]
  /\ def_completions false Selector true [(3, f)] = [IFunc 3 CallWhere; IFunc 3 Plain]
  /\ def_completions false ShowTransform true [(3, f)] = [IFunc 3 CallWith; IFunc 3 Call]
  /\ def_completions false SetRule true [(3, f); (6, BModule)] = [IFunc 3 Call]
  /\ final (Let [] [VSym 1; Let [f] []]) f
  /\ called (With 1 f) 1 (mkSig [false; true] 2 false) /\ type_to_kind (Union [BModule; VSym 1]) = KVariable.
Proof.
  cbv zeta. split; [reflexivity|]. split; [reflexivity|]. split; [reflexivity|]. split; [reflexivity|]. split; [|split; [|reflexivity]].
  - apply (final_let _ _ [VSym 1] (Let [BElem true (mkSig [false; true] 2 false)] [])); [reflexivity|]. apply (final_let _ _ [] (BElem true (mkSig [false; true] 2 false))); [reflexivity|]. now constructor.
  - apply (called_with 1 0). constructor.
Qed.
